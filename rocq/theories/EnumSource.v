(** An enum as it is written, and what the derive macros make of it: the lines of
    attributes on the enum, its variants and their fields are parsed (AttrParse.v), the
    variants get their numbers, patterns and conditions (EnumText.v), the expressions
    become code (GenExpr.v), and the arms are made from the fields (GenDecode.v,
    GenEncode.v). *)
From Coq Require Import Ascii String.
From Verif Require Import Base Ints Reader Writer Decode Encode Sugar AttrParse EnumText GenExpr GenDecode GenEncode Source Schema.
Close Scope string_scope.

(** A variant as written: its name in lower case, its lines of attributes, the literal of
    its discriminant, whether its fields have names, and the fields. A variant without
    fields has an empty list. The fields of [V(..)] are called [v0], [v1] and so on
    (derive_enum.rs:451-459). [x_meaning]: as [s_meaning]. *)
Record source_variant := mksource_variant {
  x_name : bytes; x_lines : list attribute; x_disc : option bytes; x_meaning : meaning;
  x_named : bool; x_fields : list source_field }.
Record source_enum := mksource_enum { g_container : list attribute; g_variants : list source_variant }.
Definition variant_of (x : source_variant) : variant_decl := mkvariant (x_lines x) (x_name x) (x_disc x).

(** ** Expressions *)

(** derive_enum.rs:525-552: in the encoder the fields [vs] of the variant are references.
    [code]: one of [star_code], [var_code false], [order_code false]. *)
Definition variant_number (A : arithmetic val) (others : bytes -> option val) (code : bytes -> bytes)
                          (names : list bytes) (vs : list val) (text : bytes) : expr :=
  fun _ => match code_value (with_references A) (variant_scope (combine names vs) others) (code text) with
           | Some (GenExpr.Value (VInt z)) => z
           | _ => 0%Z
           end.
(** derive_enum.rs:470, 523: what is written on the variant itself must not be an
    expression: the code for it is [self.x], and an enum has no [x]. (An [offset] would
    have the code [*x], and compile in the decoder.) *)
Definition number_slots : list slot :=
  [SByteorder; SLength; SCount; STryCount; SBranch; SBits; SByteCount; SByteCountOutside; SOffset].
Definition literal_numbers (fa : field_attributes) : bool :=
  forallb (fun s => match member fa s with Some (AttrParse.Value (AVar _)) => false | _ => true end) number_slots.

(** ** Fields *)

(** encode.rs:12-15: the code for [offset] is made by [to_code2], which puts a star before
    it, in tuples too. *)
Definition with_offset (o : option expr) (f : fspec) : fspec :=
  mkfspec (f_use f) (f_order f) (f_length f) (f_count f) (f_try_count f) (f_branch f) (f_bits f) (f_bits_start f) (f_byte_count f)
    (f_byte_count_outside f) (f_remaining f) (f_key f) (f_split f) (f_linend f) (f_loop f) o (f_full f)
    (f_untake f) (f_skip_decode f) (f_skip_encode f) (f_from_str f) (f_if f) (f_value_decode f) (f_value_encode f)
    (f_check f) (f_vars f) (f_with_decode f) (f_with_encode f) (f_format f).
(** derive_enum.rs:525-552 *)
Fixpoint read_bound (number order offset : bytes -> expr) (fs : list source_field) : option (list field) :=
  match fs with
  | [] => Some []
  | f :: r =>
      match attributes_of (s_lines f), read_bound number order offset r with
      | Some fa, Some l =>
          let m := s_meaning f in
          Some (mkfield (s_name f)
                  (with_offset (f_offset (field_spec (with_numbers offset order m) fa))
                               (field_spec (with_numbers number order m) fa))
                  (s_type f) :: l)
      | _, _ => None
      end
  end.

(** ** Arms *)
Record code_arm := mkarm { i_attrs : field_attributes; i_own : fspec; i_name : bytes; i_named : bool; i_fields : list field }.
(** [fields]: the fields of a variant as the decoder or the encoder sees them. *)
Fixpoint read_arms (fields : source_variant -> option (list field)) (xs : list source_variant) : option (list code_arm) :=
  match xs with
  | [] => Some []
  | x :: r =>
      match attributes_of (x_lines x), fields x, read_arms fields r with
      | Some fa, Some fs, Some l =>
          if literal_numbers fa then Some (mkarm fa (field_spec (x_meaning x) fa) (x_name x) (x_named x) fs :: l) else None
      | _, _, _ => None
      end
  end.
(** derive_enum.rs:172-188, 474-492: the byte string of a variant *)
Definition prefix_text (a : code_arm) : bytes :=
  match raw (member (i_attrs a) SBranchValue) with Some s => s | None => "b"%byte :: QUOTE :: i_name a ++ [QUOTE] end.
Definition default_arm (a : code_arm) : bool := given_flag (member (i_attrs a) SBranchDefault).
Definition is_byte_string (s : bytes) : bool := match s with "b"%byte :: _ => true | _ => false end.

(** ** The decoder *)
Record enum_decoder := mkdecoder {
  r_container : option cspec; r_spec : espec; r_arms : list code_arm; r_numbers : list N; r_conditions : list condition }.
(** [numbers]: as in [read_fields] (Source.v). *)
Definition enum_decoder_with (numbers : (bool -> bytes -> bytes) -> list bytes -> bytes -> expr) (s : source_enum) : option enum_decoder :=
  match container_attributes_of (g_container s), read_arms (fun x => read_fields numbers [] (x_fields x)) (g_variants s),
        variant_numbers 0 (map variant_of (g_variants s)), conditions 0 (map variant_of (g_variants s)) with
  | Some ca, Some arms, Some ns, Some cs =>
      Some (mkdecoder (if container_used (g_container s) then Some (container_spec ca) else None)
                      (mkespec (container_spec ca) (decoder_branching ca) (ca_disable ca)) arms ns cs)
  | _, _, _, _ => None
  end.
Definition derived_enum_decoder (A : arithmetic val) (others : bytes -> option val) (s : source_enum) : option enum_decoder :=
  if container_other (g_container s) then None else enum_decoder_with (decoder_number A others) s.
(** Does it compile? Without variants there is [Ok(Self {{}})], which does not parse. The
    patterns of a [match] on a number must not be byte strings, those of a [match] on bytes
    must be; so must the texts in [starts_with(..)]. *)
Definition enum_decoder_compiles (pm : patterns) (d : enum_decoder) (vars : list (nat * N)) : bool :=
  match r_arms d with [] => false | _ => true end &&
  forallb (fun a => arm_compiles (i_named a) (r_container d) vars (i_own a) (i_fields a)) (r_arms d) &&
  match e_branching (r_spec d) with
  | ByTag => forallb (fun an => match arm_of (i_attrs (fst an)) (snd an) with ArmPattern s => negb (is_byte_string s) | _ => true end)
                     (combine (r_arms d) (r_numbers d))
  | ByBytes _ => forallb (fun an => match arm_takes_bytes pm (arm_of (i_attrs (fst an)) (snd an)) [] with Some _ => true | None => false end)
                         (combine (r_arms d) (r_numbers d))
  | ByPrefix | ByPrefixUntake =>
      grammatical (closed (r_conditions d)) && forallb (fun a => default_arm a || is_byte_string (prefix_text a)) (r_arms d)
  end.
(** The arm that is taken, and what it does. Where nothing is to be skipped, [eat] is 0;
    there is no [advance] in the code then. *)
Definition run_chosen (d : enum_decoder) (vars : list (nat * N)) (eat : code_arm -> N) (nomatch : ekind) (choice : option nat) : rd val :=
  match choice with
  | None => fail nomatch
  | Some i =>
      match nth_error (r_arms d) i with
      | None => fail nomatch
      | Some a =>
          _ <- advance (eat a) ;;
          xs <- run_arm dec (i_named a) (r_container d) vars (i_own a) (i_fields a) ;;
          ret (VVariant i xs)
      end
  end.
Fixpoint first_true (l : list bool) : option nat :=
  match l with [] => None | b :: r => if b then Some O else option_map Datatypes.S (first_true r) end.
(** derive_enum.rs:123-355 *)
Definition run_enum_decoder (pm : patterns) (d : enum_decoder) (ca : cattr) (fa : fattr) : rd val :=
  match e_branching (r_spec d) with
  | ByTag =>
      tag <- enum_tag (r_spec d) ca fa ;;
      run_chosen d (k_vars ca) (fun _ => 0) InvalidByteLength
        (first_true (map (fun an => arm_takes pm (arm_of (i_attrs (fst an)) (snd an)) tag) (combine (r_arms d) (r_numbers d))))
  | ByBytes n =>
      value <- take_bytes n ;;
      run_chosen d (k_vars ca) (fun _ => 0) InvalidByteLength
        (first_true (map (fun an => match arm_takes_bytes pm (arm_of (i_attrs (fst an)) (snd an)) value with Some b => b | None => false end)
                         (combine (r_arms d) (r_numbers d))))
  | ByPrefix => fun dt p =>
      run_chosen d (k_vars ca) (fun a => if default_arm a then 0 else lenN (p_bytes pm (prefix_text a))) Fail
        (chain_takes pm (remaining dt p) (closed (r_conditions d))) dt p
  | ByPrefixUntake => fun dt p =>
      run_chosen d (k_vars ca) (fun _ => 0) Fail (chain_takes pm (remaining dt p) (closed (r_conditions d))) dt p
  end.

(** ** The encoder *)
Record enum_encoder := mkencoder { w_spec : espec; w_arms : list code_arm; w_numbers : list N }.
(** [fields]: as in [read_arms]. *)
Definition enum_encoder_with (fields : source_variant -> option (list field)) (s : source_enum) : option enum_encoder :=
  match container_attributes_of (g_container s), read_arms fields (g_variants s), variant_numbers 0 (map variant_of (g_variants s)) with
  | Some ca, Some arms, Some ns => Some (mkencoder (mkespec (container_spec ca) (encoder_branching ca) (ca_disable ca)) arms ns)
  | _, _, _ => None
  end.
(** The encoder, as it does for a variant with the fields [vs]. *)
Definition derived_enum_encoder (A : arithmetic val) (others : bytes -> option val) (s : source_enum) (vs : list val) : option enum_encoder :=
  let fields x :=
    let number code := variant_number A others code (map s_name (x_fields x)) vs in
    read_bound (number (if x_named x then star_code else var_code false)) (number (GenExpr.order_code false)) (number star_code) (x_fields x) in
  if container_other (g_container s) then None else enum_encoder_with fields s.
(** What GenEncode.v needs to know of a variant. *)
Definition arm_variant (pm : patterns) (a : code_arm) : vspec :=
  mkvspec (i_named a) (i_own a) (p_bytes pm ("b"%byte :: QUOTE :: i_name a ++ [QUOTE])) None (default_arm a) None None
          (option_map (p_bytes pm) (raw (member (i_attrs a) SBranchValue))) None.
Definition enum_encoder_compiles (pm : patterns) (e : enum_encoder) (vars : list (nat * N)) : bool :=
  forallb (fun an => encode_arm_compiles vars (w_spec e) (arm_variant pm (fst an)) (snd an) (i_fields (fst an))) (combine (w_arms e) (w_numbers e)) &&
  match e_branching (w_spec e) with
  | ByPrefix | ByBytes _ => forallb (fun a => is_byte_string (prefix_text a)) (w_arms e)
  | ByPrefixUntake | ByTag => true
  end.
(** derive_enum.rs:434-562, for the variant with the number [i] from 0 *)
Definition run_enum_encoder (pm : patterns) (e : enum_encoder) (ca : cattr) (fa : fattr) (i : nat) (vs : list val) : wr N :=
  match nth_error (w_arms e) i, nth_error (w_numbers e) i with
  | Some a, Some n => run_encode_arm enc (w_spec e) (arm_variant pm a) n (i_fields a) ca fa vs
  | _, _ => ill_typed
  end.
