(** The statements the derive macros write into an encoder: derive/src/jbytes/encode.rs,
    derive_struct.rs, derive_enum.rs, and what rustc makes of the names in them.

    [Encode.v] says what the encoder of a struct or variant does with the fields in order;
    here the generated code is a list of statements over local variables, as in
    [GenDecode.v]. In a struct a field is [self.x]; in a variant it is a reference bound by
    the pattern of the arm, under its own name, next to the variables of the macro. *)
From Coq Require Import Ascii String.
From Verif Require Import Base Ints Reader Writer Text Sugar AttrParse Decode Encode GenDecode Schema.
Close Scope string_scope.

(** The names the generated code uses for itself, besides [cattr_new] and [fattr_new]. *)
Definition BUFFER : bytes := txt "buffer".
Definition R_NBYTES : bytes := txt "r_nbytes".
Definition SELF : bytes := txt "self".
Definition CATTR : bytes := txt "cattr".
Definition FATTR : bytes := txt "fattr".
Definition CR_BYTE_COUNT : bytes := txt "cr_byte_count".

(** ** Running the code *)

(** What a local variable holds. *)
Inductive elocal :=
| EBuffer                    (* &mut B *)
| ECount (n : N)             (* the number of bytes so far *)
| ESelf (vs : list val)      (* &self: the fields of a struct *)
| ECattr (ca : cattr)        (* Option<&ContainerAttrModifiers> *)
| EFattr (fa : fattr)        (* Option<&FieldAttrModifiers> *)
| EVal (v : val)             (* a field, or a value made from it *)
| EOther.
Definition estore := list (bytes * elocal).

(** What an expression sees: [self.x] of the first [k] fields (parse.rs:86), or variables
    called [before] (parse.rs:87, behind a star). Later fields could be mentioned, too;
    the decoder would not compile, and this is left out. So are, in [value_encode] of a
    struct, variables that an earlier [value_encode] has left behind. *)
Definition sees_self (k : nat) (vars : list (nat * N)) (s : estore) : env :=
  mkenv (match look SELF s with Some (ESelf vs) => firstn k vs | _ => [] end) vars.
Definition value_of_elocal (o : option elocal) : val := match o with Some (EVal v) => v | _ => VUnit end.
Definition sees_bound (before : list bytes) (vars : list (nat * N)) (s : estore) : env :=
  mkenv (map (fun x => value_of_elocal (look x s)) before) vars.

(** What is encoded: [&self.x] (the field with that number), [x], [&x]. *)
Inductive place := OnSelf (i : nat) | Bare (x : bytes) | Changed (x : bytes).
Definition at_place (p : place) (s : estore) : option val :=
  match p with
  | OnSelf i => match look SELF s with Some (ESelf vs) => nth_error vs i | _ => None end
  | Bare x | Changed x => match look x s with Some (EVal v) => Some v | _ => None end
  end.

Inductive estmt :=
(* let fattr_new = jbytes::FieldAttrModifiers {..}; let fattr_new = Some(&fattr_new); *)
| SetFattr (m : estore -> option fattr)
(* r_nbytes += f(buffer, cattr_new, fattr_new, x, args)?; *)
| CallWith (p : place) (g : estore -> cattr -> fattr -> val -> wr N)
(* r_nbytes += jbytes::BorrowByteEncode::encode_inner(x.to_string(), buffer, cattr_new, fattr_new)?; *)
| WriteText (p : place) (show : val -> bytes)
(* for i in 0..(e) as usize { buffer.push_u8(full)?; } *)
| WritePadding (e : estore -> Z) (full : N)
(* let x = &self.x; or let x = x; [i]: the number of the field *)
| LetField (x : bytes) (i : nat) (p : place)
(* let x = e; *)
| LetChanged (x : bytes) (i : nat) (g : estore -> val -> val)
(* r_nbytes += T::encode_inner(x, buffer, cattr_new, fattr_new)?; *)
| WriteField (p : place) (i : nat) (t : ty)
(* r_nbytes += buffer.push_bytes(s)?; *)
| WritePrefix (s : bytes)
(* let cr_byte_count = ..; if let Some(fr) = fattr { .. } *)
| WriteTag (no_tag : bool) (index : N).

(** [r_nbytes += k] *)
Fixpoint add_count (k : N) (s : estore) : estore :=
  match s with
  | [] => []
  | (y, a) :: r =>
      if bytes_eqb R_NBYTES y then (y, match a with ECount n => ECount (n + k) | _ => a end) :: r
      else (y, a) :: add_count k r
  end.
(** The variable of the function itself: what [Ok(r_nbytes)] sees after a [match]. *)
Fixpoint count_of (s : estore) : N :=
  match s with
  | [] => 0
  | (_, ECount n) :: _ => n
  | _ :: r => count_of r
  end.

(** A variable of the wrong sort does not occur in code that compiles. *)
Definition on_buffer (s : estore) (k : wr estore) : wr estore :=
  match look BUFFER s with Some EBuffer => k | _ => fun _ => Panic end.
Definition adds (s : estore) (m : wr N) : wr estore :=
  on_buffer s
    (match look R_NBYTES s with
     | Some (ECount _) => k <~ m ;; wret (add_count k s)
     | _ => fun _ => Panic
     end).
Definition adds_with (s : estore) (m : cattr -> fattr -> wr N) : wr estore :=
  match look CATTR_NEW s, look FATTR_NEW s with
  | Some (ECattr ca), Some (EFattr fa) => adds s (m ca fa)
  | _, _ => fun _ => Panic
  end.

Definition run_estmt (ety : ty -> cattr -> fattr -> val -> wr N) (c : estmt) (s : estore) : wr estore :=
  match c with
  | SetFattr m => match m s with Some fa => wret ((FATTR_NEW, EFattr fa) :: s) | None => fun _ => Panic end
  | CallWith p g =>
      match at_place p s with Some v => adds_with s (fun ca fa => g s ca fa v) | None => fun _ => Panic end
  | WriteText p show =>
      match at_place p s with Some v => adds_with s (fun ca fa => enc_raw ca fa (show v)) | None => fun _ => Panic end
  | WritePadding e full =>
      on_buffer s (_ <~ enc_list push_u8 (repeat full (N.to_nat (as_usize (e s)))) ;; wret s)
  | LetField x _ p => match at_place p s with Some v => wret ((x, EVal v) :: s) | None => fun _ => Panic end
  | LetChanged x _ g =>
      match look x s with Some (EVal v) => wret ((x, EVal (g s v)) :: s) | _ => fun _ => Panic end
  | WriteField p _ t =>
      match at_place p s with Some v => adds_with s (fun ca fa => ety t ca fa v) | None => fun _ => Panic end
  | WritePrefix l => adds s (push l)
  (* derive_enum.rs:492-521 *)
  | WriteTag no_tag index =>
      match look CATTR_NEW s, look FATTR s, look CATTR s with
      | Some (ECattr own), Some (EFattr fa), Some (ECattr ca) =>
          s' <~ adds s (match a_branch fa, k_byte_count own, a_byte_count fa with
                        | Some _, _, _ => wret 0
                        | None, Some n, _ => push_uint (ko ca fa) index n
                        | None, None, Some n => push_uint (ko ca fa) index n
                        | None, None, None => if no_tag then wret 0 else push_u8 index
                        end) ;;
          wret ((CR_BYTE_COUNT, EOther) :: s')
      | _, _, _ => fun _ => Panic
      end
  end.
Fixpoint run_estmts (ety : ty -> cattr -> fattr -> val -> wr N) (l : list estmt) (s : estore) : wr estore :=
  match l with
  | [] => wret s
  | c :: r => s' <~ run_estmt ety c s ;; run_estmts ety r s'
  end.

(** ** What rustc checks *)

(** The sort of a local variable. [XField i owned]: made for the [i]-th field, a reference
    or a value. *)
Inductive esort := XBuffer | XCount | XCattr | XFattr | XOther | XField (i : nat) (owned : bool).
Definition escope := list (bytes * esort).
Definition has_buffer (g : escope) : bool := match look BUFFER g with Some XBuffer => true | _ => false end.
Definition has_count (g : escope) : bool :=
  has_buffer g && match look R_NBYTES g with Some XCount => true | _ => false end.
Definition can_write (g : escope) : bool :=
  has_count g &&
  match look CATTR_NEW g, look FATTR_NEW g with Some XCattr, Some XFattr => true | _, _ => false end.
(** A method called as a function takes [&self]: a reference is needed. *)
Definition place_fits (p : place) (i : nat) (g : escope) : bool :=
  match p with
  | OnSelf j => Nat.eqb i j
  | Bare x => match look x g with Some (XField j false) => Nat.eqb i j | _ => false end
  | Changed x => match look x g with Some (XField j true) => Nat.eqb i j | _ => false end
  end.
(** What stands between [let] and [=] must be the name of a variable: in a tuple struct it
    is a number. Of the keywords only [self] matters here. *)
Definition is_name (x : bytes) : bool :=
  match x with
  | [] => false
  | c :: _ => negb ((48 <=? Byte.to_N c) && (Byte.to_N c <=? 57)) && negb (bytes_eqb x SELF)
  end.

(** [None]: does not compile. The expressions written in attributes are taken to be in
    order. *)
Definition check_estmt (c : estmt) (g : escope) : option escope :=
  match c with
  | SetFattr _ => Some ((FATTR_NEW, XFattr) :: g)
  | CallWith p _ =>
      if can_write g && match p with
                        | OnSelf _ => true
                        | Bare x | Changed x => match look x g with Some (XField _ _) => true | _ => false end
                        end then Some g else None
  (* [x.to_string()] is a value, [&self.x.to_string()] is a reference *)
  | WriteText p _ => match p with OnSelf _ => if can_write g then Some g else None | _ => None end
  | WritePadding _ _ => if has_buffer g then Some g else None
  | LetField x i p =>
      if is_name x && match p with
                      | OnSelf _ => true
                      | Bare y | Changed y => match look y g with Some (XField j _) => Nat.eqb i j | _ => false end
                      end then Some ((x, XField i false) :: g) else None
  | LetChanged x i _ =>
      match look x g with
      | Some (XField j _) => if Nat.eqb i j then Some ((x, XField i true) :: g) else None
      | _ => None
      end
  | WriteField p i _ => if can_write g && place_fits p i g then Some g else None
  | WritePrefix _ => if has_count g then Some g else None
  | WriteTag _ _ =>
      if has_count g &&
         match look CATTR_NEW g, look FATTR g, look CATTR g with Some XCattr, Some XFattr, Some XCattr => true | _, _, _ => false end
      then Some ((CR_BYTE_COUNT, XOther) :: g) else None
  end.
Fixpoint check_estmts (l : list estmt) (g : escope) : option escope :=
  match l with
  | [] => Some g
  | c :: r => match check_estmt c g with Some g' => check_estmts r g' | None => None end
  end.

(** ** Writing the code *)

(** derive/src/jbytes/encode.rs:7-18 *)
Definition gen_padding (en : estore -> env) (f : fspec) : list estmt :=
  match f_offset f with Some e => [WritePadding (fun s => e (en s)) (f_full f)] | None => [] end.
(** derive/src/jbytes/encode.rs:22-60, one field. [en]: what its expressions see. *)
Definition gen_efield (en : estore -> env) (p : place) (x : bytes) (i : nat) (f : fspec) (t : ty) : list estmt :=
  match f_with_encode f with
  | Some g => [CallWith p (fun s => g (en s))]
  | None =>
  if f_skip_encode f then []
  else
    (match f_from_str f with Some (_, show) => [WriteText p show] | None => [] end) ++
    match f_bits f, f_untake f with
    | None, true => []
    | _, _ =>
        gen_padding en f ++
        match f_value_encode f with
        | Some g => [LetField x i p; LetChanged x i (fun s => g (en s)); WriteField (Changed x) i t]
        | None => [WriteField p i t]
        end
    end
  end.
(** derive_struct.rs:246-253: the fields of a struct. In a tuple struct a field is called
    [0], [1], ... ([IdentOrIndex], crate [virtue]). *)
Fixpoint gen_struct (vars : list (nat * N)) (i : nat) (fs : list field) : list estmt :=
  match fs with
  | [] => []
  | f :: r =>
      SetFattr (fun s => modifiers (n_spec f) (sees_self i vars s)) ::
      gen_efield (sees_self i vars) (OnSelf i) (n_name f) i (n_spec f) (n_type f) ++
      gen_struct vars (S i) r
  end.
(** derive_enum.rs:525-552: the fields of a variant; a field without attributes gets no
    [let fattr_new]. *)
Fixpoint gen_variant (vars : list (nat * N)) (before : list bytes) (i : nat) (fs : list field) : list estmt :=
  match fs with
  | [] => []
  | f :: r =>
      (if f_use (n_spec f) then [SetFattr (fun s => modifiers (n_spec f) (sees_bound before vars s))] else []) ++
      gen_efield (sees_bound before vars) (Bare (n_name f)) (n_name f) i (n_spec f) (n_type f) ++
      gen_variant vars (before ++ [n_name f]) (S i) r
  end.

(** The arguments of [encode_inner], [r_nbytes], and attribute.rs:36-49 *)
Definition encode_scope : escope :=
  [(CATTR_NEW, XCattr); (R_NBYTES, XCount); (FATTR, XFattr); (CATTR, XCattr); (BUFFER, XBuffer); (SELF, XOther)].
Definition encode_store (c : option cspec) (ca : cattr) (fa : fattr) (self : elocal) : estore :=
  [(CATTR_NEW, ECattr (own_cattr (match c with Some c => c | None => no_cspec end))); (R_NBYTES, ECount 0);
   (FATTR, EFattr fa); (CATTR, ECattr ca); (BUFFER, EBuffer); (SELF, self)].

(** Does the encoder derived for a struct compile? (derive_struct.rs:207-261) *)
Definition encoder_compiles (d : decl) (vars : list (nat * N)) : bool :=
  match d_fields d with
  | None => true
  | Some fs => match check_estmts (gen_struct vars 0 fs) encode_scope with Some _ => true | None => false end
  end.
(** What it does with a struct that has the fields [vs]. *)
Definition run_encoder (ety : ty -> cattr -> fattr -> val -> wr N) (d : decl) (ca : cattr) (fa : fattr)
                       (vs : list val) : wr N :=
  s <~ run_estmts ety (gen_struct (k_vars ca) 0 (match d_fields d with Some fs => fs | None => [] end))
         (encode_store (d_container d) ca fa (ESelf vs)) ;;
  wret (count_of s).

(** One arm of the [match] (derive_enum.rs:435-557): the pattern, the modifiers of the
    variant, its tag, its offset, its fields. *)
Fixpoint pattern_scope (i : nat) (fs : list field) : escope :=
  match fs with [] => [] | f :: r => (n_name f, XField i false) :: pattern_scope (S i) r end.
Fixpoint pattern_store (fs : list field) (vs : list val) : estore :=
  match fs, vs with f :: r, v :: vs' => (n_name f, EVal v) :: pattern_store r vs' | _, _ => [] end.
Definition gen_tag (e : espec) (v : vspec) (index : N) : list estmt :=
  match e_branching e with
  | ByPrefix | ByBytes _ => [WritePrefix (variant_bytes v)]
  | ByPrefixUntake => []
  | ByTag => [WriteTag (e_no_tag e) index]
  end.
Definition gen_encode_arm (vars : list (nat * N)) (e : espec) (v : vspec) (index : N) (fs : list field) : list estmt :=
  SetFattr (fun _ => modifiers (v_attr v) (mkenv [] vars)) ::
  gen_tag e v index ++ gen_padding (fun _ => mkenv [] vars) (v_attr v) ++ gen_variant vars [] 0 fs.
Definition encode_arm_compiles (vars : list (nat * N)) (e : espec) (v : vspec) (index : N) (fs : list field) : bool :=
  match check_estmts (gen_encode_arm vars e v index fs) (pattern_scope 0 fs ++ encode_scope) with
  | Some _ => true
  | None => false
  end.
Definition run_encode_arm (ety : ty -> cattr -> fattr -> val -> wr N) (e : espec) (v : vspec) (index : N)
                          (fs : list field) (ca : cattr) (fa : fattr) (xs : list val) : wr N :=
  s <~ run_estmts ety (gen_encode_arm (k_vars ca) e v index fs)
         (pattern_store fs xs ++ encode_store (Some (e_c e)) ca fa EOther) ;;
  wret (count_of s).
(** All arms; [iter_fields] numbers them (derive_enum.rs:571-624). *)
Fixpoint run_encode_enum (ety : ty -> cattr -> fattr -> val -> wr N) (e : espec) (vs : list (vspec * list field))
                         (next : N) (ca : cattr) (fa : fattr) (i : nat) (xs : list val) : wr N :=
  match vs with
  | [] => ill_typed
  | (v, fs) :: r =>
      let index := variant_index v next in
      match i with
      | O => run_encode_arm ety e v index fs ca fa xs
      | S i' => run_encode_enum ety e r (index + 1) ca fa i' xs
      end
  end.
