(** The statements the derive macros write into a decoder: derive/src/jbytes/decode.rs,
    derive_struct.rs, derive_enum.rs, and what rustc makes of the names in them.

    [Decode.v] says what the decoder of a struct does with the fields in order; here the
    generated code is a list of statements that bind and use local variables by name, as
    the text pushed by the macros does. A field is decoded into a local variable that has
    the name of the field, next to the variables of the macro's own. *)
From Coq Require Import Ascii String.
From Verif Require Import Base Ints Reader Writer Text Sugar AttrParse Decode Schema.
Close Scope string_scope.

(** The names the generated code uses for itself. *)
Definition INPUT : bytes := txt "input".
Definition CATTR_NEW : bytes := txt "cattr_new".
Definition CATTR_NEW2 : bytes := txt "cattr_new2".
Definition FATTR_NEW : bytes := txt "fattr_new".
Definition POSITION : bytes := txt "position".

(** ** Running the code *)

(** What a local variable holds. *)
Inductive local :=
| LInput                     (* the reader *)
| LCattr (ca : cattr)        (* Option<&ContainerAttrModifiers> *)
| LFattr (fa : fattr)        (* Option<&FieldAttrModifiers> *)
| LPos (n : N)               (* a usize *)
| LVal (v : val)             (* what was decoded for a field *)
| LOther.                    (* anything else *)
(** The variables in scope, the innermost first. *)
Definition store := list (bytes * local).
Fixpoint look {A} (x : bytes) (l : list (bytes * A)) : option A :=
  match l with
  | [] => None
  | (y, a) :: r => if bytes_eqb x y then Some a else look x r
  end.
Definition value_of_local (o : option local) : val :=
  match o with
  | Some (LVal v) => v
  | Some (LPos n) => VInt (Z.of_N n)
  | _ => VUnit
  end.
(** What an expression sees that can mention the fields called [before]. Variables from
    [get_variable_name] are kept apart: the case that a field has the name of one is left
    out. *)
Definition sees (before : list bytes) (vars : list (nat * N)) (s : store) : env :=
  mkenv (map (fun x => value_of_local (look x s)) before) vars.

(** A field: its name (in tuple structs [v0], [v1], ...), its position, its type. *)
Record binder := mkbinder { b_name : bytes; b_index : nat; b_type : ty }.

Inductive stmt :=
(* let fattr_new = jbytes::FieldAttrModifiers {..}; let fattr_new = Some(&fattr_new); *)
| LetFattr (m : store -> option fattr)
(* input.advance((e) as usize); *)
| Advance (e : store -> Z)
(* let x: T = f(input, cattr_new, fattr_new, args)?; *)
| LetCall (b : binder) (g : store -> cattr -> fattr -> rd val)
(* let x = T::default(); *)
| LetDefault (b : binder) (v : val)
(* let x = jbytes::BorrowByteDecode::decode_inner(input, cattr_new, fattr_new)?; *)
| LetText (b : binder)
(* let x = if let Ok(value) = T::from_str(x) { value } else { return Err(..) }; *)
| LetParsed (b : binder) (parse : bytes -> option val)
(* let position = input.get_position(); *)
| LetPosition
(* let x: T = if c { decode_inner(input, cattr_new, fattr_new)? } else { None };
   without [if] when there is no condition *)
| LetDecoded (b : binder) (c : option (store -> bool))
(* input.set_position(position); *)
| RestorePosition
(* let x = value_expr; *)
| LetValue (b : binder) (g : store -> val -> val)
(* if x != c { return Err(..) } *)
| CheckValue (b : binder) (c : store -> val)
(* let cattr_new2 = jbytes::ContainerAttrModifiers::default();
   if cattr_new.is_none() { cattr_new = Some(&cattr_new2); } *)
| LetCattr2
(* if let Some(cattr_new) = cattr_new { cattr_new.variable_name.borrow_mut().insert(n, e) } *)
| Publish (n : nat) (e : store -> Z).

(** [insert] into the modifiers that [cattr_new] refers to *)
Fixpoint insert_variable (n : nat) (z : N) (s : store) : store :=
  match s with
  | [] => []
  | (y, a) :: r =>
      if bytes_eqb CATTR_NEW y then
        (y, match a with LCattr ca => LCattr (mkcattr (k_order ca) (k_byte_count ca) ((n, z) :: k_vars ca)) | _ => a end) :: r
      else (y, a) :: insert_variable n z r
  end.

(** A call that gets [input], [cattr_new] and [fattr_new]. A variable of the wrong sort
    does not occur in code that compiles; the model needs some outcome. *)
Definition on_input (s : store) (k : rd store) : rd store :=
  match look INPUT s with Some LInput => k | _ => panic end.
Definition with_modifiers (s : store) (k : cattr -> fattr -> rd store) : rd store :=
  on_input s
    (match look CATTR_NEW s, look FATTR_NEW s with
     | Some (LCattr ca), Some (LFattr fa) => k ca fa
     | _, _ => panic
     end).
Definition bound (b : binder) (v : val) (s : store) : store := (b_name b, LVal v) :: s.

Definition run_stmt (dty : ty -> cattr -> fattr -> rd val) (c : stmt) (s : store) : rd store :=
  match c with
  | LetFattr m => match m s with Some fa => ret ((FATTR_NEW, LFattr fa) :: s) | None => panic end
  | Advance e => on_input s (_ <- advance (as_usize (e s)) ;; ret s)
  | LetCall b g => with_modifiers s (fun ca fa => v <- g s ca fa ;; ret (bound b v s))
  | LetDefault b v => ret (bound b v s)
  | LetText b => with_modifiers s (fun ca fa => l <- dec_string ca fa ;; ret (bound b (VBytes l) s))
  | LetParsed b parse =>
      on_input s
        (match look (b_name b) s with
         | Some (LVal (VBytes l)) => match parse l with Some v => ret (bound b v s) | None => fail Fail end
         | _ => panic
         end)
  | LetPosition => on_input s (p <- get_position ;; ret ((POSITION, LPos p) :: s))
  | LetDecoded b c =>
      with_modifiers s (fun ca fa =>
        v <- (match c with
              | Some c => if c s then dty (b_type b) ca fa else ret (VOpt None)
              | None => dty (b_type b) ca fa
              end) ;;
        ret (bound b v s))
  | RestorePosition =>
      on_input s
        (match look POSITION s with
         | Some (LPos p) => _ <- set_position p ;; ret s
         | Some (LVal (VInt z)) => _ <- set_position (as_usize z) ;; ret s
         | _ => panic
         end)
  | LetValue b g => ret (bound b (g s (value_of_local (look (b_name b) s))) s)
  | CheckValue b c =>
      if val_eqb (value_of_local (look (b_name b) s)) (c s) then ret s
      else on_input s (fail InvalidValue)
  | LetCattr2 => ret ((CATTR_NEW2, LOther) :: s)
  | Publish n e => ret (insert_variable n (as_usize (e s)) s)
  end.
Fixpoint run_stmts (dty : ty -> cattr -> fattr -> rd val) (l : list stmt) (s : store) : rd store :=
  match l with
  | [] => ret s
  | c :: r => s' <- run_stmt dty c s ;; run_stmts dty r s'
  end.
(** derive_struct.rs:28-73: [Ok(Self { x, y, .. })], [Ok(Self(v0, v1, ..))] *)
Definition run_return (bs : list binder) (s : store) : list val :=
  map (fun b => value_of_local (look (b_name b) s)) bs.

(** ** What rustc checks *)

(** The sort of a local variable, as far as it matters here: which field it was made
    for, and whether its type is [usize]. *)
Inductive sort :=
| KInput | KFattr | KUsize | KText | KOther
| KCattr (mutable : bool)
| KField (i : nat) (usize : bool).
Definition is_usize (t : ty) : bool := match t with TInt Usize => true | _ => false end.
Definition scope := list (bytes * sort).

Definition has_input (g : scope) : bool := match look INPUT g with Some KInput => true | _ => false end.
Definition has_modifiers (g : scope) : bool :=
  has_input g &&
  match look CATTR_NEW g, look FATTR_NEW g with Some (KCattr _), Some KFattr => true | _, _ => false end.
Definition bind_field (b : binder) (g : scope) : scope :=
  (b_name b, KField (b_index b) (is_usize (b_type b))) :: g.
Definition holds_field (b : binder) (g : scope) : bool :=
  match look (b_name b) g with Some (KField i _) => Nat.eqb i (b_index b) | _ => false end.

(** [None]: does not compile. The expressions written in attributes are taken to be in
    order. An assignment needs a variable declared [mut]: [cattr_new] is, unless the
    container has attributes (attribute.rs:40-48). *)
Definition check_stmt (c : stmt) (g : scope) : option scope :=
  match c with
  | LetFattr _ => Some ((FATTR_NEW, KFattr) :: g)
  | Advance _ => if has_input g then Some g else None
  | LetCall b _ => if has_modifiers g then Some (bind_field b g) else None
  | LetDefault b _ => Some (bind_field b g)
  | LetText b => if has_modifiers g then Some ((b_name b, KText) :: g) else None
  | LetParsed b _ =>
      if has_input g then
        match look (b_name b) g with Some KText => Some (bind_field b g) | _ => None end
      else None
  | LetPosition => if has_input g then Some ((POSITION, KUsize) :: g) else None
  | LetDecoded b _ => if has_modifiers g then Some (bind_field b g) else None
  | RestorePosition =>
      if has_input g then
        match look POSITION g with
        | Some KUsize => Some g
        | Some (KField _ true) => Some g
        | _ => None
        end
      else None
  | LetValue b _ => if holds_field b g then Some (bind_field b g) else None
  | CheckValue b _ => if has_input g && holds_field b g then Some g else None
  | LetCattr2 =>
      match look CATTR_NEW g with
      | Some (KCattr true) => Some ((CATTR_NEW2, KOther) :: g)
      | _ => None
      end
  | Publish _ _ => match look CATTR_NEW g with Some (KCattr _) => Some g | _ => None end
  end.
Fixpoint check_stmts (l : list stmt) (g : scope) : option scope :=
  match l with
  | [] => Some g
  | c :: r => match check_stmt c g with Some g' => check_stmts r g' | None => None end
  end.
(** The types must be those of the declaration: a [usize] will do for a [usize]. *)
Definition check_return (bs : list binder) (g : scope) : bool :=
  forallb (fun b => match look (b_name b) g with
                    | Some (KField i _) => Nat.eqb i (b_index b)
                    | Some KUsize => is_usize (b_type b)
                    | _ => false
                    end) bs.

(** ** Writing the code *)

(** A declared field. *)
Record field := mkfield { n_name : bytes; n_spec : fspec; n_type : ty }.

(** derive/src/jbytes/decode.rs:8-106, one field. [before]: the names of the fields in
    front of it. *)
Definition gen_field (vars : list (nat * N)) (before : list bytes) (b : binder) (f : fspec) : list stmt :=
  let en := sees before vars in
  (match f_offset f with Some e => [Advance (fun s => e (en s))] | None => [] end) ++
  match f_with_decode f with
  | Some g => [LetCall b (fun s => g (en s))]
  | None =>
  match f_skip_decode f with
  | Some v => [LetDefault b v]
  | None =>
  match f_from_str f with
  | Some (parse, _) => [LetText b; LetParsed b parse]
  | None =>
      (if f_untake f then [LetPosition] else []) ++
      [LetDecoded b (option_map (fun c s => c (en s)) (f_if f))] ++
      (if f_untake f then [RestorePosition] else []) ++
      (match f_value_decode f with Some g => [LetValue b (fun s => g (en s))] | None => [] end) ++
      (match f_check f with Some c => [CheckValue b (fun s => c (en s))] | None => [] end)
  end
  end
  end ++
  (match f_vars f with
   | [] => []
   | vs => LetCattr2 :: map (fun nx => Publish (fst nx) (fun s => snd nx (sees (before ++ [b_name b]) vars s))) vs
   end).
(** derive_struct.rs:78-103: all fields. [named]: of a struct with named fields; else a
    field without attributes gets no [let fattr_new]. *)
Fixpoint gen_fields (named : bool) (vars : list (nat * N)) (before : list bytes) (i : nat) (fs : list field)
  : list stmt :=
  match fs with
  | [] => []
  | f :: r =>
      (if named || f_use (n_spec f) then [LetFattr (fun s => modifiers (n_spec f) (sees before vars s))] else []) ++
      gen_field vars before (mkbinder (n_name f) i (n_type f)) (n_spec f) ++
      gen_fields named vars (before ++ [n_name f]) (S i) r
  end.
(** derive_struct.rs:58-64, decode.rs:19: the names of tuple fields *)
Definition tuple_name (i : nat) : bytes := "v"%byte :: show_usize (N.of_nat i).
Fixpoint binders (i : nat) (fs : list field) : list binder :=
  match fs with
  | [] => []
  | f :: r => mkbinder (n_name f) i (n_type f) :: binders (S i) r
  end.

(** A struct: [d_container] is [None] without container attributes. [d_fields] is [None]
    for [struct S;], for which [Ok(Self {{}})] is written (derive_struct.rs:66-69): two
    pairs of braces, which does not parse. *)
Record decl := mkdecl { d_named : bool; d_container : option cspec; d_fields : option (list field) }.
Definition container_of (d : decl) : cspec :=
  match d_container d with Some c => c | None => no_cspec end.
(** attribute.rs:36-49 and the arguments of [decode_inner] *)
Definition struct_scope (d : decl) : scope :=
  [(CATTR_NEW, KCattr (match d_container d with Some _ => false | None => true end));
   (txt "fattr", KOther); (txt "cattr", KOther); (INPUT, KInput)].
Definition struct_store (d : decl) : store :=
  [(CATTR_NEW, LCattr (own_cattr (container_of d)));
   (txt "fattr", LOther); (txt "cattr", LOther); (INPUT, LInput)].
(** Does the decoder derived for a struct compile? (derive_struct.rs:163-196) *)
Definition struct_compiles (d : decl) (vars : list (nat * N)) : bool :=
  match d_fields d with
  | None => false
  | Some fs =>
      match check_stmts (gen_fields (d_named d) vars [] 0 fs) (struct_scope d) with
      | Some g => check_return (binders 0 fs) g
      | None => false
      end
  end.
(** What it does, given the modifiers of the container it is a field of. *)
Definition run_struct (dty : ty -> cattr -> fattr -> rd val) (d : decl) (ca : cattr) : rd val :=
  match d_fields d with
  | None => panic
  | Some fs =>
      s <- run_stmts dty (gen_fields (d_named d) (k_vars ca) [] 0 fs) (struct_store d) ;;
      ret (VList (run_return (binders 0 fs) s))
  end.

(** The arm of a variant (derive_enum.rs:199-210, 337-344): the modifiers of the variant,
    its offset, its fields. [value], [data] and [cr_byte_count] are in scope but not used
    any more. *)
Definition gen_arm (named : bool) (vars : list (nat * N)) (v : fspec) (fs : list field) : list stmt :=
  LetFattr (fun s => modifiers v (sees [] vars s)) ::
  (match f_offset v with Some e => [Advance (fun s => e (sees [] vars s))] | None => [] end) ++
  gen_fields named vars [] 0 fs.
Definition arm_scope (c : option cspec) : scope :=
  [(txt "value", KOther); (txt "cr_byte_count", KOther);
   (CATTR_NEW, KCattr (match c with Some _ => false | None => true end));
   (txt "fattr", KOther); (txt "cattr", KOther); (INPUT, KInput)].
Definition arm_store (c : option cspec) : store :=
  [(txt "value", LOther); (txt "cr_byte_count", LOther);
   (CATTR_NEW, LCattr (own_cattr (match c with Some c => c | None => no_cspec end)));
   (txt "fattr", LOther); (txt "cattr", LOther); (INPUT, LInput)].
Definition arm_compiles (named : bool) (c : option cspec) (vars : list (nat * N)) (v : fspec) (fs : list field) : bool :=
  match check_stmts (gen_arm named vars v fs) (arm_scope c) with
  | Some g => check_return (binders 0 fs) g
  | None => false
  end.
Definition run_arm (dty : ty -> cattr -> fattr -> rd val) (named : bool) (c : option cspec) (vars : list (nat * N))
                   (v : fspec) (fs : list field) : rd (list val) :=
  s <- run_stmts dty (gen_arm named vars v fs) (arm_store c) ;;
  ret (run_return (binders 0 fs) s).
