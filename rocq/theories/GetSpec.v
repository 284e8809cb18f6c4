(** What a user of [#[derive(Jget)]] reads in their own source: the small
    specification the properties C60 and C61 are stated with. *)
From Coq Require Import Ascii String.
From Verif Require Import Base Ints Text Schema AttrParse JGet.
Close Scope string_scope.

(** Letters, digits and the underscore. *)
Definition ident_char (c : byte) : Prop :=
  let n := b2n c in
  (48 <= n /\ n <= 57) \/ (65 <= n /\ n <= 90) \/ (97 <= n /\ n <= 122) \/ n = 95.
Definition occurs (p s : bytes) : Prop := exists a b, s = a ++ p ++ b.
(** An identifier without [get_] in it. *)
Definition simple_name (s : bytes) : Prop := Forall ident_char s /\ ~ occurs (txt "get_") s.
(** A token of a type: a word, or something that does not start like one. *)
Definition token (t : bytes) : Prop :=
  match t with
  | [] => False
  | c :: _ => Forall ident_char t \/ ~ ident_char c
  end.
(** The text of a type, without spaces. *)
Definition spelled (ts : list bytes) : bytes := filter (fun c => negb (Byte.eqb c " "%byte)) (concat ts).

(** The first [#[jget(..)]] of the attributes has the entries [es]. *)
Definition jget (al : list attribute) (es : list entry) : Prop :=
  exists pre post, al = pre ++ mkattribute (txt "jget") es :: post /\
    Forall (fun a => t_name a <> txt "jget") pre.
Definition no_jget (al : list attribute) : Prop := Forall (fun a => t_name a <> txt "jget") al.
Definition white (c : byte) : Prop := let n := b2n c in n = 32 \/ (9 <= n /\ n <= 13).
(** A name or type in a literal: no comma, no white space at its ends. *)
Definition neat (s : bytes) : Prop :=
  ~ In ","%byte s /\ (forall c r, s = c :: r -> ~ white c) /\ (forall c r, s = r ++ [c] -> ~ white c).
(** The literal ["n1:t1,n2:t2,.."]. *)
Definition pair_text (r : bytes * bytes) : bytes := fst r ++ ":"%byte :: snd r.
Fixpoint comma (l : list bytes) : bytes :=
  match l with
  | [] => []
  | [x] => x
  | x :: r => x ++ ","%byte :: comma r
  end.
Definition literal_of (l : list (bytes * bytes)) : bytes := QUOTE :: comma (map pair_text l) ++ [QUOTE].
Definition listing (l : list (bytes * bytes)) : Prop :=
  l <> [] /\ Forall (fun r => neat (fst r) /\ ~ In ":"%byte (fst r) /\ neat (snd r)) l.
(** [get = "..n:t.."] or [get_option = "..n:t.."] *)
Definition asks (al : list attribute) (option : bool) (n t : bytes) : Prop :=
  exists es l, jget al es /\ ~ In (Tag (txt "option")) es /\
    In (Property (txt (if option then "get_option" else "get")) (literal_of l)) es /\ listing l /\ In (n, t) l.
(** The tag [get] or [get_option]. *)
Definition marked (al : list attribute) (option : bool) : Prop :=
  exists es, jget al es /\ ~ In (Tag (txt "option")) es /\ In (Tag (txt (if option then "get_option" else "get"))) es.

(** [m] is [n] without any [get_]: the getters have lost it from their names. *)
Inductive without_get : bytes -> bytes -> Prop :=
| wg_none n : ~ occurs (txt "get_") n -> without_get n n
| wg_some a b m : ~ occurs (txt "get_") a -> without_get b m -> without_get (a ++ txt "get_" ++ b) (a ++ m).
(** [get_<m>] is the function for the identifier [n]. *)
Definition named_for (n m : bytes) : Prop := Forall ident_char n /\ without_get n m.
(** [get_<m>] is the function for the expression written [n]: an identifier, or a path
    that ends in one, or in a call [.get_<..>()] of another getter. *)
Definition called (n m : bytes) : Prop :=
  exists u, named_for u m /\
  (n = u \/ exists p, (~ In "#"%byte p) /\ (n = p ++ txt "." ++ u \/ n = p ++ txt ".get_" ++ u ++ txt "()")).
(** The expression: a path as it is written, otherwise the field. *)
Definition subject (field n e : bytes) : Prop :=
  (In "."%byte n /\ e = n) \/ (~ In "."%byte n /\ e = field).

(** [From<T> for T] and [From<T> for Option<T>] of the standard library. *)
Definition standard_conversions (into : conversions) : Prop :=
  (forall t v, into t t v = v) /\
  (forall t v, into t (txt "Option<" ++ t ++ txt ">") v = VOpt (Some v)).
(** The derive succeeds and no two functions have the same name. *)
Definition derives (attrs : list attribute) (fs : list gfield) : Prop :=
  exists l, struct_functions attrs (NamedFields fs) = Some l /\ NoDup (map fst l).
(** [get_default = "..n:t.."] *)
Definition asks_default (al : list attribute) (n t : bytes) : Prop :=
  exists es l, jget al es /\ In (Property (txt "get_default") (literal_of l)) es /\ listing l /\ In (n, t) l.
(** A type the derive takes for a vector of integers. *)
Definition vector_like (t : bytes) : Prop :=
  exists p r, In p ["Vec<u"; "Vec<i"; "Option<Vec<u"; "Option<Vec<i"]%string /\ t = txt p ++ r.
Definition optional (o : bool) (v : val) : val := if o then VOpt (Some v) else v.

(** ** Enums *)
(** The only entry is the tag [get_option]. *)
Definition only_option (al : list attribute) : Prop := jget al [Tag (txt "get_option")].
(** A variant with named fields, some of them marked [get_option]. *)
Definition fields_of (v : gvariant) : list gfield := match gv_fields v with NamedFields l => l | _ => [] end.
Definition record_variant (v : gvariant) : Prop :=
  no_jget (gv_attrs v) /\ NoDup (map gf_name (fields_of v)) /\
  Forall (fun f => simple_name (gf_name f) /\ Forall token (gf_type f) /\
                   (no_jget (gf_attrs f) \/ only_option (gf_attrs f))) (fields_of v).
(** The variant has a marked field [n] of the type [ts]. *)
Definition offers (v : gvariant) (n : bytes) (ts : list bytes) : Prop :=
  exists f, In f (fields_of v) /\ only_option (gf_attrs f) /\ gf_name f = n /\ gf_type f = ts.
(** A variant with one field by position that lists what it forwards:
    [#[jget(get_option = "p1:t1,p2:t2,..")]], or [get] in the place of [get_option]. *)
Definition forwards (option : bool) (v : gvariant) (l : list (bytes * bytes)) : Prop :=
  gv_fields v = TupleFields 1 /\
  ((l = [] /\ no_jget (gv_attrs v)) \/
   (listing l /\ jget (gv_attrs v) [Property (txt (if option then "get_option" else "get")) (literal_of l)])).
Definition forwards_once (names : list bytes) (l : list (bytes * bytes)) : Prop :=
  Forall2 called (map fst l) names /\ NoDup names.
