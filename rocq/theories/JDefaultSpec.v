(** What [#[derive(Jdefault)]] is supposed to do, in terms of the attributes as they
    are written. Of JDefault.v only the types of declarations are used. A map [texts]
    gives the values of the expressions that the program writes in its attributes. *)
From Coq Require Import Ascii String.
From Verif Require Import Base Ints Spec SpecOps TextSpec AttrParse AttrSpec Schema JDefault.
Close Scope string_scope.

(** The text a literal stands for: the contents of a string literal, or the source of
    any other literal. *)
Definition literal_text (lit s : bytes) : Prop :=
  string_literal lit s
  \/ (lit = s /\ ~ (exists l r, s = l ++ [byte_of 92; byte_of 34] ++ r) /\ ~ (exists r, s = byte_of 34 :: r)).

(** [#[jbytes(..)]], [#[jd(..)]], and on fields and variants [#[jppe(..)]] *)
Definition default_line (on_field : bool) (a : attribute) : Prop :=
  called (t_name a) ["jbytes"; "jd"]%string \/ (on_field = true /\ called (t_name a) ["jppe"]%string).
(** The attribute that counts is the first such line. *)
Inductive counts (on_field : bool) : list attribute -> list entry -> Prop :=
| counts_none : forall l, (forall a, In a l -> ~ default_line on_field a) -> counts on_field l []
| counts_first : forall l a r, (forall b, In b l -> ~ default_line on_field b) -> default_line on_field a ->
    counts on_field (l ++ a :: r) (t_entries a).
(** [default = lit] or [default_value = lit]; the last one wins. *)
Definition sets_default (e : entry) : Prop :=
  exists k lit, e = Property k lit /\ called k ["default"; "default_value"]%string.
Inductive written_default : list entry -> option bytes -> Prop :=
| no_default : forall l, (forall e, In e l -> ~ sets_default e) -> written_default l None
| last_default : forall l k lit r s, called k ["default"; "default_value"]%string ->
    (forall e, In e r -> ~ sets_default e) -> literal_text lit s ->
    written_default (l ++ Property k lit :: r) (Some s).
(** The variant is marked as the default one. *)
Definition marked (l : list entry) : Prop :=
  exists i, In (Tag i) l /\ called i ["default"; "default_value"; "enum_default"; "branch_default"]%string.
(** [#[jd(..)]] takes nothing but defaults; other lines may hold anything. *)
Definition default_entry (on_field : bool) (e : entry) : Prop :=
  sets_default e \/ (on_field = true /\ marked [e]).
Definition acceptable (on_field : bool) (l : list attribute) : Prop :=
  forall pre a r, l = pre ++ a :: r -> (forall b, In b pre -> ~ default_line on_field b) ->
    called (t_name a) ["jd"]%string -> forall e, In e (t_entries a) -> default_entry on_field e.

(** What [T::default()] compiles for. *)
Definition default_form (s : shape) (f : type_form) : Prop :=
  f = PlainPath \/ (f = WithParenthesis /\ s = Tuple).

(** ** Variants *)
Definition declaration := (list attribute * shape * list (list attribute * type_form * dty))%type.
(** Nothing written about defaults. *)
Definition other_variant (v : declaration) : Prop :=
  acceptable true (fst (fst v)) /\ exists es, counts true (fst (fst v)) es /\ ~ marked es /\ written_default es None.
(** Marked as the default variant, or with a default value. *)
Definition says_something (v : declaration) : Prop :=
  acceptable true (fst (fst v)) /\ exists es o, counts true (fst (fst v)) es /\ written_default es o /\ (marked es \/ o <> None).

(** ** Values

    The value of one field: what is written, else a default of its type. *)
Definition field_default (type_default : dty -> val -> Prop) (m : texts) (s : shape) (f : list attribute * type_form * dty) (v : val) : Prop :=
  acceptable true (fst (fst f)) /\
  exists es, counts true (fst (fst f)) es /\
  ((exists text, written_default es (Some text) /\ m text = Some [v])
   \/ (written_default es None /\ default_form s (snd (fst f)) /\ type_default (snd f) v)).
(** The default value of a type: field by field, or the arguments written on a tuple
    struct; for an enum the only variant that is marked or has arguments. *)
Inductive has_default (m : texts) : dty -> val -> Prop :=
| of_known : forall v, has_default m (DKnown v) v
| of_fields : forall attrs s fs es vs,
    acceptable false attrs -> counts false attrs es -> written_default es None ->
    Forall2 (field_default (has_default m) m s) fs vs -> has_default m (DStruct attrs s fs) (VList vs)
| of_newtype : forall attrs fs es text vs,
    acceptable false attrs -> counts false attrs es -> written_default es (Some text) ->
    m text = Some vs -> length vs = length fs -> has_default m (DStruct attrs Tuple fs) (VList vs)
| of_marked : forall attrs l vattrs s fs r es o vs,
    acceptable false attrs -> Forall other_variant l -> Forall other_variant r ->
    acceptable true vattrs -> counts true vattrs es -> marked es -> written_default es o ->
    Forall2 (field_default (has_default m) m s) fs vs ->
    has_default m (DEnum attrs (l ++ (vattrs, s, fs) :: r)) (VVariant (length l) vs)
| of_valued : forall attrs l vattrs fs r es text vs,
    acceptable false attrs -> Forall other_variant l -> Forall other_variant r ->
    acceptable true vattrs -> counts true vattrs es -> ~ marked es -> written_default es (Some text) ->
    m text = Some vs -> length vs = length fs ->
    has_default m (DEnum attrs (l ++ (vattrs, Tuple, fs) :: r)) (VVariant (length l) vs).

(** ** Declarations as rustc accepts them
    The values of attributes are literals, *)
Definition literals (l : list attribute) : Prop :=
  forall a k lit, In a l -> In (Property k lit) (t_entries a) -> exists s, literal_text lit s.
(** and what is written on a field of a tuple is one expression. (In a struct with
    named fields anything else does not compile.) *)
Definition one_expression (m : texts) (s : shape) (l : list attribute) : Prop :=
  s <> Named -> forall es text vs, counts true l es -> written_default es (Some text) -> m text = Some vs -> length vs = 1%nat.
Definition on_all {A} (P : A -> Prop) (l : list A) : Prop := fold_right and True (map P l).
Fixpoint well_written (m : texts) (t : dty) : Prop :=
  let field s (f : list attribute * type_form * dty) :=
    literals (fst (fst f)) /\ one_expression m s (fst (fst f)) /\ well_written m (snd f) in
  match t with
  | DKnown _ => True
  | DStruct attrs s fs => literals attrs /\ on_all (field s) fs
  | DEnum attrs vs => on_all (fun v => literals (fst (fst v)) /\ on_all (field (snd (fst v))) (snd v)) vs
  end.
