(** Properties C54 and C55: [#[derive(Jdefault)]]. *)
From Coq Require Import Ascii String.
From Verif Require Import Base Ints Spec SpecOps TextSpec BaseLemmas CodecBase AttrParse AttrSpec AttrLemmas Decode Schema Sugar Examples
  JDefault JDefaultSpec DefaultLemmas.
Close Scope string_scope.

(** ** C54. The default value is the one that the attributes describe

    [has_default m t v] says so for structs and enums, nested to any depth. *)
Theorem C54_default : forall m t v, has_default m t v -> jdefault m t = Some v.
Proof. exact has_default_computed. Qed.
(** Nothing else has a default: other declarations do not compile. *)
Theorem C54_only : forall m t v, well_written m t -> jdefault m t = Some v -> has_default m t v.
Proof. intros m t v W H. exact (computed_has_default m t W v H). Qed.
(** An entry of [#[jd(..)]] that is not about defaults is refused. *)
Theorem C54_unknown : forall m attrs s fs before l form t after pre a r e,
  fs = before ++ (l, form, t) :: after ->
  l = pre ++ a :: r -> (forall b, In b pre -> ~ default_line true b) -> called (t_name a) ["jd"]%string ->
  In e (t_entries a) -> ~ default_entry true e ->
  (exists es, acceptable false attrs /\ counts false attrs es /\ written_default es None) ->
  jdefault m (DStruct attrs s fs) = None.
Proof.
  intros m attrs s fs before l form t after pre a r e -> Hl Hp J I N (es & A & C & W). cbn [jdefault].
  unfold generate_struct. change (default_container_attributes attrs) with (attributes_for false attrs).
  destruct (counted _ _ _ _ A C W) as (x & -> & -> & _). unfold generate_struct_body.
  assert (E : forall fs' : list (list attribute * type_form * option val), In (l, form, jdefault m t) fs' ->
              all_some (map (field_argument s) fs') = None).
  { assert (F : field_argument s (l, form, jdefault m t) = None).
    { unfold field_argument. change (default_attributes l) with (attributes_for true l).
      rewrite (unacceptable true l pre a r e Hl Hp J I N). reflexivity. }
    induction fs' as [|f fs' IH]; intros H; [contradiction|]. cbn [map all_some]. destruct H as [->|H]; [rewrite F; reflexivity|].
    destruct (field_argument s f); [|reflexivity]. rewrite (IH H). reflexivity. }
  rewrite E; [reflexivity|]. apply in_map_iff. exists (l, form, t). split; [reflexivity|]. apply in_or_app. right. left. reflexivity.
Qed.
(** Lines other than [#[jd(..)]] are never refused. *)
Theorem C54_other_lines : forall on_field l, (forall a, In a l -> ~ called (t_name a) ["jd"]%string) -> acceptable on_field l.
Proof.
  intros on_field l H pre a r -> _ J. exfalso. apply (H a); [|exact J]. apply in_or_app. right. left. reflexivity.
Qed.

(** [#[derive(Jdefault)] struct A { a: u16, #[jd(default = 18)] b: u16, c: B }] with
    [struct B(#[jbytes(length = 2, default = "x", default_value = "0x10")] u8)] *)
Definition number_text (s : bytes) : option (list val) := option_map (fun n => [VInt (Z.of_N n)]) (numeral_of s).
Definition B : dty := DStruct [] Tuple
  [([jbytes_line [Property (txt "length") (txt "2"); Property (txt "default") (quoted (txt "x"));
                  Property (txt "default_value") (quoted (txt "0x10"))]], PlainPath, DKnown (vi 0))].
Definition A : dty := DStruct [] Named
  [([], PlainPath, DKnown (vi 0)); ([mkattribute (txt "jd") [Property (txt "default") (txt "18")]], PlainPath, DKnown (vi 0));
   ([], PlainPath, B)].
Lemma no_lines on_field : counts on_field [] [].
Proof. apply counts_none. intros a []. Qed.
Lemma none_unacceptable on_field : acceptable on_field [].
Proof. intros pre a r E. destruct pre; discriminate. Qed.
Lemma no_entries : written_default [] None.
Proof. apply no_default. intros e []. Qed.
Example C54_case : jdefault number_text A = Some (VList [vi 0; vi 18; VList [vi 16]])
  /\ has_default number_text A (VList [vi 0; vi 18; VList [vi 16]]).
Proof.
  split; [vm_compute; reflexivity|].
  eapply of_fields; [apply none_unacceptable|apply no_lines|apply no_entries|].
  constructor; [|constructor; [|constructor; [|constructor]]].
  1: { split; [apply none_unacceptable|]. eexists. split; [apply no_lines|]. right. split; [apply no_entries|]. split; [left; reflexivity|constructor]. }
  1: { split.
       - intros pre a r E _ _ e I. destruct pre as [|x [|y pre]]; try discriminate. injection E as <- <-. destruct I as [<-|[]].
         left. do 2 eexists. split; [reflexivity|left; reflexivity].
       - eexists. split; [apply (counts_first true [] _ []); [intros b []|left; right; left; reflexivity]|]. left. exists (txt "18").
         split; [|vm_compute; reflexivity]. apply (last_default [] (txt "default") _ []); [left; reflexivity|intros e []|].
         right. split; [reflexivity|]. split; [|intros (q & H); discriminate]. intros (q & q' & H).
         destruct q as [|? [|? [|? ?]]]; discriminate. }
  split; [apply none_unacceptable|]. eexists. split; [apply no_lines|]. right. split; [apply no_entries|]. split; [left; reflexivity|].
  eapply of_fields; [apply none_unacceptable|apply no_lines|apply no_entries|]. constructor; [|constructor].
  split; [apply C54_other_lines; intros a [<-|[]] [H|[]]; discriminate|].
  eexists. split; [apply (counts_first true [] _ []); [intros b []|left; left; reflexivity]|]. left. exists (txt "0x10").
  split; [|vm_compute; reflexivity].
  apply (last_default [_; _] (txt "default_value") _ []); [right; left; reflexivity|intros e []|].
  left. split; [reflexivity|]. cbn. intros H. repeat destruct H as [H|H]; try discriminate. exact H.
Qed.

Lemma plain_literal s : Forall (fun c => Byte.eqb c QUOTE = false) s -> literal_text s s.
Proof.
  intros F. rewrite Forall_forall in F. assert (N : ~ In (byte_of 34) s) by (intros I; specialize (F _ I); discriminate F).
  right. split; [reflexivity|]. split; [intros (l & r & ->)|intros (r & ->)]; apply N; [|left; reflexivity].
  apply in_or_app. right. right. left. reflexivity.
Qed.
Example C54_only_case : well_written number_text A /\
  (* [struct A { a: Vec<u8> }] *)
  well_written number_text (DStruct [] Named [([], OtherForm, DKnown (vi 0))]).
Proof.
  assert (N : literals []) by (intros a k lit []).
  assert (O : forall s l, one_expression number_text s l).
  { intros s l _ es text vs _ _ H. unfold number_text in H. destruct (numeral_of text); [|discriminate]. injection H as <-. reflexivity. }
  split; [|repeat split; try exact N; apply O]. split; [exact N|]. split; [repeat split; [exact N|apply O]|]. split.
  { split; [|split; [apply O|exact I]]. intros a k lit [<-|[]] [E|[]]. injection E as <- <-. exists (txt "18").
    apply plain_literal. repeat constructor. }
  split; [|exact I]. split; [exact N|]. split; [apply O|]. split; [exact N|]. split; [|exact I]. split; [|split; [apply O|exact I]].
  intros a k lit [<-|[]] [E|[E|[E|[]]]]; injection E as <- <-.
  - exists (txt "2"). apply plain_literal. repeat constructor.
  - exists (txt "x"). left. split; [reflexivity|]. cbn. intros H. repeat destruct H as [H|H]; try discriminate. exact H.
  - exists (txt "0x10"). left. split; [reflexivity|]. cbn. intros H. repeat destruct H as [H|H]; try discriminate. exact H.
Qed.

(** A skipped field is decoded to the default of its type; what is written for the
    field does not count. *)
Theorem C54_skipped_refuted : exists line fa,
  line = jbytes_line [Tag (txt "skip"); Property (txt "default") (txt "18")]
  /\ attributes_of [line] = Some fa
  /\ jdefault number_text (DStruct [] Named [([line], PlainPath, DKnown (vi 0))]) = Some (VList [vi 18])
  /\ (forall m d, m_default m = vi 0 -> decode (struct [(field_spec m fa, TInt U8)]) d 0 = Ok (VList [vi 0]) 0).
Proof.
  do 2 eexists. split; [reflexivity|]. split; [vm_compute; reflexivity|]. split; [vm_compute; reflexivity|].
  intros m d H. unfold decode. cbn. rewrite H. reflexivity.
Qed.
(** [struct A { a: Vec<u8> }]: [Vec<u8>::default()] is not an expression. *)
Theorem C54_generic_refuted : forall m v, jdefault m (DStruct [] Named [([], OtherForm, DKnown v)]) = None
  /\ jdefault m (DStruct [] Tuple [([], OtherForm, DKnown v)]) = None
  /\ jdefault m (DStruct [] Named [([], WithParenthesis, DKnown v)]) = None.
Proof. intros m v. repeat split. Qed.

Print Assumptions C54_default.
Print Assumptions C54_only.
Print Assumptions C54_unknown.
Print Assumptions C54_other_lines.
Print Assumptions C54_skipped_refuted.
Print Assumptions C54_generic_refuted.

(** ** C55. Which variant is the default one

    The only one that is marked or has a value. *)
Theorem C55_variant : forall m attrs l v r w, jdefault m (DEnum attrs (l ++ v :: r)) = Some w -> says_something v ->
  exists vs, w = VVariant (length l) vs.
Proof. exact the_default. Qed.
(** Otherwise it does not compile. *)
Theorem C55_none : forall m attrs vs, Forall other_variant vs -> jdefault m (DEnum attrs vs) = None.
Proof. exact none_default. Qed.
Theorem C55_two : forall m attrs l v r w q, says_something v -> says_something w ->
  jdefault m (DEnum attrs (l ++ v :: r ++ w :: q)) = None.
Proof. exact two_defaults. Qed.

(** [enum E { Value, #[jd(default)] Value2 { #[jd(default = 3)] value1: u8, value2: u8 } }] *)
Definition jd (l : list entry) : attribute := mkattribute (txt "jd") l.
Lemma other_plain s fs : other_variant ([], s, fs).
Proof.
  split; [apply none_unacceptable|]. exists []. split; [apply no_lines|]. split; [intros (i & [] & _)|apply no_entries].
Qed.
Lemma jd_mark : acceptable true [jd [Tag (txt "default")]] /\ counts true [jd [Tag (txt "default")]] [Tag (txt "default")]
  /\ marked [Tag (txt "default")] /\ written_default [Tag (txt "default")] None.
Proof.
  assert (M : marked [Tag (txt "default")]) by (exists (txt "default"); split; [left; reflexivity|left; reflexivity]).
  split; [|split; [|split; [exact M|]]].
  - intros pre a r E _ _ e I. destruct pre as [|x [|y pre]]; try discriminate. injection E as <- <-. destruct I as [<-|[]].
    right. split; [reflexivity|exact M].
  - apply (counts_first true [] (jd [Tag (txt "default")]) []); [intros b []|left; right; left; reflexivity].
  - apply no_default. intros e [<-|[]] (k & lit & E & _). discriminate.
Qed.
Definition three : list attribute := [jd [Property (txt "default") (txt "3")]].
Example C55_case : let v2 := ([jd [Tag (txt "default")]], Named, [(three, PlainPath, DKnown (vi 0)); ([], PlainPath, DKnown (vi 0))]) in
  jdefault number_text (DEnum [] [([], Unit, []); v2]) = Some (VVariant 1 [vi 3; vi 0])
  /\ other_variant ([], Unit, []) /\ says_something v2
  /\ jdefault number_text (DEnum [] [v2; ([], Unit, []); v2]) = None.
Proof.
  cbv zeta. split; [vm_compute; reflexivity|]. split; [apply other_plain|]. split; [|vm_compute; reflexivity].
  destruct jd_mark as (A' & C & M & W). split; [exact A'|]. do 2 eexists. split; [exact C|]. split; [exact W|]. left. exact M.
Qed.

Print Assumptions C55_variant.
Print Assumptions C55_none.
Print Assumptions C55_two.
