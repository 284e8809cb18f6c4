(** C93: overflow checks only turn what a derived decoder does into panics. *)
From Coq Require Import Ascii String.
From Verif Require Import Base BaseLemmas Ints SpecOps Reader Writer Sugar TextSpec Text AttrParse AttrSpec AttrLemmas PropsAttr EnumTextSpec GenExpr GenExprSpec
  GenExprLemmas PropsExpr GenDecode GenSpec PropsGen Source SourceSpec SourceLemmas PropsSource
  Decode Encode Spec Collections Containers NetLemmas PropsContainers WireSpec Examples FieldSpec PropsEnumSource MachineExpr MachineSpec PropsMachine PropsCondition
  MachineBuild MachineBuildSpec Schema.
Close Scope string_scope.

(** ** Expressions *)

(** What a number is with checks and without. *)
Inductive pair (t : ity) : option machine -> option machine -> Prop :=
| pr_none : pair t None None
| pr_whole z : pair t (Some (Whole t z)) (Some (Whole t z))
| pr_panic : pair t (Some Panicked) (Some Panicked)
| pr_wraps z : pair t (Some Panicked) (Some (Whole t z)).
Inductive pair_operand (t : ity) (e : rexpr) : option machine -> option machine -> Prop :=
| po_number n : e = ENum n -> in_range t (Z.of_N n) -> pair_operand t e (Some (Literal (Z.of_N n))) (Some (Literal (Z.of_N n)))
| po_pair v w : pair t v w -> pair_operand t e v w.
Inductive pair_truth : option machine -> option machine -> Prop :=
| pt_none : pair_truth None None
| pt_truth b : pair_truth (Some (Truth b)) (Some (Truth b))
| pt_panic : pair_truth (Some Panicked) (Some Panicked)
| pt_wraps b : pair_truth (Some Panicked) (Some (Truth b)).
#[local] Hint Constructors pair pair_operand pair_truth : core.
Definition eval_op (checks : bool) (o : binop) (v w : option machine) : option machine :=
  match v, w with Some v, Some w => machine_op checks o v w | _, _ => None end.
Lemma fitted_pair t z : pair t (Some (fitted true t z)) (Some (fitted false t z)).
Proof. unfold fitted. destruct (in_rangeb t z); auto. Qed.
Lemma calculate_pair o t x y : In o [Plus; Minus; Times; AndBits; OrBits; XorBits; Divide; Remainder] ->
  pair t (calculate true o t x y) (calculate false o t x y).
Proof.
  intros [<-|[<-|[<-|[<-|[<-|[<-|[<-|[<-|[]]]]]]]]]; cbn [calculate]; auto using fitted_pair;
    destruct (y =? 0)%Z; auto; destruct (in_rangeb _ _); auto.
Qed.
Lemma op_pair o a b t v w v' w' : In o [Plus; Minus; Times; AndBits; OrBits; XorBits; Divide; Remainder] ->
  ~ (numeral a /\ numeral b) -> (In o [Divide; Remainder] -> b <> ENum 0) ->
  pair_operand t a v v' -> pair_operand t b w w' -> pair t (eval_op true o v w) (eval_op false o v' w').
Proof.
  intros O N D Ha Hb. assert (S : shifts o = false) by (cbn in O; intuition subst o; reflexivity).
  assert (C : forall x y, pair t (calculate true o t x y) (calculate false o t x y)) by (intros; now apply calculate_pair).
  assert (P : forall checks v, machine_op checks o v Panicked = Some Panicked) by (intros; apply panicked_any; now apply calculates_plain).
  assert (PL : forall checks x n, b = ENum n -> in_range t (Z.of_N n) -> machine_op checks o (Whole t x) (Literal (Z.of_N n)) = calculate checks o t x (Z.of_N n)).
  { intros checks x n -> R. apply in_rangeb_iff in R. cbn [machine_op]. rewrite S, R. cbn [andb]. destruct (divides o) eqn:DO; [|reflexivity].
    destruct (Z.eqb_spec (Z.of_N n) 0) as [E|]; [|reflexivity]. elim D; [cbn in O; intuition subst o; cbn; auto; discriminate|]. f_equal. lia. }
  assert (LP : forall checks y n, in_range t (Z.of_N n) -> machine_op checks o (Literal (Z.of_N n)) (Whole t y) = calculate checks o t (Z.of_N n) y).
  { intros checks y n R. apply in_rangeb_iff in R. cbn [machine_op]. now rewrite S, R. }
  assert (WW : forall checks x y, machine_op checks o (Whole t x) (Whole t y) = calculate checks o t x y).
  { intros checks x y. cbn [machine_op]. rewrite S. now destruct (ity_dec t t). }
  assert (ANY : forall x y, pair t (Some Panicked) (calculate false o t x y)).
  { intros x y. clear -O. destruct O as [<-|[<-|[<-|[<-|[<-|[<-|[<-|[<-|[]]]]]]]]]; cbn [calculate]; auto; unfold fitted;
      try (destruct (in_rangeb t _); auto; fail); destruct (y =? 0)%Z; auto; destruct (in_rangeb _ _); auto. }
  destruct Ha as [n En Rn|v v' [|x| |x]], Hb as [n' En' Rn'|w w' [|y| |y]]; cbn [eval_op]; rewrite ?P, ?PL, ?LP, ?WW by assumption; cbn [machine_op]; auto.
  all: try (elim N; split; eexists; eassumption).
Qed.
Lemma shift_pair o t x y : In o [ShiftLeft; ShiftRight] -> pair t (shift true o t x y) (shift false o t x y) /\ exists z, shift false o t x y = Some (Whole t z).
Proof.
  intros O. unfold shift. destruct O as [<-|[<-|[]]]; cbn [shifted]; destruct (_ && _); split; eauto.
Qed.
(** The values in scope have these types, those that are there. *)
Definition typed_or_missing (types : bytes -> option ity) (flags : bytes -> Prop) (sc : bytes -> option machine) : Prop :=
  (forall x t, types x = Some t -> sc x = None \/ exists z, sc x = Some (Whole t z)) /\
  (forall x, flags x -> sc x = None \/ exists b, sc x = Some (Truth b)).
Lemma number_pair types flags sc : typed_or_missing types flags sc -> forall e t, has_type types e t ->
  pair t (eval (machine_arithmetic true) sc e) (eval (machine_arithmetic false) sc e).
Proof.
  intros [T _].
  apply (has_type_rec types (fun e t => pair t (eval (machine_arithmetic true) sc e) (eval (machine_arithmetic false) sc e))
           (fun e t => pair_operand t e (eval (machine_arithmetic true) sc e) (eval (machine_arithmetic false) sc e))).
  - intros x t H. cbn [eval]. destruct (T x t H) as [-> |(z & ->)]; auto.
  - intros o a b t O N D _ Ha _ Hb. exact (op_pair o a b t _ _ _ _ O N D Ha Hb).
  - intros o a b t u O _ Ha _ Hb. assert (S : shifts o = true) by (destruct O as [<-|[<-|[]]]; reflexivity).
    change (pair t (eval_op true o (eval (machine_arithmetic true) sc a) (eval (machine_arithmetic true) sc b))
                   (eval_op false o (eval (machine_arithmetic false) sc a) (eval (machine_arithmetic false) sc b))).
    assert (P : forall checks v, machine_op checks o v Panicked = Some Panicked) by (intros; apply panicked_any; clear -O; cbn in *; intuition congruence).
    destruct Ha as [|x| |x], Hb as [|y| |y]; cbn [eval_op]; rewrite ?P; cbn [machine_op]; rewrite ?S; auto;
      destruct (shift_pair o t x y O) as [H (z & E)]; auto; rewrite E; auto.
  - intros o a n t O _ Ha W. assert (S : shifts o = true) by (destruct O as [<-|[<-|[]]]; reflexivity).
    assert (X : ((0 <=? Z.of_N n) && (Z.of_N n <? bits_of t))%Z = true) by (unfold bits_of; fold (width t); lia).
    cbn [eval a_op a_num machine_arithmetic]. destruct Ha as [|x| |x]; cbn [machine_op]; rewrite ?S, ?X; auto;
      destruct (shift_pair o t x (Z.of_N n) O) as [H (z & E)]; auto; rewrite E; auto.
  - intros e t name u _ He Tn. cbn [eval a_cast machine_arithmetic]. unfold machine_cast. rewrite (type_found _ _ Tn). destruct He; auto.
  - intros n name u Rn Tn. cbn [eval a_num a_cast machine_arithmetic]. unfold machine_cast. rewrite (type_found _ _ Tn). apply in_rangeb_iff in Rn. rewrite Rn. auto.
  - intros e t _ He S. apply signed_iff in S. cbn [eval a_get machine_arithmetic]. destruct He; cbn [machine_get]; rewrite ?S; auto using fitted_pair.
    unfold fitted. destruct (in_rangeb _ _); auto.
  - intros e t _ He. cbn [eval a_get machine_arithmetic]. destruct He; cbn [machine_get]; auto.
  - intros n t Rn. cbn [eval a_num machine_arithmetic]. eauto.
  - intros e t _ He. auto.
Qed.
Lemma compare_pair o a b t v w v' w' R : relation o R -> ~ (numeral a /\ numeral b) ->
  pair_operand t a v v' -> pair_operand t b w w' -> pair_truth (eval_op true o v w) (eval_op false o v' w').
Proof.
  intros HR N Ha Hb. destruct (compares_plain o R 0 0 t true HR) as (S & D & NA & _).
  assert (C : forall checks x y, exists c, calculate checks o t x y = Some (Truth c) /\ calculate false o t x y = Some (Truth c)).
  { intros checks x y. destruct (relation_compared o R x y HR) as (c & E & _). exists c.
    rewrite (proj2 (proj2 (proj2 (compares_plain o R x y t checks HR)))), (proj2 (proj2 (proj2 (compares_plain o R x y t false HR)))), E. split; reflexivity. }
  assert (P : forall checks v, machine_op checks o v Panicked = Some Panicked) by (intros; now apply panicked_any).
  assert (PL : forall checks x n, in_range t (Z.of_N n) -> machine_op checks o (Whole t x) (Literal (Z.of_N n)) = calculate checks o t x (Z.of_N n)).
  { intros checks x n R'. apply in_rangeb_iff in R'. cbn [machine_op]. now rewrite S, R', D. }
  assert (LP : forall checks y n, in_range t (Z.of_N n) -> machine_op checks o (Literal (Z.of_N n)) (Whole t y) = calculate checks o t (Z.of_N n) y).
  { intros checks y n R'. apply in_rangeb_iff in R'. cbn [machine_op]. now rewrite S, R'. }
  assert (WW : forall checks x y, machine_op checks o (Whole t x) (Whole t y) = calculate checks o t x y).
  { intros checks x y. cbn [machine_op]. rewrite S. now destruct (ity_dec t t). }
  assert (BOTH : forall x y, pair_truth (calculate true o t x y) (calculate false o t x y)).
  { intros x y. destruct (C true x y) as (c & -> & ->). auto. }
  assert (ANY : forall x y, pair_truth (Some Panicked) (calculate false o t x y)).
  { intros x y. destruct (C false x y) as (c & -> & _). auto. }
  destruct Ha as [n En Rn|v v' [|x| |x]], Hb as [n' En' Rn'|w w' [|y| |y]]; cbn [eval_op]; rewrite ?P, ?PL, ?LP, ?WW by assumption; cbn [machine_op]; auto.
  all: try (elim N; split; eexists; eassumption).
Qed.
Lemma operand_pair types flags sc e t : typed_or_missing types flags sc -> fits_type types e t ->
  pair_operand t e (eval (machine_arithmetic true) sc e) (eval (machine_arithmetic false) sc e).
Proof. intros T [n u R|e' u H]; [cbn; eauto|]. apply po_pair. exact (number_pair types flags sc T _ _ H). Qed.
Lemma condition_pair types flags sc : typed_or_missing types flags sc -> forall e, is_condition types flags e ->
  pair_truth (eval (machine_arithmetic true) sc e) (eval (machine_arithmetic false) sc e).
Proof.
  intros T e H. induction H as [x F|o a b t O N Fa Fb|a b Ha IHa Hb IHb|a b Ha IHa Hb IHb|e He IHe|o f a b Co Ha IHa Hb IHb].
  - cbn [eval]. destruct (proj2 T x F) as [-> |(b & ->)]; auto.
  - destruct (relation_in o O) as (R & HR). exact (compare_pair o a b t _ _ _ _ R HR N (operand_pair _ _ _ _ _ T Fa) (operand_pair _ _ _ _ _ T Fb)).
  - change (pair_truth (eval_op true AndAlso (eval (machine_arithmetic true) sc a) (eval (machine_arithmetic true) sc b))
                       (eval_op false AndAlso (eval (machine_arithmetic false) sc a) (eval (machine_arithmetic false) sc b))).
    destruct IHa as [|[|]| |[|]], IHb as [|[|]| |[|]]; cbn; auto.
  - change (pair_truth (eval_op true OrElse (eval (machine_arithmetic true) sc a) (eval (machine_arithmetic true) sc b))
                       (eval_op false OrElse (eval (machine_arithmetic false) sc a) (eval (machine_arithmetic false) sc b))).
    destruct IHa as [|[|]| |[|]], IHb as [|[|]| |[|]]; cbn; auto.
  - cbn [eval a_get machine_arithmetic]. destruct IHe; cbn; auto.
  - change (pair_truth (eval_op true o (eval (machine_arithmetic true) sc a) (eval (machine_arithmetic true) sc b))
                       (eval_op false o (eval (machine_arithmetic false) sc a) (eval (machine_arithmetic false) sc b))).
    destruct IHa as [|[|]| |[|]], IHb as [|[|]| |[|]]; cbn [eval_op]; auto; destruct Co; cbn; auto.
Qed.
(** Without checks only a division panics. *)
Definition simple (v : option machine) : Prop := v <> Some Panicked /\ forall l, v <> Some (Members l).
Lemma op_simple o v w r : machine_op false o v w = Some r -> (forall l, r <> Members l) /\ (r = Panicked -> In o [Divide; Remainder] \/ v = Panicked \/ w = Panicked).
Proof.
  intros E. assert (C : forall t x y r, calculate false o t x y = Some r -> (forall l, r <> Members l) /\ (r = Panicked -> In o [Divide; Remainder])).
  { clear. intros t x y r E. destruct o; cbn in E; unfold fitted in E; try discriminate E;
      repeat match type of E with context [if ?c then _ else _] => destruct c end; injection E as <-; split; intros; first [discriminate|cbn; auto]. }
  assert (SH : forall t x y r, shift false o t x y = Some r -> (forall l, r <> Members l) /\ r <> Panicked).
  { clear. intros t x y r E. unfold shift in E. destruct o; cbn in E;
      repeat match type of E with context [if ?c then _ else _] => destruct c end; try discriminate E; injection E as <-; split; intros; discriminate. }
  assert (X : (forall l, r <> Members l) /\ (r = Panicked -> In o [Divide; Remainder]) \/ v = Panicked /\ r = Panicked \/ w = Panicked /\ (forall l, r <> Members l)).
  { destruct v as [t x|x|a| |l], w as [u y|y|b| |l']; cbn [machine_op] in E; try discriminate E;
      repeat match type of E with context [if ?c then _ else _] => destruct c end; try discriminate E;
      try (left; eapply C; eassumption); try (left; destruct (SH _ _ _ _ E) as [M P]; split; [exact M|intros; contradiction]);
      try (injection E as <-; right; left; split; reflexivity);
      try (injection E as <-; right; right; split; [reflexivity|intros; discriminate]).
    - left. destruct o; cbn in E; try discriminate E; injection E as <-; split; intros; discriminate.
    - right; right. split; [reflexivity|]. injection E as <-. destruct o, a; cbn; intros; discriminate. }
  destruct X as [[M P]|[[-> ->]|[-> M]]]; split; try assumption; try (intros; discriminate); tauto.
Qed.
Lemma division_panics sc : (forall x, simple (sc x)) -> forall e,
  (forall l, eval (machine_arithmetic false) sc e <> Some (Members l)) /\ (eval (machine_arithmetic false) sc e = Some Panicked -> has_division e).
Proof.
  intros H e. induction e as [n|x|e [M IH] f|e [M IH] t|o a [Ma IHa] b [Mb IHb]]; cbn [eval has_division].
  - split; [intros l|]; discriminate.
  - split; [apply H|]. intros E. elim (proj1 (H x) E).
  - destruct (eval _ sc e) as [[t z|z|b| |l]|]; destruct f; cbn [a_get machine_arithmetic machine_get]; try (split; [intros l0|]; discriminate); try (elim (M l); reflexivity);
      try (split; [intros l0; discriminate|intros _; now apply IH]).
    destruct (signed t); [|split; [intros l0|]; discriminate]. unfold fitted. destruct (in_rangeb _ _); split; try intros l0; discriminate.
  - destruct (eval _ sc e) as [[t' z|z|b| |l]|]; cbn [a_cast machine_arithmetic]; unfold machine_cast; destruct (integer_type t); try (split; [intros l0|]; discriminate);
      try (elim (M l); reflexivity); try (split; [intros l0; discriminate|intros _; now apply IH]).
    destruct (in_rangeb _ _); split; try intros l0; discriminate.
  - destruct (eval _ sc a) as [v|] eqn:Ea; [|split; [intros l|]; discriminate]. destruct (eval _ sc b) as [w|] eqn:Eb; [|split; [intros l|]; discriminate].
    cbn [a_op machine_arithmetic]. destruct (machine_op false o v w) as [r|] eqn:E; [|split; [intros l|]; discriminate]. apply op_simple in E as [MR PR].
    split; [intros l [= ->]; now apply (MR l)|]. intros [= ->]. destruct (PR eq_refl) as [I|[-> | ->]]; [now left|right; left; now apply IHa|right; right; now apply IHb].
Qed.

(** ** Attributes *)
Lemma member_from l : forall fa fa' s c, field_entries fa l = Some fa' -> member fa' s = Some c ->
  member fa s = Some c \/ exists e ef, In e l /\ effects e = Some ef /\ In (s, c) ef.
Proof.
  induction l as [|e l IH]; intros fa fa' s c; cbn [field_entries]; [intros [= <-]; auto|].
  rewrite entry_effects. destruct (effects e) as [ef|] eqn:E; [|discriminate]. cbn [option_map]. intros H M.
  destruct (IH _ _ _ _ H M) as [X|(e' & ef' & I & E' & J)]; [|right; exists e', ef'; split; [now right|now split]].
  clear - X E. enough (Y : member fa s = Some c \/ In (s, c) ef) by (destruct Y; [now left|right; exists e, ef; split; [now left|now split]]).
  clear E. revert X. induction ef as [|[s' c'] ef IH]; cbn [puts fold_right fst snd]; [auto|]. cbn [put member]. destruct (slot_beq s' s) eqn:E.
  - intros [= <-]. right. left. f_equal. now apply internal_slot_dec_bl.
  - intros X. destruct (IH X); [now left|right; now right].
Qed.
Lemma content_from l fa s c : attributes_of [jbytes_line l] = Some fa -> member fa s = Some c -> c <> Flag ->
  exists x rk lit, In (Property (txt x) lit) l /\ In (x, (rk, s)) field_properties /\ c = read_literal rk lit.
Proof.
  rewrite line_parsed. intros H M F. destruct (member_from _ _ _ _ _ H M) as [X|(e & ef & I & E & J)]; [discriminate X|].
  destruct e as [i|k lit]; cbn [effects] in E.
  - destruct (assoc i field_tags); [|discriminate]. injection E as <-. destruct J as [[= _ <-]|[]]. now elim F.
  - destruct (assoc k field_properties) as [[rk s']|] eqn:A; [|discriminate]. injection E as <-. apply assoc_in in A as (x & A & ->).
    apply in_app_iff in J as [J|[[= <- <-]|[]]]; [destruct (bytes_eqb _ _); [destruct J as [[= _ <-]|[]]; now elim F|destruct J]|]. now exists x, rk, lit.
Qed.
Definition number_slots : list slot := [SBranch; SLength; SCount; STryCount; SBits; SByteCount; SByteCountOutside; SOffset].
Lemma slots_properties :
  forallb (fun p => implb (existsb (slot_beq (snd (snd p))) number_slots)
                      (existsb (String.eqb (fst p)) number_keys && match fst (snd p) with RUsize => true | _ => false end) &&
                    implb (slot_beq (snd (snd p)) SByteorder) (String.eqb (fst p) "byteorder" && match fst (snd p) with ROrder => true | _ => false end) &&
                    implb (slot_beq (snd (snd p)) SIfExpr) (String.eqb (fst p) "if_expr" && match fst (snd p) with RString => true | _ => false end) &&
                    implb (slot_beq (snd (snd p)) SVariableName) (String.eqb (fst p) "variable_name")) field_properties = true.
Proof. vm_compute. reflexivity. Qed.
Lemma called_not k l l' : called k l -> called k l' -> (forall x, In x l -> ~ In x l') -> False.
Proof.
  unfold called. rewrite !in_map_iff. intros (x & <- & I) (y & E & J) H. apply (f_equal string_of_list_byte) in E.
  rewrite !string_of_list_byte_of_string in E. subst y. exact (H x I J).
Qed.
Definition apart_keys (l l' : list string) : bool := forallb (fun x => negb (existsb (String.eqb x) l')) l.
Lemma apart_not k l l' : called k l -> called k l' -> apart_keys l l' = true -> False.
Proof.
  intros H K A. apply (called_not k l l' H K). intros x I J. pose proof (proj1 (forallb_forall _ _) A x I) as X. cbv beta in X.
  rewrite (proj2 (existsb_exists _ _)) in X; [discriminate|]. exists x. split; [exact J|apply String.eqb_refl].
Qed.
Ltac not_called := exfalso; match goal with H : called ?k ?a, K : called ?k ?b |- _ => exact (apart_not k a b H K eq_refl) end.
Lemma says_number m k lit g : says m (Property k lit) g -> called k number_keys -> exists e, denotes m lit e.
Proof. intros H K. inversion H; subst; try (eexists; eassumption); not_called. Qed.
Lemma says_byteorder m k lit g t : says m (Property k lit) g -> called k ["byteorder"%string] -> parse_byteorder lit = AVar t ->
  string_literal lit t /\ ~ called t ["BE"; ">"; "0"; "LE"; "<"; "1"]%string.
Proof.
  intros H K P. inversion H; subst; try not_called.
  - destruct (order_word s Be) as [E _]; [assumption|congruence].
  - destruct (order_word s Le) as [E _]; [assumption|congruence].
  - rewrite (order_expression lit s) in P by assumption. injection P as <-. now split.
Qed.
Lemma says_condition m k lit g : says m (Property k lit) g -> called k ["if_expr"%string] -> string_literal lit (parse_value_string lit).
Proof. intros H K. inversion H; subst; try not_called. match goal with H : string_literal _ _ |- _ => now rewrite (read_string _ _ H) end. Qed.

(** What the parsed attributes of a field hold. *)
Record attributes_typed (types : bytes -> option ity) (flags : bytes -> Prop) (Q QC : rexpr -> Prop) (fa : field_attributes) : Prop := mkat {
  at_byteorder : forall t, In t (texts fa [SByteorder]) -> exists x u, reads_as Cast t x /\ has_type types x u /\ Q x;
  at_numbers : forall s t, In s number_slots -> In t (texts fa [s]) -> exists x u, reads_as Disjunction t x /\ has_type types x u /\ Q x;
  at_condition : forall t, member fa SIfExpr = Some (Raw t) -> exists x, reads_as Disjunction t x /\ is_condition types flags x /\ QC x;
  at_no_variable : member fa SVariableName = None }.
Lemma text_from fa s t : In t (texts fa [s]) -> member fa s = Some (AttrParse.Value (AVar t)).
Proof. unfold texts. cbn [flat_map]. rewrite app_nil_r. destruct (member fa s) as [[|[]|]|]; intros H; try contradiction; destruct H as [<-|[]]; reflexivity. Qed.
Lemma entries_typed m l gs F fa : Forall2 (says m) l gs -> (forall k lit, In (Property k lit) l -> ~ called k ["variable_name"%string]) ->
  Forall (entry_typed F) l -> attributes_of [jbytes_line l] = Some fa ->
  attributes_typed (integer_field F) (flag_field F) (fun x => exists e, In e l /\ holds_number e x) (fun x => exists e, In e l /\ holds_condition e x) fa.
Proof.
  intros S V T P.
  assert (SA : forall e, In e l -> exists g, says m e g).
  { clear -S. induction S as [|e g l gs H S IH]; intros e' I; [destruct I|destruct I as [<-|I]; eauto]. }
  rewrite Forall_forall in T. pose proof (proj1 (forallb_forall _ _) slots_properties) as SP.
  split.
  - intros t H. apply text_from in H. destruct (content_from _ _ _ _ P H ltac:(discriminate)) as (x & rk & lit & I & J & E).
    specialize (SP _ J). cbn [fst snd] in SP. rewrite !andb_true_iff in SP. destruct SP as [[[_ SP] _] _]. rewrite slot_beq_refl in SP.
    apply andb_true_iff in SP as [SX SR]. apply String.eqb_eq in SX. subst x. destruct rk; try discriminate SR. injection E as E. symmetry in E.
    destruct (SA _ I) as (g & SG). assert (K : called (txt "byteorder") ["byteorder"%string]) by now left.
    destruct (says_byteorder _ _ _ _ _ SG K E) as [SL NW]. destruct (proj1 (proj2 (T _ I _ SL)) K NW) as (x & u & R & HT).
    exists x, u. split; [exact R|]. split; [exact HT|]. exists (Property (txt "byteorder") lit). split; [exact I|]. now apply (hn_order _ _ t).
  - intros s t HS H. apply text_from in H. destruct (content_from _ _ _ _ P H ltac:(discriminate)) as (x & rk & lit & I & J & E).
    specialize (SP _ J). cbn [fst snd] in SP. rewrite !andb_true_iff in SP. destruct SP as [[[SP _] _] _].
    assert (X : existsb (slot_beq s) number_slots = true) by (apply existsb_exists; exists s; split; [exact HS|apply slot_beq_refl]).
    rewrite X in SP. cbn [implb] in SP. apply andb_true_iff in SP as [SX SR]. apply existsb_exists in SX as (y & SX & EY). apply String.eqb_eq in EY. subst y.
    destruct rk; try discriminate SR. injection E as E. symmetry in E.
    assert (K : called (txt x) number_keys) by (apply in_map_iff; exists x; now split).
    destruct (SA _ I) as (g & SG). destruct (says_number _ _ _ _ SG K) as (e & D). destruct D as [lit s0 n0 Q W L|lit s0 SL X0].
    { rewrite (parse_number _ _ _ Q W L) in E. discriminate. }
    rewrite (parse_expression _ _ SL X0) in E. injection E as ->. destruct (proj1 (T _ I _ SL) K X0) as (x0 & u & R & HT).
    exists x0, u. split; [exact R|]. split; [exact HT|]. exists (Property (txt x) lit). split; [exact I|]. now apply (hn_number _ _ t).
  - intros t H. destruct (content_from _ _ _ _ P H ltac:(discriminate)) as (x & rk & lit & I & J & E).
    specialize (SP _ J). cbn [fst snd] in SP. rewrite !andb_true_iff in SP. destruct SP as [[_ SP] _]. rewrite slot_beq_refl in SP.
    apply andb_true_iff in SP as [SX SR]. apply String.eqb_eq in SX. subst x. destruct rk; try discriminate SR. injection E as E. subst t.
    destruct (SA _ I) as (g & SG). assert (K : called (txt "if_expr") ["if_expr"%string]) by now left.
    pose proof (says_condition _ _ _ _ SG K) as SL. destruct (proj2 (proj2 (T _ I _ SL)) K) as (x & R & HC).
    exists x. split; [exact R|]. split; [exact HC|]. exists (Property (txt "if_expr") lit). split; [exact I|]. now apply (hc_if _ _ (parse_value_string lit)).
  - destruct (member fa SVariableName) as [c|] eqn:M; [exfalso|reflexivity].
    assert (F0 : c <> Flag).
    { intros ->. clear -M P. rewrite line_parsed in P. destruct (member_from _ _ _ _ _ P M) as [X|(e & ef & I & E & J)]; [discriminate X|].
      destruct e as [i|k lit].
      - pose proof (tag_slots _ _ SVariableName E ltac:(apply in_map_iff; exists (SVariableName, Flag); now split)) as (x & A & _). cbn in A. intuition discriminate.
      - cbn [effects] in E. destruct (assoc k field_properties) as [[rk s']|]; [|discriminate]. injection E as <-.
        apply in_app_iff in J as [J|[[= _ J]|[]]]; [destruct (bytes_eqb _ _); [destruct J as [[=]|[]]|destruct J]|destruct rk; discriminate J]. }
    destruct (content_from _ _ _ _ P M F0) as (x & rk & lit & I & J & E).
    specialize (SP _ J). cbn [fst snd] in SP. rewrite !andb_true_iff in SP. destruct SP as [_ SP]. rewrite slot_beq_refl in SP. apply String.eqb_eq in SP. subst x.
    apply (V _ _ I). now left.
Qed.

(** ** Statements *)
Definition guarded_same (dty : ty -> cattr -> fattr -> rd val) (g h : (store -> bool) * stmt) : Prop :=
  GenLemmas.binds (snd g) = GenLemmas.binds (snd h) /\
  forall st, fst g st = true \/ fst g st = false /\ fst h st = false /\ run_stmt dty (snd g) st = run_stmt dty (snd h) st.
Lemma guarded_run dty l r : Forall2 (guarded_same dty) l r -> forall st input p,
  run_guarded dty l st input p = Panic \/ run_guarded dty l st input p = run_guarded dty r st input p.
Proof.
  induction 1 as [|[g c] [h d] l r E H IH]; intros st input p; [now right|]. cbn [run_guarded].
  destruct (proj2 E st) as [G|(G & G' & S)]; cbn [fst snd] in *; rewrite G; [now left|]. rewrite G', S.
  unfold bind. destruct (run_stmt dty d st input p) as [st' p'| | |]; try (now right). apply IH.
Qed.
Lemma run_unguarded dty l : (forall g st, In g l -> fst g st = false) -> forall st input p,
  run_guarded dty l st input p = run_stmts dty (map snd l) st input p.
Proof.
  induction l as [|[g c] l IH]; intros H st input p; [reflexivity|]. cbn [run_guarded map run_stmts snd].
  pose proof (H (g, c) st (or_introl eq_refl)) as E. cbn [fst] in E. rewrite E. unfold bind. destruct (run_stmt dty c st input p); try reflexivity.
  apply IH. intros g' st' I. apply H. now right.
Qed.

Section Field.
Context (dty : ty -> cattr -> fattr -> rd val) (types : bytes -> option ty) (F : list (bytes * ty)) (vars : list (nat * N)).
Context (HT : forall x t, field_type F x = Some t -> types x = Some t).
Let before : list bytes := map fst F.
Let sc (vs : list val) : bytes -> option machine := variables types before vs.
Lemma scope_typed_missing vs : typed_or_missing (integer_field F) (flag_field F) (sc vs).
Proof.
  unfold sc, variables, typed_or_missing, integer_field, flag_field. split.
  - intros x t H. destruct (field_type F x) as [u|] eqn:E; [|discriminate]. apply HT in E. rewrite E. destruct u; try discriminate. injection H as ->.
    destruct (find _ _) as [[y []]|]; eauto.
  - intros x E. apply HT in E. rewrite E. destruct (find _ _) as [[y []]|]; eauto.
Qed.
Lemma scope_simple vs x : simple (sc vs x).
Proof. unfold sc, variables. destruct (find _ _) as [[y []]|], (types x) as [[]|]; split; try intros l; discriminate. Qed.

Lemma number_build code k text x u vs : (code = var_code /\ k = Disjunction \/ code = GenExpr.order_code /\ k = Cast) ->
  reads_as k text x -> has_type (integer_field F) x u -> panics true types before vs (code false text) = false ->
  panics false types before vs (code false text) = false /\
  forall en, ev_fields en = vs -> build_number true types code before text en = build_number false types code before text en.
Proof.
  intros C T H. assert (X : exists name v, type_name name v /\ forall A, code_value A (sc vs) (code false text) = eval A (sc vs) (ECast x name)).
  { destruct C as [[-> ->]|[-> ->]].
    - exists (txt "usize"), Usize. split; [constructor|]. intros A. apply (C66_text _ _ _ _ _ (var_reads _ _ T)).
    - exists (txt "isize"), Isize. split; [constructor|]. intros A. apply (C66_text _ _ _ _ _ (order_reads _ _ T)). }
  destruct X as (name & v & TN & E). unfold panics, build_number. fold (sc vs). rewrite !E.
  pose proof (number_pair _ _ _ (scope_typed_missing vs) _ _ (ht_cast _ _ _ _ _ H TN)) as P. intros N. split.
  - destruct P; try reflexivity; discriminate.
  - intros en ->. fold (sc vs). rewrite !E. destruct P; try reflexivity; discriminate.
Qed.
Lemma condition_build text x vs : reads_as Disjunction text x -> is_condition (integer_field F) (flag_field F) x -> panics true types before vs text = false ->
  panics false types before vs text = false /\
  forall en, ev_fields en = vs -> build_condition true types before text en = build_condition false types before text en.
Proof.
  intros T H. unfold panics, build_condition. fold (sc vs). pose proof (condition_pair _ _ _ (scope_typed_missing vs) _ H) as P.
  rewrite !(C66_text _ _ _ _ _ T). intros N. split.
  - destruct P; try reflexivity; discriminate.
  - intros en ->. fold (sc vs). rewrite !(C66_text _ _ _ _ _ T). destruct P; try reflexivity; discriminate.
Qed.
Lemma no_division_build code k text x vs : (code = var_code /\ k = Disjunction \/ code = GenExpr.order_code /\ k = Cast) ->
  reads_as k text x -> ~ has_division x -> panics false types before vs (code false text) = false.
Proof.
  intros C T D. assert (X : exists name, forall A, code_value A (sc vs) (code false text) = eval A (sc vs) (ECast x name)).
  { destruct C as [[-> ->]|[-> ->]].
    - exists (txt "usize"). intros A. apply (C66_text _ _ _ _ _ (var_reads _ _ T)).
    - exists (txt "isize"). intros A. apply (C66_text _ _ _ _ _ (order_reads _ _ T)). }
  destruct X as (name & E). unfold panics. fold (sc vs). rewrite E.
  destruct (eval _ (sc vs) (ECast x name)) as [[]|] eqn:V; try reflexivity. elim D. now apply (division_panics (sc vs) (scope_simple vs) (ECast x name)).
Qed.
Lemma no_division_condition text x vs : reads_as Disjunction text x -> ~ has_division x -> panics false types before vs text = false.
Proof.
  intros T D. unfold panics. fold (sc vs). rewrite (C66_text _ _ _ _ _ T). destruct (eval _ (sc vs) x) as [[]|] eqn:V; try reflexivity.
  elim D. now apply (division_panics (sc vs) (scope_simple vs) x).
Qed.

Context (Q QC : rexpr -> Prop) (fa : field_attributes) (AT : attributes_typed (integer_field F) (flag_field F) Q QC fa) (m : meaning).
Definition with_condition (checks : bool) : meaning :=
  mkmeaning (m_number m) (m_order m) (build_condition checks types before) (m_function m) (m_value m) (m_literal m) (m_name m) (m_default m)
            (m_from_str m) (m_decoder m) (m_encoder m).
Let M (checks : bool) : meaning := with_numbers (build_number checks types var_code before) (build_number checks types GenExpr.order_code before) (with_condition checks).
Let G (checks : bool) (c : stmt) : (store -> bool) * stmt := (fun st => stmt_panics checks types before fa c (ev_fields (sees before vars st)), c).
Lemma in_texts s l t : In s l -> In t (texts fa [s]) -> In t (texts fa l).
Proof. unfold texts. cbn [flat_map]. rewrite app_nil_r. intros I J. apply in_flat_map. now exists s. Qed.
Lemma number_code_build st s l : In s number_slots -> In s l ->
  existsb (fun t => panics true types before (ev_fields (sees before vars st)) (var_code false t)) (texts fa l) = false ->
  eval_opt (number_code (M true) (member fa s)) (sees before vars st) = eval_opt (number_code (M false) (member fa s)) (sees before vars st).
Proof.
  intros S L E. destruct (member fa s) as [[|[]|]|] eqn:X; try reflexivity.
  assert (I : In s0 (texts fa [s])). { unfold texts. cbn [flat_map]. rewrite X. now left. }
  destruct (at_numbers _ _ _ _ _ AT s s0 S I) as (x & u & T & H & _). cbn [number_code M with_numbers m_number eval_opt].
  assert (N : panics true types before (ev_fields (sees before vars st)) (var_code false s0) = false).
  { destruct (panics _ _ _ _ _) eqn:P; [|reflexivity]. rewrite <- E. symmetry. apply existsb_exists. exists s0. split; [now apply (in_texts s)|exact P]. }
  unfold eval_opt. cbn [option_map]. f_equal. f_equal. apply (proj2 (number_build var_code Disjunction s0 x u _ (or_introl (conj eq_refl eq_refl)) T H N)). reflexivity.
Qed.
Lemma numbers_unpanicked l vs : incl l number_slots -> existsb (fun t => panics true types before vs (var_code false t)) (texts fa l) = false ->
  existsb (fun t => panics false types before vs (var_code false t)) (texts fa l) = false.
Proof.
  intros L E. destruct (existsb (fun t => panics false _ _ _ _) _) eqn:X; [|reflexivity]. apply existsb_exists in X as (t & I & P). rewrite <- E. symmetry.
  apply existsb_exists. exists t. split; [exact I|]. unfold texts in I. apply in_flat_map in I as (s & I & J).
  assert (J' : In t (texts fa [s])) by (unfold texts; cbn [flat_map]; now rewrite app_nil_r).
  destruct (at_numbers _ _ _ _ _ AT s t (L s I) J') as (x & u & T & H & _). destruct (panics true _ _ _ _) eqn:N; [reflexivity|].
  rewrite (proj1 (number_build var_code Disjunction t x u _ (or_introl (conj eq_refl eq_refl)) T H N)) in P. discriminate.
Qed.
Lemma order_code_build st : existsb (fun t => panics true types before (ev_fields (sees before vars st)) (GenExpr.order_code false t)) (texts fa [SByteorder]) = false ->
  existsb (fun t => panics false types before (ev_fields (sees before vars st)) (GenExpr.order_code false t)) (texts fa [SByteorder]) = false /\
  (AttrParse.order_code (M true) (member fa SByteorder) = AttrParse.order_code (M false) (member fa SByteorder) \/
   exists e e', AttrParse.order_code (M true) (member fa SByteorder) = Some (OVar e) /\ AttrParse.order_code (M false) (member fa SByteorder) = Some (OVar e') /\
     e (sees before vars st) = e' (sees before vars st)).
Proof.
  unfold texts at 1 2. cbn [flat_map]. destruct (member fa SByteorder) as [[|[]|]|] eqn:X; try (intros _; split; [reflexivity|now left]).
  cbn [app existsb]. rewrite !orb_false_r. intros N.
  assert (I : In s (texts fa [SByteorder])). { unfold texts. cbn [flat_map]. rewrite X. now left. }
  destruct (at_byteorder _ _ _ _ _ AT s I) as (x & u & T & H & _).
  destruct (number_build GenExpr.order_code Cast s x u _ (or_intror (conj eq_refl eq_refl)) T H N) as [N' E]. split; [exact N'|]. right. do 2 eexists.
  split; [reflexivity|]. split; [reflexivity|]. cbn [M with_numbers m_order]. now apply E.
Qed.
Lemma modifiers_build st : stmt_panics true types before fa (LetFattr (fun _ => None)) (ev_fields (sees before vars st)) = false ->
  stmt_panics false types before fa (LetFattr (fun _ => None)) (ev_fields (sees before vars st)) = false /\
  modifiers (field_spec (M true) fa) (sees before vars st) = modifiers (field_spec (M false) fa) (sees before vars st).
Proof.
  unfold stmt_panics. rewrite orb_false_iff. intros [O N]. destruct (order_code_build st O) as [O' EO].
  split; [rewrite O'; apply numbers_unpanicked; [|exact N]; intros s I; cbn in *; tauto|].
  assert (X : forall s, In s [SBranch; SLength; SCount; STryCount; SBits; SByteCount; SByteCountOutside] ->
            eval_opt (number_code (M true) (member fa s)) (sees before vars st) = eval_opt (number_code (M false) (member fa s)) (sees before vars st)).
  { intros s I. apply (number_code_build st s [SBranch; SLength; SCount; STryCount; SBits; SByteCount; SByteCountOutside]); auto. cbn in *. tauto. }
  unfold modifiers, field_spec. cbn [f_use f_order f_length f_linend f_bits f_bits_start f_byte_count f_remaining f_count f_try_count f_byte_count_outside f_key f_split f_branch f_loop].
  rewrite !X by (cbn; tauto). destruct (is_use fa); [|reflexivity].
  destruct EO as [-> |(e & e' & -> & -> & ->)]; reflexivity.
Qed.
Lemma same_stmts l : (forall c checks vs, In c l -> stmt_panics checks types before fa c vs = false) -> Forall2 (guarded_same dty) (map (G true) l) (map (G false) l).
Proof.
  induction l as [|c l IH]; intros H; cbn [map]; [constructor|]. constructor; [|apply IH; intros; apply H; now right].
  split; [reflexivity|]. intros st. right. cbn [G fst snd]. repeat split; apply H; now left.
Qed.
Lemma field_same i name u : Forall2 (guarded_same dty) (map (G true) (gen_fields true vars before i [mkfield name (field_spec (M true) fa) u]))
  (map (G false) (gen_fields true vars before i [mkfield name (field_spec (M false) fa) u])).
Proof.
  cbn [gen_fields orb n_spec n_name n_type]. rewrite !app_nil_r, !map_app. apply Forall2_app.
  { constructor; [|constructor]. split; [reflexivity|]. intros st. cbn [G fst snd].
    change (stmt_panics ?b types before fa (LetFattr ?f) ?vs) with (stmt_panics b types before fa (LetFattr (fun _ => None)) vs).
    destruct (stmt_panics true types before fa (LetFattr (fun _ => None)) (ev_fields (sees before vars st))) eqn:E; [now left|right].
    destruct (modifiers_build st E) as [E' EM]. split; [reflexivity|]. split; [exact E'|]. cbn [run_stmt]. now rewrite EM. }
  unfold gen_field. rewrite !map_app. repeat apply Forall2_app.
  - unfold field_spec at 1 2. cbn [f_offset]. destruct (member fa SOffset) as [[|[]|]|] eqn:X; cbn [number_code map]; try (apply Forall2_nil); (apply Forall2_cons; [|apply Forall2_nil]).
    + split; [reflexivity|]. intros st. cbn [G fst snd stmt_panics]. destruct (existsb _ (texts fa [SOffset])) eqn:E; [now left|right]. split; [reflexivity|].
      pose proof (numbers_unpanicked [SOffset] _ ltac:(intros s' I; cbn in *; tauto) E) as E'. split; [exact E'|]. cbn [run_stmt].
      pose proof (number_code_build st SOffset [SOffset] ltac:(cbn; tauto) ltac:(cbn; tauto) E) as EE. rewrite X in EE. cbn [number_code eval_opt option_map] in EE. unfold eval_opt in EE. cbn [option_map] in EE. injection EE as EE. cbn [M with_numbers m_number] in EE |- *. now rewrite EE.
    + split; [reflexivity|]. intros st. cbn [G fst snd]. right. unfold stmt_panics, texts. cbn [flat_map]. rewrite X. split; [reflexivity|split; reflexivity].
  - change (f_with_decode (field_spec (M true) fa)) with (f_with_decode (field_spec (M false) fa)).
    change (f_skip_decode (field_spec (M true) fa)) with (f_skip_decode (field_spec (M false) fa)).
    change (f_from_str (field_spec (M true) fa)) with (f_from_str (field_spec (M false) fa)).
    change (f_untake (field_spec (M true) fa)) with (f_untake (field_spec (M false) fa)).
    change (f_value_decode (field_spec (M true) fa)) with (f_value_decode (field_spec (M false) fa)).
    change (f_check (field_spec (M true) fa)) with (f_check (field_spec (M false) fa)).
    destruct (f_with_decode _); [apply same_stmts; intros c b vs [<-|[]]; reflexivity|].
    destruct (f_skip_decode _); [apply same_stmts; intros c b vs [<-|[]]; reflexivity|].
    destruct (f_from_str _) as [[pa sh]|]; [apply same_stmts; intros c b vs [<-|[<-|[]]]; reflexivity|].
    rewrite !map_app. repeat apply Forall2_app.
    + destruct (f_untake _); [apply same_stmts; intros c b vs [<-|[]]; reflexivity|constructor].
    + unfold field_spec. cbn [f_if]. destruct (member fa SIfExpr) as [[| |t]|] eqn:X; cbn [raw_code option_map map];
        try (apply (same_stmts [LetDecoded _ None]); intros c b vs [<-|[]]; reflexivity).
      constructor; [|constructor]. split; [reflexivity|]. intros st. cbn [G fst snd stmt_panics]. rewrite X.
      destruct (at_condition _ _ _ _ _ AT t X) as (x & T & H & _). destruct (panics true types before _ t) eqn:E; [now left|right]. split; [reflexivity|].
      destruct (condition_build t x _ T H E) as [E' EC]. split; [exact E'|]. cbn [run_stmt with_modifiers]. cbn [M with_numbers with_condition m_condition].
      now rewrite (EC (sees before vars st) eq_refl).
    + destruct (f_untake _); [apply same_stmts; intros c b vs [<-|[]]; reflexivity|constructor].
    + destruct (f_value_decode _); [apply same_stmts; intros c b vs [<-|[]]; reflexivity|constructor].
    + destruct (f_check _); [apply same_stmts; intros c b vs [<-|[]]; reflexivity|constructor].
  - unfold field_spec. cbn [f_vars]. rewrite (at_no_variable _ _ _ _ _ AT). constructor.
Qed.
Lemma field_unguarded c vs : (forall x, Q x \/ QC x -> ~ has_division x) -> stmt_panics false types before fa c vs = false.
Proof.
  intros D. assert (N : forall l, incl l number_slots -> existsb (fun t => panics false types before vs (var_code false t)) (texts fa l) = false).
  { intros l L. destruct (existsb _ _) eqn:X; [|reflexivity]. apply existsb_exists in X as (t & I & P). unfold texts in I. apply in_flat_map in I as (s & I & J).
    assert (J' : In t (texts fa [s])) by (unfold texts; cbn [flat_map]; now rewrite app_nil_r).
    destruct (at_numbers _ _ _ _ _ AT s t (L s I) J') as (x & u & T & _ & QX).
    rewrite (no_division_build var_code Disjunction t x vs (or_introl (conj eq_refl eq_refl)) T (D x (or_introl QX))) in P. discriminate. }
  destruct c; try reflexivity; cbn [stmt_panics].
  - rewrite N by (intros s I; cbn in *; tauto). rewrite orb_false_r. destruct (existsb _ _) eqn:X; [|reflexivity]. apply existsb_exists in X as (t & I & P).
    destruct (at_byteorder _ _ _ _ _ AT t I) as (x & u & T & _ & QX).
    rewrite (no_division_build GenExpr.order_code Cast t x vs (or_intror (conj eq_refl eq_refl)) T (D x (or_introl QX))) in P. discriminate.
  - apply N. intros s I; cbn in *; tauto.
  - destruct c; [|reflexivity]. destruct (member fa SIfExpr) as [[| |t]|] eqn:X; try reflexivity. destruct (at_condition _ _ _ _ _ AT t X) as (x & T & _ & QX).
    apply (no_division_condition t x); [exact T|apply D; now right].
Qed.
End Field.

(** ** Structs *)
Definition typed_name (f : source_field) : bytes * ty := (s_name f, s_type f).
Definition divides_in (fs : list source_field) : Prop :=
  exists f l e x, In f fs /\ first_line ["jbytes"%string] (s_lines f) l /\ In e l /\ (holds_number e x \/ holds_condition e x) /\ has_division x.
Lemma fields_build dty types vars numbers rest : forall F b0 out i, fields_mean numbers b0 rest out ->
  (forall x t, field_type (F ++ map typed_name rest) x = Some t -> types x = Some t) ->
  (forall j f l, nth_error rest j = Some f -> first_line ["jbytes"%string] (s_lines f) l -> Forall (entry_typed (F ++ map typed_name (firstn j rest))) l) ->
  exists fs gs,
    read_fields (build_number true types) (map fst F) (with_conditions (build_condition true types) (map fst F) rest) = Some fs /\
    read_fields (build_number false types) (map fst F) (with_conditions (build_condition false types) (map fst F) rest) = Some gs /\
    (forall k, binders k fs = binders k gs) /\
    Forall2 (guarded_same dty) (build_stmts true types vars (map fst F) i rest fs) (build_stmts false types vars (map fst F) i rest gs) /\
    map snd (build_stmts false types vars (map fst F) i rest gs) = gen_fields true vars (map fst F) i gs /\
    (~ divides_in rest -> forall g st, In g (build_stmts false types vars (map fst F) i rest gs) -> fst g st = false).
Proof.
  induction rest as [|f rest IH]; intros F b0 out i HM HT TY.
  - exists [], []. cbn. repeat (split; [first [reflexivity|constructor]|]). intros _ g st [].
  - inversion HM as [|b f' r l gs0 more L D S V HM']; subst.
    destruct (IH (F ++ [typed_name f]) _ _ (Datatypes.S i) HM') as (fs & gs & R1 & R2 & B & G2 & G3 & G4).
    { intros x t H. apply HT. cbn [map]. now rewrite <- app_assoc in H. }
    { intros j g l' J L'. pose proof (TY (Datatypes.S j) g l' J L') as H. cbn [firstn map] in H. now rewrite <- app_assoc. }
    destruct (C50_all _ _ _ S) as (fa & P & _).
    pose proof (TY 0%nat f l eq_refl L) as TF. cbn [firstn map] in TF. rewrite app_nil_r in TF.
    pose proof (entries_typed _ _ _ _ _ S V TF P) as AT.
    assert (HF : forall x t, field_type F x = Some t -> types x = Some t).
    { intros x t H. apply HT. revert H. unfold field_type. clear. induction F as [|[y u] F IH]; cbn [app find fst]; [discriminate|].
      destruct (list_eq_dec _ x y); [auto|exact IH]. }
    rewrite !map_app in R1, R2, G2, G3, G4. cbn [map typed_name fst] in R1, R2, G2, G3, G4.
    cbn [with_conditions read_fields s_lines s_name s_meaning s_type]. rewrite (first_line_parsed _ _ L D), P, R1, R2.
    do 2 eexists. split; [reflexivity|]. split; [reflexivity|]. cbn [build_stmts]. rewrite (first_line_parsed _ _ L D), P.
    split; [intros k; cbn [binders n_name n_type]; now rewrite B|]. split; [|split].
    + apply Forall2_app; [|exact G2]. exact (field_same dty types F vars HF _ _ fa AT (s_meaning f) i (s_name f) (s_type f)).
    + rewrite map_app, G3, map_map. cbn [snd]. rewrite map_id. cbn [gen_fields n_spec n_name n_type]. now rewrite !app_nil_r, app_assoc.
    + intros ND g st I. apply in_app_iff in I as [I|I].
      * apply in_map_iff in I as (c & <- & _). cbn [fst].
        apply (field_unguarded types F _ _ fa AT). intros x [(e & Ie & He)|(e & Ie & He)] Dx; apply ND; exists f, l, e, x; (split; [now left|]); auto.
      * apply G4; [|exact I]. intros (f' & l' & e & x & I' & H). apply ND. exists f', l', e, x. split; [now right|exact H].
Qed.

(** With overflow checks a derived decoder panics or does what it does without them. *)
Theorem C93_same : forall s c l dty ca input p,
  (exists es, first_line ["jbytes"; "repr"]%string (s_container s) es /\ Forall container_entry es /\ Forall own_codec es /\
     decided about_order es (c_order c) /\ decided about_width es (c_byte_count c)) ->
  fields_mean (machine_number (types_of s)) [] (s_fields s) l -> source_typed s ->
  exists d d', build_decoder true s = Some d /\ build_decoder false s = Some d' /\
    (run_build true dty s d ca input p = Panic \/ run_build true dty s d ca input p = run_build false dty s d' ca input p).
Proof.
  intros s c l dty ca input p HC HM TY. destruct (container_read _ _ HC) as (co & E1 & E2 & _).
  destruct (fields_build dty (types_of s) (k_vars ca) _ (s_fields s) [] [] l 0 HM) as (fs & gs & R1 & R2 & B & G2 & _ & _).
  { cbn [app]. intros x t. unfold field_type, types_of. clear. induction (s_fields s) as [|f r IH]; cbn [map find fst typed_name]; [discriminate|].
    destruct (list_eq_dec Byte.byte_eq_dec x (s_name f)) as [-> |N]; [rewrite bytes_eqb_refl; auto|].
    destruct (bytes_eqb x (s_name f)) eqn:E; [apply bytes_eqb_eq in E; contradiction|exact IH]. }
  { intros j f l' J L. exact (TY j f l' J L). }
  unfold build_decoder, derived. cbn [s_container s_fields]. rewrite E1, E2. cbn [map] in R1, R2, G2. rewrite R1, R2.
  do 2 eexists. split; [reflexivity|]. split; [reflexivity|]. unfold run_build. cbn [d_fields]. unfold bind.
  change (struct_store (mkdecl true ?c (Some fs))) with (struct_store (mkdecl true c (Some gs))).
  destruct (guarded_run dty _ _ G2 (struct_store (mkdecl true (if container_used (s_container s) then Some (container_spec co) else None) (Some gs))) input p) as [-> | ->]; [now left|right].
  now rewrite B.
Qed.
(** Without division and checks it does what the statements say. *)
Theorem C93_plain : forall s c l dty ca input p,
  (exists es, first_line ["jbytes"; "repr"]%string (s_container s) es /\ Forall container_entry es /\ Forall own_codec es /\
     decided about_order es (c_order c) /\ decided about_width es (c_byte_count c)) ->
  fields_mean (machine_number (types_of s)) [] (s_fields s) l -> source_typed s -> ~ source_divides s ->
  exists d, build_decoder false s = Some d /\ run_build false dty s d ca input p = run_struct dty d ca input p.
Proof.
  intros s c l dty ca input p HC HM TY ND. destruct (container_read _ _ HC) as (co & E1 & E2 & _).
  destruct (fields_build dty (types_of s) (k_vars ca) _ (s_fields s) [] [] l 0 HM) as (fs & gs & R1 & R2 & _ & _ & G3 & G4).
  { cbn [app]. intros x t. unfold field_type, types_of. clear. induction (s_fields s) as [|f r IH]; cbn [map find fst typed_name]; [discriminate|].
    destruct (list_eq_dec Byte.byte_eq_dec x (s_name f)) as [-> |N]; [rewrite bytes_eqb_refl; auto|].
    destruct (bytes_eqb x (s_name f)) eqn:E; [apply bytes_eqb_eq in E; contradiction|exact IH]. }
  { intros j f l' J L. exact (TY j f l' J L). }
  unfold build_decoder, derived. cbn [s_container s_fields]. rewrite E1, E2. cbn [map] in R2, G3, G4. rewrite R2.
  eexists. split; [reflexivity|]. unfold run_build, run_struct. cbn [d_fields d_named]. unfold bind.
  rewrite (run_unguarded dty _ (G4 ND)), G3. reflexivity.
Qed.

(** Beside [C93_text] (PropsBuildExact.v), where these are applied: the struct with
    [length = "len - 4"] meets their hypotheses. *)
Example C93_typed_case : entry_typed [(txt "len", TInt U8)] (Property (txt "length") (quoted (txt "len - 4"))).
Proof.
  intros x Q. assert (X : x = txt "len - 4"). { rewrite <- (read_string _ _ Q). apply read_string. exact (less_literal (txt "4") 4 four). }
  subst x. split; [|split; intros C; vm_compute in C; intuition discriminate]. intros _ _. exists (EOp Minus (EName (txt "len")) (ENum 4)), U8.
  split; [exact (less_reads (txt "4") 4 four)|].
  apply ht_op; [cbn; tauto|intros [(z & H) _]; discriminate|cbn; intuition discriminate|apply ft_type; now constructor|constructor; vm_compute; split; discriminate].
Qed.

Print Assumptions C93_same.
Print Assumptions C93_plain.
