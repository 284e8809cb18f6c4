(** C95: which expressions rustc accepts in attributes. *)
From Coq Require Import Ascii String.
From Verif Require Import Base BaseLemmas Ints TextSpec AttrParse GenExpr GenExprSpec GenExprLemmas PropsExpr MachineExpr MachineSpec MachineTypedSpec PropsMachine PropsCondition PropsBuild Schema.
Close Scope string_scope.

(** ** What a value tells about its expression *)
Definition sort_of (types : bytes -> option ity) (is_flag : bytes -> Prop) (e : rexpr) (v : machine) : Prop :=
  match v with
  | Whole t _ => has_type types e t
  | Literal z => e = ENum (Z.to_N z) /\ (0 <= z)%Z
  | Truth _ => is_condition types is_flag e
  | Panicked => True
  | Members _ => False
  end.
Lemma sort_accepted types is_flag e v : v <> Panicked -> sort_of types is_flag e v -> accepted types is_flag e.
Proof.
  destruct v; cbn [sort_of]; intros N H; [right; left; eauto|left|right; right; exact H|now elim N|destruct H].
  destruct H as [-> _]. now eexists.
Qed.
Lemma integer_named name t : integer_type name = Some t -> type_name name t.
Proof.
  unfold integer_type. destruct (find _ _) as [[x u]|] eqn:E; [|discriminate]. intros [= <-]. apply find_some in E as [I E]. cbn [fst] in E. apply bytes_eqb_eq in E. subst name.
  cbn in I. repeat (destruct I as [[= <- <-]|I]; [constructor|]). destruct I.
Qed.
Section Sorts.
Context (scope : bytes -> option (ity * Z)) (flags : bytes -> option bool).
Let types := types_in scope.
Let is_flag x := flags x <> None.
Lemma seen_sort x v : seen scope flags x = Some v -> sort_of types is_flag (EName x) v /\ v <> Panicked.
Proof.
  unfold seen, at_machine. destruct (scope x) as [[t z]|] eqn:E; cbn.
  - intros [= <-]. split; [|discriminate]. cbn. apply ht_name. unfold types, types_in. now rewrite E.
  - destruct (flags x) as [b|] eqn:F; cbn; [|discriminate]. intros [= <-]. split; [|discriminate]. cbn. apply ic_flag. unfold is_flag. now rewrite F.
Qed.
(** Two operands that do not panic. *)
Lemma calculate_sort checks o a b t x y r : ~ (numeral a /\ numeral b) -> fits_type types a t -> fits_type types b t -> (In o [Divide; Remainder] -> b <> ENum 0) ->
  calculate checks o t x y = Some r -> sort_of types is_flag (EOp o a b) r.
Proof.
  intros N A B Z H.
  assert (W : In o [Plus; Minus; Times; AndBits; OrBits; XorBits; Divide; Remainder] -> has_type types (EOp o a b) t) by (intros I; now apply ht_op).
  assert (C : In o [IsEqual; Differs; Less; Greater; AtMost; AtLeast] -> is_condition types is_flag (EOp o a b)) by (intros I; now apply (ic_compare _ _ o a b t)).
  destruct o; cbn in H; try discriminate H; injection H as <-; unfold fitted;
    repeat match goal with |- context [if ?c then _ else _] => destruct c end; cbn [sort_of]; first [exact I|apply W; cbn; tauto|apply C; cbn; tauto].
Qed.
Lemma shift_sort checks o a b t x y r : has_type types a t -> (exists u, has_type types b u) \/ (exists n, b = ENum n /\ (Z.of_N n < width t)%Z) -> shifts o = true ->
  shift checks o t x y = Some r -> sort_of types is_flag (EOp o a b) r.
Proof.
  intros A B S H. assert (I : In o [ShiftLeft; ShiftRight]) by (destruct o; try discriminate S; cbn; tauto).
  assert (W : has_type types (EOp o a b) t).
  { destruct B as [(u & B)|(n & -> & L)]; [now apply (ht_shift _ o a b t u)|now apply ht_shift_number]. }
  unfold shift in H. destruct o; try discriminate S; cbn in H; repeat match type of H with context [if ?c then _ else _] => destruct c end; try discriminate H; injection H as <-; exact W || exact Logic.I.
Qed.
Lemma op_sort checks o a b v w r : v <> Panicked -> w <> Panicked -> sort_of types is_flag a v -> sort_of types is_flag b w -> machine_op checks o v w = Some r -> sort_of types is_flag (EOp o a b) r.
Proof.
  intros NV NW A B H.
  destruct v as [t x|x|c| |l], w as [u y|y|d| |l']; cbn [machine_op sort_of] in *; try discriminate H; try contradiction; try (now elim NV); try (now elim NW).
  - destruct (shifts o) eqn:S; [apply (shift_sort checks o a b t x y); eauto|]. destruct (ity_dec t u) as [<-|]; [|discriminate].
    apply (calculate_sort checks o a b t x y); auto using ft_type; intros; intros E; subst.
    + destruct E as [(n & ->) _]. inversion A.
    + inversion B.
  - destruct B as [-> LY]. destruct (shifts o) eqn:S.
    + destruct ((0 <=? y) && (y <? bits_of t))%Z eqn:E; [|discriminate]. apply andb_true_iff in E as [_ E]. apply (shift_sort checks o a (ENum (Z.to_N y)) t x y); auto.
      right. exists (Z.to_N y). split; [reflexivity|]. rewrite Z2N.id by exact LY. unfold bits_of in E. fold (width t) in E. lia.
    + destruct (in_rangeb t y && negb (divides o && (y =? 0)%Z)) eqn:E; [|discriminate]. apply andb_true_iff in E as [E Z0]. apply in_rangeb_iff in E.
      apply (calculate_sort checks o a _ t x y); auto using ft_type.
      * intros [(n & ->) _]. inversion A.
      * constructor. now rewrite Z2N.id.
      * intros I Q. injection Q as Q. assert (y = 0%Z) by lia. subst y. cbn in I. destruct I as [<-|[<-|[]]]; discriminate Z0.
  - destruct A as [-> LX]. destruct (shifts o) eqn:S; [discriminate|]. destruct (in_rangeb u x) eqn:E; [|discriminate]. apply in_rangeb_iff in E.
    apply (calculate_sort checks o _ b u x y); auto using ft_type.
    + intros [_ (n & ->)]. inversion B.
    + constructor. now rewrite Z2N.id.
    + intros _ ->. inversion B.
  - assert (X : forall f, connective o f -> is_condition types is_flag (EOp o a b)) by (intros f Hf; now apply (ic_both _ _ o f)).
    destruct o; cbn in H; try discriminate H; injection H as <-; cbn [sort_of]; first [now apply ic_and|now apply ic_or|eapply X; constructor].
Qed.
Lemma value_sort checks (Q : rexpr -> Prop) : (forall e f, Q (EField e f) -> Q e) -> (forall e t, Q (ECast e t) -> Q e) ->
  (forall o a b, Q (EOp o a b) -> Q a /\ Q b /\ forall v w r, eval (machine_arithmetic checks) (seen scope flags) a = Some v -> eval (machine_arithmetic checks) (seen scope flags) b = Some w ->
     machine_op checks o v w = Some r -> r <> Panicked -> v <> Panicked /\ w <> Panicked) ->
  forall e, Q e -> ~ left_out types is_flag e -> forall v, eval (machine_arithmetic checks) (seen scope flags) e = Some v -> v <> Panicked -> sort_of types is_flag e v.
Proof.
  intros Q1 Q2 Q3. induction e as [n|x|e IH f|e IH name|o a IHa b IHb]; intros HQ NN v E NP; cbn [eval] in E.
  - injection E as <-. cbn. split; [now rewrite N2Z.id|lia].
  - now apply seen_sort.
  - destruct (eval _ _ e) as [u|] eqn:EE; [|discriminate]. cbn [a_get machine_arithmetic] in E.
    assert (NU : u <> Panicked) by (intros ->; destruct f; try discriminate E; injection E as <-; now apply NP).
    assert (NE : ~ left_out types is_flag e) by (intros X; now apply NN, lo_field).
    pose proof (IH (Q1 _ _ HQ) NE u eq_refl NU) as S. destruct f, u as [t z|z|b| |l]; cbn [machine_get sort_of] in *; try discriminate E; try contradiction; try (now elim NU).
    + destruct (signed t) eqn:G; [|discriminate]. injection E as <-. assert (H : has_type types (EField e LMinus) t). { apply ht_minus; [exact S|]. destruct t; try discriminate G; vm_compute; reflexivity. }
      unfold fitted. repeat match goal with |- context [if ?c then _ else _] => destruct c end; exact H || exact Logic.I.
    + destruct S as [-> _]. elim NN. apply lo_prefix. eexists. reflexivity.
    + injection E as <-. cbn [sort_of]. now apply ht_not.
    + injection E as <-. cbn [sort_of]. now apply ic_not.
  - destruct (eval _ _ e) as [u|] eqn:EE; [|discriminate]. cbn [a_cast machine_arithmetic] in E. unfold machine_cast in E. destruct (integer_type name) as [t|] eqn:T; [|discriminate].
    apply integer_named in T. assert (NU : u <> Panicked) by (intros ->; injection E as <-; now apply NP).
    assert (NE : ~ left_out types is_flag e) by (intros X; now apply NN, lo_as).
    pose proof (IH (Q2 _ _ HQ) NE u eq_refl NU) as S. destruct u as [t' z|z|b| |l]; cbn [sort_of] in *; try discriminate E; try contradiction.
    + injection E as <-. cbn [sort_of]. now apply (ht_cast _ e t').
    + destruct S as [-> L]. destruct (in_rangeb t z) eqn:R; [|discriminate]. injection E as <-. cbn [sort_of]. apply ht_cast_number; [|exact T]. apply in_rangeb_iff in R. now rewrite Z2N.id.
    + elim NN. now apply lo_truth.
  - destruct (eval _ _ a) as [v1|] eqn:EA; [|discriminate]. destruct (eval _ _ b) as [v2|] eqn:EB; [|discriminate]. cbn [a_op machine_arithmetic] in E.
    destruct (Q3 _ _ _ HQ) as (QA & QB & X). destruct (X _ _ _ EA EB E NP) as [N1 N2].
    assert (LA : ~ left_out types is_flag a) by (intros H; now apply NN, lo_first). assert (LB : ~ left_out types is_flag b) by (intros H; now apply NN, lo_second).
    apply (op_sort checks o a b v1 v2); auto.
Qed.
(** ** Theorems *)
End Sorts.
(** An expression that yields a number or a truth value has been typed by the rules, with
    overflow checks or without. *)
Theorem C95_typed : forall scope flags e checks v, ~ left_out (types_in scope) (fun x => flags x <> None) e -> ~ short_cut e ->
  eval (machine_arithmetic checks) (seen scope flags) e = Some v -> v <> Panicked ->
  accepted (types_in scope) (fun x => flags x <> None) e.
Proof.
  intros scope flags e checks v NN NS E NP. apply (sort_accepted _ _ e v NP).
  apply (value_sort scope flags checks (fun e => ~ short_cut e)); auto.
  intros o a b H. cbn [short_cut] in H. split; [tauto|]. split; [tauto|]. intros v1 v2 r _ _ M N.
  assert (O : ~ In o [AndAlso; OrElse]) by tauto. clear - M N O.
  split; intros ->.
  - destruct v2; cbn in M; injection M as <-; now apply N.
  - destruct v1 as [| |c| |]; cbn in M; injection M as <-; try (now apply N). apply N. destruct o; try reflexivity; elim O; cbn; tauto.
Qed.
(** Of the expressions without divisions that the rules cover, those that compile are exactly
    the ones they accept. *)
Theorem C95_exact : forall scope flags text e, fields_seen scope flags -> reads_as Disjunction text e ->
  ~ left_out (types_in scope) (fun x => flags x <> None) e -> ~ has_division e ->
  ((exists v, code_value (machine_arithmetic false) (seen scope flags) text = Some v) <-> accepted (types_in scope) (fun x => flags x <> None) e).
Proof.
  intros scope flags text e FS T NN ND.
  rewrite (C66_text _ _ _ _ _ T).
  assert (SI : forall x, simple (seen scope flags x)).
  { intros x. unfold seen, at_machine, simple. destruct (scope x) as [[t z]|]; cbn; [split; [|intros l]; discriminate|]. destruct (flags x); cbn; split; try intros l; discriminate. }
  assert (NP : forall a, ~ has_division a -> eval (machine_arithmetic false) (seen scope flags) a <> Some Panicked).
  { intros a H E. now apply H, (proj2 (division_panics _ SI a)). }
  split.
  - intros (v & E). apply (sort_accepted _ _ e v); [intros ->; now apply (NP e ND)|].
    apply (value_sort scope flags false (fun a => ~ has_division a)); auto; [|intros ->; now apply (NP e ND)].
    intros o a b H. cbn [has_division] in H. split; [tauto|]. split; [tauto|]. intros v1 v2 r E1 E2 _ _. split; intros ->; [apply (NP a)|apply (NP b)]; tauto.
  - intros [(n & ->)|[(t & H)|H]].
    + eexists. reflexivity.
    + destruct (C90_unchecked (types_in scope) scope e t) as (v & E & _); [split; [reflexivity|exact (proj1 FS)]|exact H|]. exists v.
      refine (eval_more _ _ _ _ _ _ E). intros x w Hx. unfold seen. rewrite Hx. reflexivity.
    + destruct (C91_unchecked scope flags text e FS T H) as [(c & E)|[_ D]]; [|contradiction]. rewrite (C66_text _ _ _ _ _ T) in E. now exists (Truth c).
Qed.
(** What the rules accept compiles, in every build; it gives a number of its type or a truth
    value, or it panics. *)
Theorem C95_compiles : forall scope flags text e, fields_seen scope flags -> reads_as Disjunction text e ->
  forall checks, let result := code_value (machine_arithmetic checks) (seen scope flags) text in
  (forall n, e = ENum n -> result = Some (Literal (Z.of_N n))) /\
  (forall t, has_type (types_in scope) e t -> result = Some Panicked \/ exists z, result = Some (Whole t z) /\ in_range t z) /\
  (is_condition (types_in scope) (fun x => flags x <> None) e -> result = Some Panicked \/ exists b, result = Some (Truth b)).
Proof.
  intros scope flags text e FS T checks result. unfold result. rewrite (C66_text _ _ _ _ _ T). split; [now intros n ->|]. split.
  - intros t H. assert (ST : scope_typed (types_in scope) scope) by (split; [reflexivity|exact (proj1 FS)]).
    assert (M : forall v, eval (machine_arithmetic checks) (at_machine scope) e = Some v -> eval (machine_arithmetic checks) (seen scope flags) e = Some v).
    { intros v E. refine (eval_more _ _ _ _ _ _ E). intros x w Hx. unfold seen. rewrite Hx. reflexivity. }
    destruct checks.
    + destruct (C90_checked _ _ _ _ ST H) as [(z & V & E)|[_ E]]; [right; exists z; split; [now apply M|]|left; now apply M].
      apply (C90_exact scope e t z (proj1 FS) V true).
    + destruct (C90_unchecked _ _ _ _ ST H) as (v & E & [(z & -> & I)|[-> _]]); [right; exists z; split; [now apply M|exact I]|left; now apply M].
  - intros H. destruct checks.
    + destruct (C91_checked scope flags text e FS T H) as [(c & _ & E)|[_ E]]; rewrite (C66_text _ _ _ _ _ T) in E; eauto.
    + destruct (C91_unchecked scope flags text e FS T H) as [(c & E)|[E _]]; rewrite (C66_text _ _ _ _ _ T) in E; eauto.
Qed.
(** No expression has two types, and none is both a number and a condition. *)
Theorem C95_one : forall types (is_flag : bytes -> Prop) e, (forall x, is_flag x -> types x = None) ->
  (forall t u, has_type types e t -> has_type types e u -> t = u) /\
  (forall t, has_type types e t -> ~ is_condition types is_flag e) /\
  (numeral e -> ~ (exists t, has_type types e t) /\ ~ is_condition types is_flag e).
Proof.
  intros types is_flag e NF.
  assert (NT : forall a t, numeral a -> ~ has_type types a t) by (intros a t (n & ->) H; inversion H).
  assert (NC : forall a, numeral a -> ~ is_condition types is_flag a) by (intros a (n & ->) H; inversion H).
  assert (FT : forall a t, fits_type types a t -> numeral a \/ has_type types a t) by (intros a t H; inversion H; subst; [left; eexists; reflexivity|now right]).
  assert (TN : forall x t u, type_name x t -> type_name x u -> t = u).
  { intros x t u A B. apply PropsMachine.type_found in A, B. congruence. }
  enough (X : (forall t u, has_type types e t -> has_type types e u -> t = u) /\ (forall t, has_type types e t -> ~ is_condition types is_flag e)).
  { destruct X as [X Y]. split; [exact X|]. split; [exact Y|]. intros N. split; [intros (t & H); now apply (NT e t)|now apply NC]. }
  induction e as [n|x|e [U X] l|e [U X] name|o a [Ua Xa] b [Ub Xb]].
  - split; [intros t u H; inversion H|intros t H; inversion H].
  - split.
    + intros t u H G. inversion H; inversion G; congruence.
    + intros t H G. inversion H; inversion G; subst. rewrite NF in *; [discriminate|assumption].
  - split.
    + intros t u H G. inversion H; subst; inversion G; subst; eauto.
    + intros t H G. inversion H; subst; inversion G; subst. now apply (X t).
  - split.
    + intros t u H G. inversion H; subst; inversion G; subst; eauto.
    + intros t H G. inversion H; subst; inversion G.
  - assert (K : forall t u, fits_type types a t -> fits_type types b t -> fits_type types a u -> fits_type types b u -> ~ (numeral a /\ numeral b) -> t = u).
    { intros t u A B A' B' N. destruct (FT _ _ A) as [Na|Ha].
      - destruct (FT _ _ B) as [Nb|Hb]; [now elim N|]. destruct (FT _ _ B') as [Nb|Hb']; [now elim N|eauto].
      - destruct (FT _ _ A') as [Na|Ha']; [elim (NT _ _ Na Ha)|eauto]. }
    split.
    + intros t u H G. inversion H; subst; inversion G; subst; eauto;
        repeat match goal with I : In _ _ |- _ => cbn [In] in I end; intuition (subst; try discriminate); eauto.
    + intros t H G. inversion G; subst.
      * inversion H; subst; repeat match goal with I : In _ _ |- _ => cbn [In] in I end; intuition (subst; discriminate).
      * inversion H; subst; repeat match goal with I : In _ _ |- _ => cbn [In] in I end; intuition (subst; discriminate).
      * inversion H; subst; repeat match goal with I : In _ _ |- _ => cbn [In] in I end; intuition (subst; discriminate).
      * inversion H; subst.
        -- destruct (FT a t) as [Na|Ha]; [assumption|now apply (NC a)|now apply (Xa t)].
        -- now apply (Xa t).
        -- now apply (Xa t).
Qed.
(** Dividing by a 0 in the text does not compile. *)
Theorem C95_zero : forall scope flags o a checks, In o [Divide; Remainder] -> eval (machine_arithmetic checks) (seen scope flags) a <> Some Panicked ->
  eval (machine_arithmetic checks) (seen scope flags) (EOp o a (ENum 0)) = None.
Proof.
  intros scope flags o a checks I N. cbn [eval a_num machine_arithmetic]. destruct (eval _ _ a) as [[t x|x|c| |l]|]; try reflexivity; try (now elim N);
    destruct I as [<-|[<-|[]]]; cbn [a_op machine_arithmetic machine_op shifts]; cbn; rewrite ?andb_false_r; reflexivity.
Qed.

(** [len - 4] compiles with a byte [len], [len - 300] does not. *)
Lemma three_hundred : decimal_text (txt "300") 300.
Proof. repeat split; try discriminate; repeat constructor; discriminate. Qed.
Lemma in_rules types is_flag o n : ~ In o [ShiftLeft; ShiftRight] -> ~ left_out types is_flag (EOp o (EName (txt "len")) (ENum n)).
Proof.
  intros NS H. inversion H as [? ? ? (k & A) _|? ? ? O _| | | |? ? ? A|? ? ? A| |]; subst; [discriminate|now apply NS|inversion A|inversion A].
Qed.
Example C95_exact_case : fields_seen (only_len U8 9) (fun _ => None) /\
  accepted (types_in (only_len U8 9)) (fun x => None <> @None bool) (EOp Minus (EName (txt "len")) (ENum 4)) /\
  ~ accepted (types_in (only_len U8 9)) (fun x => None <> @None bool) (EOp Minus (EName (txt "len")) (ENum 300)).
Proof.
  assert (FS : fields_seen (only_len U8 9) (fun _ => None)) by (apply only_seen; vm_compute; split; discriminate).
  split; [exact FS|]. split.
  - apply (C95_exact _ _ _ _ FS (less_reads (txt "4") 4 four)); [apply in_rules; cbn; intuition discriminate|cbn; intuition discriminate|]. eexists. vm_compute. reflexivity.
  - intros H. apply (C95_exact _ _ _ _ FS (less_reads (txt "300") 300 three_hundred)) in H; [|apply in_rules; cbn; intuition discriminate|cbn; intuition discriminate]. destruct H as (v & H). vm_compute in H. discriminate.
Qed.
(** [len / 4] has a value and a type, [len / 0] neither. *)
Example C95_typed_case : eval (machine_arithmetic true) (seen (only_len U8 9) (fun _ => None)) (EOp Divide (EName (txt "len")) (ENum 4)) = Some (Whole U8 2) /\
  ~ left_out (types_in (only_len U8 9)) (fun x => None <> @None bool) (EOp Divide (EName (txt "len")) (ENum 4)) /\ ~ short_cut (EOp Divide (EName (txt "len")) (ENum 4)) /\
  eval (machine_arithmetic true) (seen (only_len U8 9) (fun _ => None)) (EName (txt "len")) <> Some Panicked.
Proof. split; [vm_compute; reflexivity|]. split; [apply in_rules; cbn; intuition discriminate|]. split; [cbn; intuition discriminate|]. vm_compute. discriminate. Qed.
(** With 3 in [len], [len - 4] has a type and panics with checks on. *)
Example C95_compiles_case : let scope := only_len U8 3 in let e := EOp Minus (EName (txt "len")) (ENum 4) in
  fields_seen scope (fun _ => None) /\ has_type (types_in scope) e U8 /\ reads_as Disjunction (txt "len - " ++ txt "4") e /\
  code_value (machine_arithmetic true) (seen scope (fun _ => None)) (txt "len - " ++ txt "4") = Some Panicked /\
  code_value (machine_arithmetic false) (seen scope (fun _ => None)) (txt "len - " ++ txt "4") = Some (Whole U8 255).
Proof.
  cbv zeta. split; [apply only_seen; vm_compute; split; discriminate|]. split.
  - apply ht_op; [cbn; tauto|intros [(n & H) _]; discriminate|cbn; intuition discriminate|apply ft_type; now constructor|apply ft_number; vm_compute; split; discriminate].
  - split; [apply less_reads, four|]. split; vm_compute; reflexivity.
Qed.

Print Assumptions C95_typed.
Print Assumptions C95_exact.
Print Assumptions C95_compiles.
Print Assumptions C95_one.
Print Assumptions C95_zero.
