(** C91: conditions in attributes are about the numbers the fields hold. *)
From Coq Require Import Ascii String.
From Verif Require Import Base BaseLemmas Ints SpecOps Reader Writer Sugar TextSpec Text AttrParse AttrSpec AttrLemmas EnumTextSpec GenExpr GenExprSpec
  GenExprLemmas PropsExpr GenDecode GenSpec PropsGen Source SourceSpec SourceLemmas PropsSource
  Decode Encode Spec Collections Containers NetLemmas PropsContainers WireSpec Examples FieldSpec PropsEnumSource MachineExpr MachineSpec PropsMachine Schema.
Close Scope string_scope.

(** Fields with numbers in the range of their types, and others with truth values. *)
Definition fields_seen (scope : bytes -> option (ity * Z)) (flags : bytes -> option bool) : Prop :=
  (forall x t z, scope x = Some (t, z) -> in_range t z) /\ forall x, flags x <> None -> scope x = None.
Definition a_condition (scope : bytes -> option (ity * Z)) (flags : bytes -> option bool) : rexpr -> Prop :=
  is_condition (fun x => option_map fst (scope x)) (fun x => flags x <> None).

Lemma relation_compared o R x y : relation o R -> exists c, compared o x y = Some c /\ (c = true <-> R x y).
Proof.
  intros []; eexists; (split; [reflexivity|]); rewrite ?negb_true_iff, ?Z.eqb_neq, ?Z.eqb_eq, ?Z.ltb_lt, ?Z.leb_le; tauto.
Qed.
Lemma relation_in o : In o [IsEqual; Differs; Less; Greater; AtMost; AtLeast] -> exists R, relation o R.
Proof. intros [<-|[<-|[<-|[<-|[<-|[<-|[]]]]]]]; eexists; constructor. Qed.
Lemma relation_same o R R' : relation o R -> relation o R' -> R = R'.
Proof. intros [] H; inversion H; reflexivity. Qed.
Lemma compares_plain o R x y t checks : relation o R -> shifts o = false /\ divides o = false /\ ~ In o [AndAlso; OrElse] /\ calculate checks o t x y = option_map Truth (compared o x y).
Proof. intros []; cbn; intuition discriminate. Qed.

Section Seen.
Context (scope : bytes -> option (ity * Z)) (flags : bytes -> option bool) (SE : fields_seen scope flags).
Let ev checks := eval (machine_arithmetic checks) (seen scope flags).
Let R := proj1 SE.
Lemma own_types : scope_typed (fun x => option_map fst (scope x)) scope.
Proof. split; [reflexivity|exact R]. Qed.
Lemma operand_seen checks e t z : operand scope e t z -> stands t e (ev checks e) z.
Proof.
  intros V. destruct (operand_stands scope e t z checks R V) as [[E|(N & E & I)] _]; [left|right; split; [exact N|split; [|exact I]]];
    apply (eval_more _ _ _ _ _ (seen_more scope flags) E).
Qed.
(** With checks an operand has a value or panics; without them it has one unless it divides. *)
Lemma operand_checked e t : fits_type (fun x => option_map fst (scope x)) e t ->
  (exists z, operand scope e t z) \/ ev true e = Some Panicked /\ forall u z, ~ operand scope e u z.
Proof.
  intros [n u I|e' u H]; [left; exists (Z.of_N n); now constructor|].
  destruct (C90_checked _ _ _ _ own_types H) as [(z & V & _)|[N P]]; [left; exists z; now constructor|]. right.
  split; [apply (eval_more _ _ _ _ _ (seen_more scope flags) P)|]. intros v z O. inversion O; subst; [inversion H|now apply (N v z)].
Qed.
Lemma operand_unchecked e t : fits_type (fun x => option_map fst (scope x)) e t ->
  (exists z, stands t e (ev false e) z) \/ ev false e = Some Panicked /\ has_division e.
Proof.
  intros [n u I|e' u H]; [left; exists (Z.of_N n); right; split; [now exists n|]; now split|].
  destruct (C90_unchecked _ _ _ _ own_types H) as (v & E & [(z & -> & I)|[-> D]]); [left; exists z; left|right; split; [|exact D]];
    apply (eval_more _ _ _ _ _ (seen_more scope flags) E).
Qed.
Lemma compares checks o Q a b t x y : relation o Q -> ~ (numeral a /\ numeral b) -> stands t a (ev checks a) x -> stands t b (ev checks b) y ->
  exists c, ev checks (EOp o a b) = Some (Truth c) /\ (c = true <-> Q x y).
Proof.
  intros HR N Sa Sb. pose proof (stands_some _ _ _ _ Sa) as (v & Ea). pose proof (stands_some _ _ _ _ Sb) as (w & Eb). rewrite Ea in Sa. rewrite Eb in Sb.
  destruct (compares_plain o Q x y t checks HR) as (S & D & _ & E). destruct (relation_compared o Q x y HR) as (c & C & I). exists c. split; [|exact I].
  unfold ev in *. cbn [eval]. rewrite Ea, Eb. cbn [a_op machine_arithmetic].
  rewrite (machine_calculates checks o a b t v w x y N Sa Sb S); [now rewrite E, C|]. rewrite D. discriminate.
Qed.
Lemma connects checks o f a b : connective o f -> machine_op checks o (Truth a) (Truth b) = Some (Truth (f a b)) /\ cut_short o a = Panicked.
Proof. intros []; destruct a, b; split; reflexivity. Qed.
Lemma truth_stands t e b z : ~ stands t e (Some (Truth b)) z.
Proof. intros [H|(_ & H & _)]; discriminate. Qed.

(** Any condition gives a truth value or panics. *)
Lemma condition_value checks e : a_condition scope flags e -> exists v, ev checks e = Some v /\ (v = Panicked \/ exists b, v = Truth b).
Proof.
  intros H. induction H as [x F|o a b t O N Fa Fb|a b Ha IHa Hb IHb|a b Ha IHa Hb IHb|e He IHe|o f a b Co Ha IHa Hb IHb].
  - destruct (flags x) as [c|] eqn:E; [|now elim F]. exists (Truth c). split; [|right; now exists c]. unfold ev. cbn [eval]. unfold seen, at_machine.
    rewrite (proj2 SE x) by (rewrite E; discriminate). cbn. now rewrite E.
  - destruct (relation_in o O) as (Q & HR). destruct (compares_plain o Q 0 0 t checks HR) as (_ & _ & NA & _).
    assert (X : forall e, fits_type (fun x => option_map fst (scope x)) e t -> (exists z, stands t e (ev checks e) z) \/ ev checks e = Some Panicked).
    { intros e F. destruct checks.
      - destruct (operand_checked e t F) as [(z & V)|[P _]]; [left; exists z; now apply operand_seen|now right].
      - destruct (operand_unchecked e t F) as [(z & V)|[P _]]; [left; now exists z|now right]. }
    destruct (X a Fa) as [(x & Sa)|Pa], (X b Fb) as [(y & Sb)|Pb].
    + destruct (compares checks o Q a b t x y HR N Sa Sb) as (c & E & _). exists (Truth c). split; [exact E|right; now exists c].
    + apply stands_some in Sa as (v & Ea). exists Panicked. unfold ev in *. cbn [eval]. rewrite Ea, Pb. split; [now apply panicked_any|now left].
    + apply stands_some in Sb as (v & Eb). exists Panicked. unfold ev in *. cbn [eval]. rewrite Eb, Pa. split; [reflexivity|now left].
    + exists Panicked. unfold ev in *. cbn [eval]. rewrite Pa, Pb. split; [reflexivity|now left].
  - destruct IHa as (v & Ea & Va), IHb as (w & Eb & Wb). unfold ev in *. cbn [eval]. rewrite Ea, Eb. cbn [a_op machine_arithmetic].
    destruct Va as [-> |(c & ->)]; [exists Panicked; split; [reflexivity|now left]|]. destruct Wb as [-> |(d & ->)]; [|exists (Truth (c && d)); split; [reflexivity|right; now exists (c && d)]].
    cbn [machine_op cut_short]. destruct c; eexists; (split; [reflexivity|]); [now left|right; now exists false].
  - destruct IHa as (v & Ea & Va), IHb as (w & Eb & Wb). unfold ev in *. cbn [eval]. rewrite Ea, Eb. cbn [a_op machine_arithmetic].
    destruct Va as [-> |(c & ->)]; [exists Panicked; split; [reflexivity|now left]|]. destruct Wb as [-> |(d & ->)]; [|exists (Truth (c || d)); split; [reflexivity|right; now exists (c || d)]].
    cbn [machine_op cut_short]. destruct c; eexists; (split; [reflexivity|]); [right; now exists true|now left].
  - destruct IHe as (v & Ee & Ve). unfold ev in *. cbn [eval]. rewrite Ee. cbn [a_get machine_arithmetic].
    destruct Ve as [-> |(c & ->)]; [exists Panicked; split; [reflexivity|now left]|exists (Truth (negb c)); split; [reflexivity|right; now exists (negb c)]].
  - destruct IHa as (v & Ea & Va), IHb as (w & Eb & Wb). unfold ev in *. cbn [eval]. rewrite Ea, Eb. cbn [a_op machine_arithmetic].
    destruct Va as [-> |(c & ->)]; [exists Panicked; split; [reflexivity|now left]|]. destruct Wb as [-> |(d & ->)].
    + exists Panicked. split; [|now left]. cbn [machine_op]. now rewrite (proj2 (connects checks o f c c Co)).
    + exists (Truth (f c d)). split; [now apply connects|right; now exists (f c d)].
Qed.
Lemma decides_value e c : decides scope flags e c -> forall checks, ev checks e = Some (Truth c).
Proof.
  intros H checks. induction H as [x b F|o Q a b t x y HR N Va Vb HQ|o Q a b t x y HR N Va Vb HQ|a b c Ha IHa Hb IHb|a b Ha IHa Hb|a b c Ha IHa Hb IHb|a b Ha IHa Hb|e b He IHe|o f a b c d Co Ha IHa Hb IHb].
  - unfold ev. cbn [eval]. unfold seen, at_machine. rewrite (proj2 SE x) by (rewrite F; discriminate). cbn. now rewrite F.
  - destruct (compares checks o Q a b t x y HR N (operand_seen _ _ _ _ Va) (operand_seen _ _ _ _ Vb)) as (c & E & I). apply I in HQ. now rewrite E, HQ.
  - destruct (compares checks o Q a b t x y HR N (operand_seen _ _ _ _ Va) (operand_seen _ _ _ _ Vb)) as ([|] & E & I); [elim HQ; now apply I|exact E].
  - unfold ev in *. cbn [eval]. now rewrite IHa, IHb.
  - destruct (condition_value checks b Hb) as (v & Eb & Vb). unfold ev in *. cbn [eval]. rewrite IHa, Eb. destruct Vb as [-> |(d & ->)]; reflexivity.
  - unfold ev in *. cbn [eval]. now rewrite IHa, IHb.
  - destruct (condition_value checks b Hb) as (v & Eb & Vb). unfold ev in *. cbn [eval]. rewrite IHa, Eb. destruct Vb as [-> |(d & ->)]; reflexivity.
  - unfold ev in *. cbn [eval]. now rewrite IHe.
  - unfold ev in *. cbn [eval]. rewrite IHa, IHb. now apply connects.
Qed.
Lemma condition_checked e : a_condition scope flags e ->
  (exists c, decides scope flags e c) \/ ev true e = Some Panicked.
Proof.
  intros H. induction H as [x F|o a b t O N Fa Fb|a b Ha IHa Hb IHb|a b Ha IHa Hb IHb|e He IHe|o f a b Co Ha IHa Hb IHb].
  - destruct (flags x) as [c|] eqn:E; [|now elim F]. left. exists c. now constructor.
  - destruct (relation_in o O) as (Q & HR). destruct (compares_plain o Q 0 0 t true HR) as (_ & _ & NA & _).
    destruct (operand_checked a t Fa) as [(x & Va)|[Pa _]].
    + destruct (operand_checked b t Fb) as [(y & Vb)|[Pb _]].
      * left. destruct (compares true o Q a b t x y HR N (operand_seen _ _ _ _ Va) (operand_seen _ _ _ _ Vb)) as ([|] & _ & I);
          [exists true; eapply de_true; eauto; now apply I|exists false; eapply de_false; eauto]. intros HQ. now apply I in HQ.
      * right. pose proof (operand_seen true _ _ _ Va) as Sa. apply stands_some in Sa as (v & Ea). unfold ev in *. cbn [eval]. rewrite Ea, Pb. now apply panicked_any.
    + right. assert (X : exists w, ev true b = Some w).
      { destruct (operand_checked b t Fb) as [(y & Vb)|[Pb _]]; [|eauto]. pose proof (operand_seen true _ _ _ Vb) as Sb. now apply stands_some in Sb. }
      destruct X as (w & Eb). unfold ev in *. cbn [eval]. now rewrite Pa, Eb.
  - destruct (condition_value true b Hb) as (w & Eb & Wb). destruct IHa as [([|] & Ta)|Pa].
    + destruct IHb as [(c & Tb)|Pb]; [left; exists c; now apply de_and|]. right. pose proof (decides_value _ _ Ta true) as Ea. unfold ev in *. cbn [eval]. now rewrite Ea, Pb.
    + left. exists false. now apply de_and_not.
    + right. unfold ev in *. cbn [eval]. now rewrite Pa, Eb.
  - destruct (condition_value true b Hb) as (w & Eb & Wb). destruct IHa as [([|] & Ta)|Pa].
    + left. exists true. now apply de_or_so.
    + destruct IHb as [(c & Tb)|Pb]; [left; exists c; now apply de_or|]. right. pose proof (decides_value _ _ Ta true) as Ea. unfold ev in *. cbn [eval]. now rewrite Ea, Pb.
    + right. unfold ev in *. cbn [eval]. now rewrite Pa, Eb.
  - destruct IHe as [(c & Te)|Pe]; [left; exists (negb c); now constructor|]. right. unfold ev in *. cbn [eval]. now rewrite Pe.
  - destruct (condition_value true b Hb) as (w & Eb & Wb). destruct IHa as [(c & Ta)|Pa].
    + destruct IHb as [(d & Tb)|Pb]; [left; exists (f c d); now apply de_both|]. right. pose proof (decides_value _ _ Ta true) as Ea. unfold ev in *. cbn [eval].
      rewrite Ea, Pb. cbn [a_op machine_arithmetic machine_op]. now rewrite (proj2 (connects true o f c c Co)).
    + right. unfold ev in *. cbn [eval]. now rewrite Pa, Eb.
Qed.
Lemma condition_unchecked e : a_condition scope flags e -> (exists c, ev false e = Some (Truth c)) \/ ev false e = Some Panicked /\ has_division e.
Proof.
  intros H. destruct (condition_value false e H) as (v & E & [-> |(c & ->)]); [|left; now exists c]. right. split; [exact E|]. revert E.
  induction H as [x F|o a b t O N Fa Fb|a b Ha IHa Hb IHb|a b Ha IHa Hb IHb|e He IHe|o f a b Co Ha IHa Hb IHb]; intros E; unfold ev in *; cbn [eval has_division] in *.
  - destruct (flags x) as [c|] eqn:G; [|now elim F]. unfold seen, at_machine in E. rewrite (proj2 SE x) in E by (rewrite G; discriminate). cbn in E. rewrite G in E. discriminate.
  - destruct (relation_in o O) as (Q & HR).
    destruct (operand_unchecked a t Fa) as [(x & Sa)|[Pa D]]; [|tauto]. destruct (operand_unchecked b t Fb) as [(y & Sb)|[Pb D]]; [|tauto].
    destruct (compares false o Q a b t x y HR N Sa Sb) as (c & E' & _). unfold ev in E'. cbn [eval] in E'. rewrite E' in E. discriminate.
  - destruct (condition_value false a Ha) as (v & Ea & [-> |(c & ->)]); [right; left; now apply IHa|].
    destruct (condition_value false b Hb) as (w & Eb & [-> |(d & ->)]); [right; right; now apply IHb|]. unfold ev in *. rewrite Ea, Eb in E. discriminate.
  - destruct (condition_value false a Ha) as (v & Ea & [-> |(c & ->)]); [right; left; now apply IHa|].
    destruct (condition_value false b Hb) as (w & Eb & [-> |(d & ->)]); [right; right; now apply IHb|]. unfold ev in *. rewrite Ea, Eb in E. discriminate.
  - apply IHe. destruct (condition_value false e He) as (v & Ee & [-> |(c & ->)]); [exact Ee|]. unfold ev in *. rewrite Ee in E. discriminate.
  - destruct (condition_value false a Ha) as (v & Ea & [-> |(c & ->)]); [right; left; now apply IHa|].
    destruct (condition_value false b Hb) as (w & Eb & [-> |(d & ->)]); [right; right; now apply IHb|]. unfold ev in *. rewrite Ea, Eb in E.
    cbn [a_op machine_arithmetic] in E. rewrite (proj1 (connects false o f c d Co)) in E. discriminate.
Qed.
End Seen.

(** A condition that is decided by arithmetic is so decided, with checks or without. *)
Theorem C91_exact : forall scope flags text e c, fields_seen scope flags -> reads_as Disjunction text e -> decides scope flags e c ->
  forall checks, code_value (machine_arithmetic checks) (seen scope flags) text = Some (Truth c).
Proof. intros scope flags text e c S T H checks. rewrite (C66_text _ _ _ _ _ T). now apply decides_value. Qed.
(** With checks it panics if it is not. *)
Theorem C91_checked : forall scope flags text e, fields_seen scope flags -> reads_as Disjunction text e -> a_condition scope flags e ->
  (exists c, decides scope flags e c /\ code_value (machine_arithmetic true) (seen scope flags) text = Some (Truth c)) \/
  (forall c, ~ decides scope flags e c) /\ code_value (machine_arithmetic true) (seen scope flags) text = Some Panicked.
Proof.
  intros scope flags text e S T H. rewrite (C66_text _ _ _ _ _ T). destruct (condition_checked scope flags S e H) as [(c & D)|P].
  - left. exists c. split; [exact D|]. now apply decides_value.
  - right. split; [|exact P]. intros c D. pose proof (decides_value scope flags S e c D true) as E. cbv beta in E. congruence.
Qed.
(** Without checks only a division can panic. *)
Theorem C91_unchecked : forall scope flags text e, fields_seen scope flags -> reads_as Disjunction text e -> a_condition scope flags e ->
  (exists c, code_value (machine_arithmetic false) (seen scope flags) text = Some (Truth c)) \/
  code_value (machine_arithmetic false) (seen scope flags) text = Some Panicked /\ has_division e.
Proof. intros scope flags text e S T H. rewrite (C66_text _ _ _ _ _ T). now apply condition_unchecked. Qed.
(** The condition of a field of a derived decoder. *)
Theorem C91_field : forall types fields text e c vars,
  let scope := integers_of int_type int_value fields in let flags := truths_of bool_type bool_value fields in
  (forall x u v, In (x, (u, v)) fields -> types x = Some u) -> (forall x u v, scope x = Some (u, v) -> in_range u v) ->
  reads_as Disjunction text e -> decides scope flags e c ->
  machine_condition types (map fst fields) text (mkenv (map (fun f => snd (snd f)) fields) vars) = c.
Proof.
  intros types fields text e c vars scope flags HT R T D. unfold machine_condition. cbn [ev_fields].
  assert (S : fields_seen scope flags).
  { split; [exact R|]. intros x. unfold flags, scope, truths_of, integers_of.
    match goal with |- context [find ?f fields] => destruct (find f fields) as [[y [u v]]|] end; [|reflexivity]. now destruct u. }
  pose proof (C91_exact scope flags text e c S T D false) as C. rewrite (C66_text _ _ _ _ _ T) in C.
  rewrite (C66_text _ _ _ _ _ T).
  rewrite (eval_more (machine_arithmetic false) (seen scope flags) _ e (Truth c)); [reflexivity| |exact C].
  intros y v Hy. now rewrite (variables_seen types fields HT).
Qed.

(** ** Differences in conditions *)
Lemma len_name : a_name (txt "len").
Proof.
  split; [|discriminate]. split; [left; vm_compute; split; discriminate|]. repeat (apply Forall_cons; [left; left; vm_compute; split; discriminate|]). apply Forall_nil.
Qed.
Lemma less_sum k n : decimal_text k n -> reads_as Sum (txt "len - " ++ k) (EOp Minus (EName (txt "len")) (ENum n)).
Proof.
  intros D. change (txt "len - " ++ k) with (txt "len " ++ txt "-" ++ " "%byte :: k).
  apply (ra_operation _ _ _ _ _ "-" Sum Sum Product sg_minus).
  - change (txt "len ") with (txt "len" ++ [" "%byte]). apply ra_after. apply (loosen Sum Atom); [cbn; lia|]. apply ra_name. exact len_name.
  - apply ra_before. apply (loosen Product Atom); [cbn; lia|]. now apply ra_number.
Qed.
Definition is_more (k : bytes) : bytes := txt "len - " ++ k ++ txt " > 0".
Definition more (n : N) : rexpr := EOp Greater (EOp Minus (EName (txt "len")) (ENum n)) (ENum 0).
Definition guarded (k : bytes) : bytes := txt "len >= " ++ k ++ txt " && " ++ is_more k.
Lemma more_reads k n : decimal_text k n -> reads_as Comparison (is_more k) (more n).
Proof.
  intros D. unfold is_more. replace (txt "len - " ++ k ++ txt " > 0") with (((txt "len - " ++ k) ++ [" "%byte]) ++ txt ">" ++ " "%byte :: txt "0").
  2:{ rewrite <- !app_assoc. reflexivity. }
  apply (ra_operation _ _ _ _ _ ">" Comparison BitOr BitOr sg_greater).
  - apply ra_after, (loosen BitOr Sum); [cbn; lia|]. now apply less_sum.
  - apply ra_before, (loosen BitOr Atom); [cbn; lia|]. apply ra_number. repeat split; try discriminate; repeat constructor; discriminate.
Qed.
Lemma guard_reads k n : decimal_text k n -> reads_as Disjunction (guarded k) (EOp AndAlso (EOp AtLeast (EName (txt "len")) (ENum n)) (more n)).
Proof.
  intros D. apply (whole Conjunction). unfold guarded.
  replace (txt "len >= " ++ k ++ txt " && " ++ is_more k) with ((((txt "len" ++ [" "%byte]) ++ txt ">=" ++ " "%byte :: k) ++ [" "%byte]) ++ txt "&&" ++ " "%byte :: is_more k).
  2:{ rewrite <- !app_assoc. reflexivity. }
  apply (ra_operation _ _ _ _ _ "&&" Conjunction Conjunction Comparison sg_and).
  - apply ra_after, (loosen Conjunction Comparison); [cbn; lia|]. apply (ra_operation _ _ _ _ _ ">=" Comparison BitOr BitOr sg_least).
    + apply ra_after, (loosen BitOr Atom); [cbn; lia|]. apply ra_name. exact len_name.
    + apply ra_before, (loosen BitOr Atom); [cbn; lia|]. now apply ra_number.
  - apply ra_before. now apply more_reads.
Qed.
Definition only_len (t : ity) (z : Z) (x : bytes) : option (ity * Z) := if bytes_eqb x (txt "len") then Some (t, z) else None.
Lemma only_seen t z : in_range t z -> fields_seen (only_len t z) (fun _ => None).
Proof. intros R. split; [|now intros]. intros x u y. unfold only_len. destruct (bytes_eqb x _); [|discriminate]. now intros [= <- <-]. Qed.

(** The guarded condition says what it seems to say, in every profile. *)
Theorem C91_guard : forall t k n len checks, decimal_text k n -> in_range t len -> in_range t (Z.of_N n) ->
  code_value (machine_arithmetic checks) (seen (only_len t len) (fun _ => None)) (guarded k) = Some (Truth (Z.of_N n <? len)%Z).
Proof.
  intros t k n len checks D RL RN.
  assert (VL : operand (only_len t len) (EName (txt "len")) t len) by (apply op_value; now constructor).
  assert (VN : operand (only_len t len) (ENum n) t (Z.of_N n)) by now constructor.
  assert (NN : forall e, ~ (numeral (EName (txt "len")) /\ numeral e)) by (intros e [(m & H) _]; discriminate).
  apply (C91_exact _ _ _ _ _ (only_seen t len RL) (guard_reads k n D)).
  destruct (Z_le_dec (Z.of_N n) len) as [L|L].
  - apply de_and.
    { eapply de_true; [apply re_at_least|apply NN|exact VL|exact VN|]. cbv beta. lia. }
    assert (VM : operand (only_len t len) (EOp Minus (EName (txt "len")) (ENum n)) t (len - Z.of_N n)).
    { apply op_value. eapply va_op; [apply NN|exact VL|exact VN|constructor|]. unfold in_range in *. pose proof (zero_in t). lia. }
    assert (V0 : operand (only_len t len) (ENum 0) t 0) by (apply (op_number _ 0); exact (zero_in t)).
    assert (ND : ~ (numeral (EOp Minus (EName (txt "len")) (ENum n)) /\ numeral (ENum 0))) by (intros [(m & H) _]; discriminate).
    destruct (Z.ltb_spec (Z.of_N n) len).
    + eapply de_true; [apply re_greater|exact ND|exact VM|exact V0|]. cbv beta. lia.
    + eapply de_false; [apply re_greater|exact ND|exact VM|exact V0|]. cbv beta. lia.
  - replace (Z.of_N n <? len)%Z with false by (symmetry; apply Z.ltb_ge; lia). apply de_and_not.
    + eapply de_false; [apply re_at_least|apply NN|exact VL|exact VN|]. cbv beta. lia.
    + apply (ic_compare _ _ Greater _ _ t); [cbn; tauto|intros [(m & H) _]; discriminate| |constructor; exact (zero_in t)].
      apply ft_type, ht_op; [cbn; tauto|apply NN|cbn; intuition discriminate| |now constructor]. apply ft_type. now constructor.
Qed.
(** [struct { len: t, #[jbytes(if_expr = "len - k > 0")] extra: Option<u8> }] *)
Definition text_more (t : ity) (k : bytes) (m : meaning) : source :=
  mksource [] [mksource_field (txt "len") [] m (TInt t);
               mksource_field (txt "extra") [jbytes_line [Property (txt "if_expr") (quoted (is_more k))]]
                 (machine_conditions (fun x => if bytes_eqb x (txt "len") then Some (TInt t) else None) [txt "len"] m) (TOption (TInt U8))].
Definition text_more_fields (t : ity) (k : bytes) : list (fspec * ty) :=
  [(plain, TInt t);
   (at_if (machine_condition (fun x => if bytes_eqb x (txt "len") then Some (TInt t) else None) [txt "len"] (is_more k)) plain, TOption (TInt U8))].
Lemma more_literal k n : decimal_text k n -> string_literal (quoted (is_more k)) (is_more k).
Proof.
  intros (_ & D & _). assert (Q : forall c, In c (is_more k) -> c <> byte_of 34 /\ c <> byte_of 92).
  { intros c H. unfold is_more in H. apply in_app_iff in H as [H|H]; [|apply in_app_iff in H as [H|H]]; try (vm_compute in H; vm_compute; intuition (subst; discriminate)).
    rewrite Forall_forall in D. specialize (D c H). split; intros ->; vm_compute in D; destruct D; congruence. }
  split; [|intros H; now apply Q in H]. f_equal. symmetry. apply escaped_plain. intros H. now apply Q in H.
Qed.
Lemma text_more_means t k n m : decimal_text k n ->
  fields_mean (machine_number (types_of (text_more t k m))) [] (s_fields (text_more t k m)) (text_more_fields t k).
Proof.
  intros D. unfold text_more_fields. set (N := machine_number (types_of (text_more t k m))). unfold text_more. cbn [s_fields].
  set (f := mksource_field (txt "len") [] m (TInt t)). set (g := mksource_field (txt "extra") _ _ _).
  change (plain, TInt t) with (fold_left (fun spec g => g spec) [] plain, s_type f). apply (fields_more N [] f [g] []).
  - now right.
  - intros (a & [] & _).
  - constructor.
  - easy.
  - set (c := machine_condition _ _ _).
    change (at_if c plain, TOption (TInt U8)) with (fold_left (fun spec g => g spec) [at_if c] plain, s_type g).
    apply (fields_more N _ g [] [Property (txt "if_expr") (quoted (is_more k))]).
    + apply this_line. now left.
    + apply no_default.
    + constructor; [|constructor]. apply (says_if (field_meaning N [txt "len"] g)); [left; reflexivity|now apply (more_literal k n)].
    + intros k' lit [[= <- <-]|[]] K. vm_compute in K. intuition discriminate.
    + constructor.
Qed.
Lemma wire_plain t ca fa z : in_range t z -> signed t = false -> a_bits fa = None -> a_length fa = None ->
  wire_int t ca fa z = Some (digits (order_for ca fa) (N.to_nat (width_bytes t)) (Z.to_N z)).
Proof.
  intros R S B L. unfold wire_int. assert (VB : value_inb t z = true) by now apply BitsLemmas.value_inb_range. rewrite VB, B, L. cbn [negb].
  assert (U : unsigned t z = Z.to_N z). { unfold unsigned. f_equal. apply Z.mod_small. clear -R S. unfold in_range, imin, imax, imod in R. rewrite S in R. destruct t; try discriminate S; cbv [isize_of] in R; cbv [width_bytes]; lia. }
  now rewrite U.
Qed.
(** Without the guard a number that is too small makes the condition true: the optional
    field is read; with checks, there is a panic. *)
Theorem C91_wrapped_refuted : forall m t k n len x rest, signed t = false -> decimal_text k n ->
  (0 <= len < Z.of_N n)%Z -> (Z.of_N n <= imax t)%Z -> (0 <= x < 256)%Z ->
  allocatable ((digits Be (N.to_nat (width_bytes t)) (Z.to_N len) ++ [byte_of (Z.to_N x)]) ++ rest) ->
  (exists d, machine_decoder (text_more t k m) = Some d /\ struct_compiles d [] = true /\
     run_struct dec d no_cattr ((digits Be (N.to_nat (width_bytes t)) (Z.to_N len) ++ [byte_of (Z.to_N x)]) ++ rest) 0 =
       Ok (VList [VInt len; VOpt (Some (VInt x))]) (size (digits Be (N.to_nat (width_bytes t)) (Z.to_N len) ++ [byte_of (Z.to_N x)]))) /\
  code_value (machine_arithmetic true) (seen (only_len t len) (fun _ => None)) (is_more k) = Some Panicked.
Proof.
  intros m t k n len x rest S D L K X AL.
  assert (RN : in_range t (Z.of_N n)) by (unfold in_range, imin; rewrite S; lia).
  assert (RL : in_range t len) by (unfold in_range, imin; rewrite S; lia).
  assert (R0 : in_rangeb t 0 = true) by (apply in_rangeb_iff; exact (zero_in t)).
  assert (OUT : in_rangeb t (len - Z.of_N n) = false).
  { destruct (in_rangeb t (len - Z.of_N n)) eqn:E; [|reflexivity]. apply in_rangeb_iff in E. unfold in_range, imin in E. rewrite S in E. lia. }
  assert (RB : in_rangeb t (Z.of_N n) = true) by now apply in_rangeb_iff.
  split.
  - assert (CA : (0 < cast t (len - Z.of_N n))%Z).
    { assert (W : wraps_to t (len - Z.of_N n) (len - Z.of_N n + imod t)).
      { split; [|exists (-1)%Z; lia]. unfold in_range, imin, imax in *. rewrite S in *. lia. }
      rewrite (wraps_cast _ _ _ W). unfold imax in K. rewrite S in K. lia. }
    destruct (C90_decoder (text_more t k m) no_cspec (text_more_fields t k)) as (d & fs & E & F & NM & C & NL & NN).
    { exists []. split; [right; easy|]. repeat split; try (constructor; fail); apply undecided; easy. }
    { now apply (text_more_means t k n m). }
    exists d. split; [exact E|].
    destruct (C65_compiles d fs [] F) as [KD P].
    { rewrite NN. cbn. repeat constructor; cbn; intuition discriminate. }
    { intros g Hg. apply (in_map n_name) in Hg. rewrite NN in Hg. destruct Hg as [<-|[<-|[]]]; vm_compute; intuition discriminate. }
    { intros _ g Hg. apply (in_map (fun g => (n_spec g, n_type g))) in Hg. change (map _ fs) with (nameless fs) in Hg. rewrite NL in Hg.
      destruct Hg as [[= <- _]|[[= <- _]|[]]]; reflexivity. }
    { now left. }
    split; [exact KD|]. rewrite (C65_struct d fs no_cattr no_fattr _ 0 F KD P). rewrite NM, C, NL. unfold text_more_fields.
    set (c := machine_condition _ _ _).
    assert (EC : forall vars, c (mkenv [VInt len] vars) = true).
    { intros vars. unfold c, machine_condition. cbn [ev_fields]. rewrite (C66_text _ _ _ _ _ (whole Comparison _ _ (more_reads k n D))). unfold more.
      cbn [eval a_op a_cast a_num machine_arithmetic]. change (variables _ [txt "len"] [VInt len] (txt "len")) with (Some (Whole t len)).
      cbn [machine_op shifts divides andb]. rewrite RB. cbn [andb negb calculate]. unfold fitted. rewrite OUT. cbn [machine_op shifts divides andb].
      change (Z.of_N 0) with 0%Z. rewrite R0. cbn [andb negb calculate compared option_map]. now apply Z.ltb_lt. }
    assert (WI : wire (TStruct true no_cspec [(plain, TInt t); (at_if c plain, TOption (TInt U8))]) no_cattr no_fattr (VList [VInt len; VOpt (Some (VInt x))]) =
                 Some (digits Be (N.to_nat (width_bytes t)) (Z.to_N len) ++ [byte_of (Z.to_N x)])).
    { cbn -[digits wire_int app c]. rewrite (wire_plain t _ _ len RL S); [|reflexivity|reflexivity]. cbn -[digits app c wire_int].
      rewrite (wire_plain U8 _ _ x); [|unfold in_range; change (imin U8) with 0%Z; change (imax U8) with 255%Z; lia|reflexivity..].
      cbn -[digits app c]. rewrite !app_nil_r. cbn [app].
      change (digits Be (N.to_nat 1) (Z.to_N x)) with [byte_of (Z.to_N x / 1)]. now rewrite N.div_1_r. }
    assert (FI : fits (TStruct true no_cspec [(plain, TInt t); (at_if c plain, TOption (TInt U8))]) no_cattr no_fattr (VList [VInt len; VOpt (Some (VInt x))]) rest = true).
    { cbn -[digits wire_int app c]. rewrite EC, !Z.eqb_refl. reflexivity. }
    assert (WF : well_formed (TStruct true no_cspec [(plain, TInt t); (at_if c plain, TOption (TInt U8))])) by well.
    apply (C30_round_trip _ _ _ rest WF WI FI AL).
  - rewrite (C66_text _ _ _ _ _ (whole Comparison _ _ (more_reads k n D))). unfold more.
    cbn [eval a_op a_cast a_num machine_arithmetic]. change (seen (only_len t len) (fun _ => None) (txt "len")) with (Some (Whole t len)).
    cbn [machine_op shifts divides andb]. rewrite RB. cbn [andb negb calculate]. unfold fitted. rewrite OUT. cbn [machine_op]. reflexivity.
Qed.

(** ** Examples *)
Definition flag_is (b : bool) (x : bytes) : option bool := if bytes_eqb x (txt "on") then Some b else None.
(** [!on || len - 4 > 0] *)
Definition off_or_more : rexpr := EOp OrElse (EField (EName (txt "on")) LNot) (more 4).
Definition off_or_more_text : bytes := txt "!on || len - 4 > 0".
Lemma off_reads : reads_as Disjunction off_or_more_text off_or_more.
Proof.
  change off_or_more_text with (((txt "!on") ++ [" "%byte]) ++ txt "||" ++ " "%byte :: is_more (txt "4")).
  apply (ra_operation _ _ _ _ _ "||" Disjunction Disjunction Conjunction sg_or).
  - apply ra_after, (loosen Disjunction Cast); [cbn; lia|]. apply (ra_front "!"%byte LNot (txt "on")); [constructor|]. apply ra_name.
    split; [|discriminate]. split; [left; vm_compute; split; discriminate|]. repeat (apply Forall_cons; [left; left; vm_compute; split; discriminate|]). apply Forall_nil.
  - apply ra_before, (loosen Conjunction Comparison); [cbn; lia|]. exact (more_reads (txt "4") 4 four).
Qed.
Lemma off_seen t z b : in_range t z -> fields_seen (only_len t z) (flag_is b).
Proof.
  intros R. split; [exact (proj1 (only_seen t z R))|]. intros x. unfold flag_is, only_len. destruct (bytes_eqb x (txt "on")) eqn:E; [|congruence].
  apply bytes_eqb_eq in E. subst x. reflexivity.
Qed.
Lemma minus_type z : fits_type (fun x => option_map fst (only_len U8 z x)) (EOp Minus (EName (txt "len")) (ENum 4)) U8.
Proof.
  apply ft_type, ht_op; [cbn; tauto|intros [(m & H) _]; discriminate|cbn; intuition discriminate|apply ft_type; now constructor|].
  apply (ft_number _ 4). vm_compute. split; discriminate.
Qed.
Lemma more_condition z flags : is_condition (fun x => option_map fst (only_len U8 z x)) flags (more 4).
Proof.
  apply (ic_compare _ _ Greater _ _ U8); [cbn; tauto|intros [(m & H) _]; discriminate|exact (minus_type z)|].
  apply (ft_number _ 0). vm_compute. split; discriminate.
Qed.
Lemma off_condition z b : a_condition (only_len U8 z) (flag_is b) off_or_more.
Proof. apply ic_or; [|apply more_condition]. apply ic_not, ic_flag. discriminate. Qed.
Lemma nine_more flags : decides (only_len U8 9) flags (more 4) true.
Proof.
  eapply de_true; [apply re_greater|intros [(m & H) _]; discriminate| |apply (op_number _ 0 U8); vm_compute; split; discriminate|].
  - apply op_value. apply (va_op _ Minus _ _ _ 9 4 5); [intros [[m H] _]; discriminate H| | |apply (am_minus 9 4)|vm_compute; split; discriminate].
    + apply op_value. now constructor.
    + apply (op_number _ 4). vm_compute. split; discriminate.
  - reflexivity.
Qed.
(** With 9 for [len] the condition is true. With 2 it is true if [on] is not, and the
    difference is not computed. *)
Example C91_exact_case : forall checks b,
  code_value (machine_arithmetic checks) (seen (only_len U8 9) (flag_is b)) off_or_more_text = Some (Truth true) /\
  code_value (machine_arithmetic checks) (seen (only_len U8 2) (flag_is false)) off_or_more_text = Some (Truth true).
Proof.
  intros checks b. split.
  - apply (C91_exact _ _ _ off_or_more); [apply off_seen, u8_in; lia|exact off_reads|]. destruct b.
    + apply de_or; [apply (de_not _ _ _ true), de_flag; reflexivity|apply nine_more].
    + apply de_or_so; [apply (de_not _ _ _ false), de_flag; reflexivity|apply more_condition].
  - apply (C91_exact _ _ _ off_or_more); [apply off_seen, u8_in; lia|exact off_reads|].
    apply de_or_so; [apply (de_not _ _ _ false), de_flag; reflexivity|apply more_condition].
Qed.
(** With 2, and [on], there is an overflow. *)
Example C91_checked_case : let f := seen (only_len U8 2) (flag_is true) in
  fields_seen (only_len U8 2) (flag_is true) /\ a_condition (only_len U8 2) (flag_is true) off_or_more /\
  code_value (machine_arithmetic true) f off_or_more_text = Some Panicked /\ code_value (machine_arithmetic false) f off_or_more_text = Some (Truth true).
Proof. cbv zeta. split; [apply off_seen, u8_in; lia|]. split; [apply off_condition|]. split; reflexivity. Qed.
Example C91_unchecked_case : exists c, code_value (machine_arithmetic false) (seen (only_len U8 2) (flag_is true)) off_or_more_text = Some (Truth c).
Proof.
  destruct (C91_unchecked (only_len U8 2) (flag_is true) off_or_more_text off_or_more) as [H|[_ H]]; [apply off_seen, u8_in; lia|exact off_reads|apply off_condition|exact H|].
  exfalso. cbn in H. intuition discriminate.
Qed.
Example C91_field_case : let types := fun x => if bytes_eqb x (txt "len") then Some (TInt U8) else if bytes_eqb x (txt "on") then Some TBool else None in
  machine_condition types [txt "len"; txt "on"] off_or_more_text (mkenv [VInt 9; VBool true] []) = true /\
  machine_condition types [txt "len"; txt "on"] off_or_more_text (mkenv [VInt 4; VBool true] []) = false.
Proof.
  cbv zeta. split; [|reflexivity].
  apply (C91_field _ [(txt "len", (TInt U8, VInt 9)); (txt "on", (TBool, VBool true))] off_or_more_text off_or_more true []).
  - intros x u v [[= <- <- <-]|[[= <- <- <-]|[]]]; reflexivity.
  - intros x u v. unfold integers_of. cbn [find fst]. destruct (list_eq_dec _ x _); [intros [= <- <-]; apply u8_in; lia|].
    destruct (list_eq_dec _ x _); discriminate.
  - exact off_reads.
  - apply de_or; [apply (de_not _ _ _ true), de_flag; reflexivity|].
    eapply (de_true _ _ Greater _ _ _ U8 5 0); [apply re_greater|intros [(m & H) _]; discriminate| |apply (op_number _ 0); vm_compute; split; discriminate|reflexivity].
    apply op_value. apply (va_op _ Minus _ _ _ 9 4 5); [intros [[m H] _]; discriminate H| | |apply (am_minus 9 4)|vm_compute; split; discriminate].
    + apply op_value. now constructor.
    + apply (op_number _ 4). vm_compute. split; discriminate.
Qed.
(** [&] needs both operands, [&&] does not. *)
Example C91_both_case : decides (only_len U8 9) (flag_is true) (EOp AndBits (EName (txt "on")) (more 4)) true /\
  a_condition (only_len U8 2) (flag_is false) (EOp AndBits (EName (txt "on")) (more 4)) /\
  code_value (machine_arithmetic true) (seen (only_len U8 2) (flag_is false)) (txt "on & (len - 4 > 0)") = Some Panicked /\
  code_value (machine_arithmetic true) (seen (only_len U8 2) (flag_is false)) (txt "on && len - 4 > 0") = Some (Truth false).
Proof.
  split; [apply (de_both _ _ _ _ _ _ true true co_and); [now constructor|apply nine_more]|].
  split; [apply (ic_both _ _ _ _ _ _ co_and); [constructor; discriminate|apply more_condition]|]. split; reflexivity.
Qed.
Example C91_guard_case : forall checks,
  code_value (machine_arithmetic checks) (seen (only_len U16 3) (fun _ => None)) (txt "len >= 4 && len - 4 > 0") = Some (Truth false) /\
  code_value (machine_arithmetic checks) (seen (only_len U16 700) (fun _ => None)) (txt "len >= 4 && len - 4 > 0") = Some (Truth true).
Proof.
  intros checks. split.
  - apply (C91_guard U16 (txt "4") 4 3 checks four); vm_compute; split; discriminate.
  - apply (C91_guard U16 (txt "4") 4 700 checks four); vm_compute; split; discriminate.
Qed.
(** The bytes [02 07]: the 2 is less than 4, and the 7 is read all the same. *)
Example C91_wrapped_case m : exists d, machine_decoder (text_more U8 (txt "4") m) = Some d /\ struct_compiles d [] = true /\
  run_struct dec d no_cattr [x02; x07; x09] 0 = Ok (VList [VInt 2; VOpt (Some (VInt 7))]) 2.
Proof.
  refine (proj1 (C91_wrapped_refuted m U8 (txt "4") 4 2 7 [x09] eq_refl four _ _ _ _)).
  - split; [discriminate|reflexivity].
  - vm_compute. discriminate.
  - split; [discriminate|reflexivity].
  - vm_compute. reflexivity.
Qed.

Print Assumptions C91_exact.
Print Assumptions C91_checked.
Print Assumptions C91_unchecked.
Print Assumptions C91_field.
Print Assumptions C91_guard.
Print Assumptions C91_wrapped_refuted.
