(** C90: expressions in attributes are computed in the types of the fields. *)
From Coq Require Import Ascii String Zquot.
From Verif Require Import Base BaseLemmas Ints SpecOps Reader Writer Sugar TextSpec Text AttrParse AttrSpec AttrLemmas EnumTextSpec GenExpr GenExprSpec
  GenExprLemmas PropsExpr GenDecode GenSpec PropsGen Source SourceSpec SourceLemmas PropsSource
  Decode Encode Spec Collections Containers NetLemmas PropsContainers WireSpec Examples FieldSpec PropsEnumSource MachineExpr MachineSpec Schema.
Close Scope string_scope.

(** ** Types *)
Lemma cast_wraps t z : wraps_to t z (cast t z).
Proof.
  split; [apply cast_range|]. unfold cast, int_of_raw, raw_of_int. pose proof (imod_pos t).
  pose proof (Z.mod_pos_bound z (imod t) ltac:(lia)). rewrite Z2N.id by lia. pose proof (Z.div_mod z (imod t) ltac:(lia)).
  destruct (_ && _); [exists (z / imod t + 1)%Z|exists (z / imod t)%Z]; lia.
Qed.
Lemma wraps_cast t z w : wraps_to t z w -> cast t z = w.
Proof.
  intros [R (k & ->)]. rewrite <- (cast_id t w R) at 2. unfold cast. f_equal. unfold raw_of_int. f_equal. apply Z.mod_add. pose proof (imod_pos t). lia.
Qed.
Lemma wraps_same t x y w : wraps_to t x w -> (exists k, y = x + k * imod t)%Z -> wraps_to t y w.
Proof. intros [R (k & ->)] (j & ->). split; [exact R|]. exists (k + j)%Z. lia. Qed.
Lemma signed_iff t : signed t = true <-> (imin t < 0)%Z.
Proof. destruct t; cbn; split; intros H; try reflexivity; try discriminate; try lia; vm_compute in H; discriminate. Qed.
Lemma signed_ltb t : (imin t <? 0)%Z = signed t.
Proof. now destruct t. Qed.
Lemma zero_in t : (imin t <= 0 <= imax t)%Z.
Proof. destruct t; vm_compute; split; discriminate. Qed.
Lemma not_bits t z : in_range t z -> cast t (- z - 1) = (if (imin t <? 0)%Z then - z - 1 else imax t - z)%Z.
Proof.
  intros R. apply wraps_cast. rewrite signed_ltb. unfold in_range, imin, imax in *. pose proof (imod_even t). destruct (signed t) eqn:S.
  - split; [unfold in_range, imin, imax; rewrite S; lia|]. exists 0%Z. lia.
  - split; [unfold in_range, imin, imax; rewrite S; lia|]. exists (-1)%Z. lia.
Qed.
Lemma type_found name t : type_name name t -> integer_type name = Some t.
Proof. intros []; reflexivity. Qed.

(** All bits from [n] on are alike. *)
Lemma high_bits n z : (0 <= n)%Z -> (Z.shiftr z n = 0 \/ Z.shiftr z n = -1)%Z <-> (- 2 ^ n <= z < 2 ^ n)%Z.
Proof.
  intros H. rewrite Z.shiftr_div_pow2 by lia. pose proof (Z.pow_pos_nonneg 2 n ltac:(lia) H).
  pose proof (Z.div_mod z (2 ^ n) ltac:(lia)). pose proof (Z.mod_pos_bound z (2 ^ n) ltac:(lia)). split; [intros []; nia|].
  intros R. assert (z / 2 ^ n < 1)%Z by (apply Z.div_lt_upper_bound; lia). assert (-1 <= z / 2 ^ n)%Z by (apply Z.div_le_lower_bound; lia). lia.
Qed.
Lemma bit_range (f : Z -> Z -> Z) : (forall x y n, Z.shiftr (f x y) n = f (Z.shiftr x n) (Z.shiftr y n)) ->
  (forall x y, (x = 0 \/ x = -1)%Z -> (y = 0 \/ y = -1)%Z -> (f x y = 0 \/ f x y = -1)%Z) ->
  (forall x y, (0 <= x -> 0 <= y -> 0 <= f x y)%Z) ->
  forall t x y, in_range t x -> in_range t y -> in_range t (f x y).
Proof.
  intros S B P t x y X Y.
  assert (E : exists n, (0 <= n /\ imax t = 2 ^ n - 1 /\ (imin t = 0 \/ imin t = - 2 ^ n))%Z).
  { exists (if signed t then bits_of t - 1 else bits_of t)%Z. destruct t; vm_compute; intuition discriminate. }
  destruct E as (n & N & M & I). unfold in_range in *. rewrite M in *.
  assert (R : (- 2 ^ n <= f x y < 2 ^ n)%Z).
  { apply high_bits; [exact N|]. rewrite S. pose proof (Z.pow_pos_nonneg 2 n ltac:(lia) N). apply B; apply high_bits; lia. }
  destruct I as [I|I]; rewrite I in *; [|lia]. pose proof (P x y). lia.
Qed.
Lemma land_range t x y : in_range t x -> in_range t y -> in_range t (Z.land x y).
Proof. apply (bit_range Z.land). - intros. apply Z.shiftr_land. - intros ? ? [-> | ->] [-> | ->]; cbn; auto. - intros a b H _. apply Z.land_nonneg. now left. Qed.
Lemma lor_range t x y : in_range t x -> in_range t y -> in_range t (Z.lor x y).
Proof. apply (bit_range Z.lor). - intros. apply Z.shiftr_lor. - intros ? ? [-> | ->] [-> | ->]; cbn; auto. - intros a b H K. now apply Z.lor_nonneg. Qed.
Lemma lxor_range t x y : in_range t x -> in_range t y -> in_range t (Z.lxor x y).
Proof. apply (bit_range Z.lxor). - intros. apply Z.shiftr_lxor. - intros ? ? [-> | ->] [-> | ->]; cbn; auto. - intros a b H K. apply Z.lxor_nonneg. tauto. Qed.
Lemma quotient_unique x y q r : quotient x y q r -> y <> 0%Z /\ q = Z.quot x y /\ r = Z.rem x y.
Proof.
  intros (E & A & S). assert (Y : y <> 0%Z) by lia. split; [exact Y|].
  assert (R : Zquot.Remainder x y r) by (unfold Zquot.Remainder; destruct (Z.sgn_spec x), (Z.sgn_spec r); lia).
  assert (Q : q = Z.quot x y) by (apply (Zquot_mod_unique_full x y q r R); lia).
  split; [exact Q|]. pose proof (Z.quot_rem' x y). subst q. lia.
Qed.
Lemma quotient_quot x y : y <> 0%Z -> quotient x y (Z.quot x y) (Z.rem x y).
Proof.
  intros Y. pose proof (Z.quot_rem' x y). split; [lia|]. split; [now apply Z.rem_bound_abs|].
  destruct (Z.eq_dec (Z.rem x y) 0) as [E|E]; [now left|]. right. now apply Z.rem_sign_nz.
Qed.
Lemma rem_range t x y : y <> 0%Z -> in_range t x -> in_range t (Z.rem x y).
Proof.
  intros Y R. pose proof (zero_in t). unfold in_range in *. destruct (Z_le_gt_dec 0 x) as [X|X].
  - pose proof (Z.rem_nonneg x y Y X). pose proof (Z.rem_le x y X). destruct (Z_lt_le_dec 0 y).
    + specialize (H1 l). lia.
    + rewrite <- (Z.opp_involutive y), Z.rem_opp_r by lia. rewrite <- (Z.opp_involutive y), Z.rem_opp_r in H0 by lia.
      pose proof (Z.rem_le x (- y) X ltac:(lia)). lia.
  - pose proof (Z.rem_nonpos x y Y ltac:(lia)). rewrite <- (Z.opp_involutive x), Z.rem_opp_l in * by lia.
    assert (Z.rem (- x) y <= - x)%Z; [|lia]. destruct (Z_lt_le_dec 0 y).
    + apply Z.rem_le; lia.
    + rewrite <- (Z.opp_involutive y), Z.rem_opp_r by lia. apply Z.rem_le; lia.
Qed.
Lemma right_range t x y : (0 <= y)%Z -> in_range t x -> in_range t (Z.shiftr x y).
Proof.
  intros Y R. pose proof (zero_in t). unfold in_range in *. rewrite Z.shiftr_div_pow2 by lia. pose proof (Z.pow_pos_nonneg 2 y ltac:(lia) Y).
  pose proof (Z.div_mod x (2 ^ y) ltac:(lia)). pose proof (Z.mod_pos_bound x (2 ^ y) ltac:(lia)). nia.
Qed.

(** ** Values *)
Definition at_machine (scope : bytes -> option (ity * Z)) (x : bytes) : option machine := option_map (fun tz => Whole (fst tz) (snd tz)) (scope x).
(** What an operand is, if its type is [t]. *)
Definition stands (t : ity) (e : rexpr) (v : option machine) (x : Z) : Prop :=
  v = Some (Whole t x) \/ numeral e /\ v = Some (Literal x) /\ in_range t x.
Lemma machine_calculates checks o a b t v w x y : ~ (numeral a /\ numeral b) -> stands t a (Some v) x -> stands t b (Some w) y ->
  shifts o = false -> (divides o = true -> y = 0%Z -> numeral b -> False) -> machine_op checks o v w = calculate checks o t x y.
Proof.
  intros N [[= ->]|(Na & [= ->] & Ra)] [[= ->]|(Nb & [= ->] & Rb)] S D; cbn [machine_op]; try rewrite S.
  - now destruct (ity_dec t t).
  - apply in_rangeb_iff in Rb. rewrite Rb. cbn [andb]. destruct (divides o) eqn:DO; [|reflexivity]. cbn [andb].
    destruct (Z.eqb_spec y 0); [|reflexivity]. elim (D eq_refl e Nb).
  - apply in_rangeb_iff in Ra. now rewrite Ra.
  - tauto.
Qed.
Lemma fitted_in checks t z : in_range t z -> fitted checks t z = Whole t z.
Proof. intros H. apply in_rangeb_iff in H. unfold fitted. now rewrite H. Qed.
Scheme value_rec := Minimality for value Sort Prop
  with operand_rec := Minimality for operand Sort Prop
  with amount_rec := Minimality for amount Sort Prop.
Combined Scheme value_mutual from value_rec, operand_rec, amount_rec.

(** An expression none of whose parts leaves its type has the value it has in mathematics,
    with and without overflow checks. *)
Theorem C90_exact : forall scope e t z, (forall x t z, scope x = Some (t, z) -> in_range t z) ->
  value scope e t z -> forall checks, eval (machine_arithmetic checks) (at_machine scope) e = Some (Whole t z) /\ in_range t z.
Proof.
  intros scope e t z R V checks. revert e t z V.
  apply (value_rec scope (fun e t z => eval (machine_arithmetic checks) (at_machine scope) e = Some (Whole t z) /\ in_range t z)
           (fun e t z => stands t e (eval (machine_arithmetic checks) (at_machine scope) e) z /\ in_range t z)
           (fun e y => (exists u, eval (machine_arithmetic checks) (at_machine scope) e = Some (Whole u y)) \/
                       eval (machine_arithmetic checks) (at_machine scope) e = Some (Literal y))).
  - intros x t z H. cbn [eval]. unfold at_machine. rewrite H. split; [reflexivity|]. now apply (R x).
  - intros o a b t x y z N _ [Sa Ra] _ [Sb Rb] A Z. split; [|exact Z]. cbn [eval].
    destruct (eval _ _ a) as [v|] eqn:Ea; [|destruct Sa as [|(_ & [=] & _)]; discriminate].
    destruct (eval _ _ b) as [w|] eqn:Eb; [|destruct Sb as [|(_ & [=] & _)]; discriminate].
    cbn [a_op machine_arithmetic]. rewrite (machine_calculates checks o a b t v w x y N Sa Sb); [|now destruct A|now destruct A].
    destruct A; cbn [calculate]; now rewrite ?fitted_in by exact Z.
  - intros a b t x y q r N _ [Sa Ra] _ [Sb Rb] Q Z. split; [|exact Z]. apply quotient_unique in Q as (Y & -> & ->). cbn [eval].
    destruct (eval _ _ a) as [v|] eqn:Ea; [|destruct Sa as [|(_ & [=] & _)]; discriminate].
    destruct (eval _ _ b) as [w|] eqn:Eb; [|destruct Sb as [|(_ & [=] & _)]; discriminate].
    cbn [a_op machine_arithmetic]. rewrite (machine_calculates checks Divide a b t v w x y N Sa Sb); [|reflexivity|tauto].
    cbn [calculate]. apply Z.eqb_neq in Y. rewrite Y. apply in_rangeb_iff in Z. now rewrite Z.
  - intros a b t x y q r N _ [Sa Ra] _ [Sb Rb] Q Z. apply quotient_unique in Q as (Y & -> & ->). split; [|now apply rem_range]. cbn [eval].
    destruct (eval _ _ a) as [v|] eqn:Ea; [|destruct Sa as [|(_ & [=] & _)]; discriminate].
    destruct (eval _ _ b) as [w|] eqn:Eb; [|destruct Sb as [|(_ & [=] & _)]; discriminate].
    cbn [a_op machine_arithmetic]. rewrite (machine_calculates checks Remainder a b t v w x y N Sa Sb); [|reflexivity|tauto].
    cbn [calculate]. apply Z.eqb_neq in Y. rewrite Y. apply in_rangeb_iff in Z. now rewrite Z.
  - intros a b t x y z _ [Sa Ra] _ Sb Y W. split; [|apply W]. cbn [eval]. rewrite Sa.
    assert (Y' : ((0 <=? y) && (y <? bits_of t) = true)%Z) by (unfold bits_of; fold (width t); lia).
    destruct Sb as [(u & ->)| -> ]; cbn [a_op machine_arithmetic machine_op shifts]; unfold shift; rewrite Y'; cbn [shifted];
      rewrite Z.shiftl_mul_pow2 by lia; now rewrite (wraps_cast _ _ _ W).
  - intros a b t x y z _ [Sa Ra] _ Sb Y W.
    assert (E : Z.shiftr x y = z).
    { rewrite Z.shiftr_div_pow2 by lia. symmetry. apply (Z.div_unique_pos x (2 ^ y) z (x - z * 2 ^ y)); lia. }
    split; [|rewrite <- E; apply right_range; [lia|exact Ra]]. cbn [eval]. rewrite Sa.
    assert (Y' : ((0 <=? y) && (y <? bits_of t) = true)%Z) by (unfold bits_of; fold (width t); lia).
    destruct Sb as [(u & ->)| -> ]; cbn [a_op machine_arithmetic machine_op shifts]; unfold shift; rewrite Y'; cbn [shifted]; now rewrite E.
  - intros e t x name u z _ [Se Re] T W. split; [|apply W]. cbn [eval]. rewrite Se. cbn [a_cast machine_arithmetic]. unfold machine_cast.
    rewrite (type_found _ _ T). now rewrite (wraps_cast _ _ _ W).
  - intros n name u T Rn. split; [|exact Rn]. cbn [eval a_num a_cast machine_arithmetic]. unfold machine_cast. rewrite (type_found _ _ T).
    apply in_rangeb_iff in Rn. now rewrite Rn.
  - intros e t x _ [Se Re] S Rn. split; [|exact Rn]. cbn [eval]. rewrite Se. cbn [a_get machine_arithmetic machine_get].
    apply signed_iff in S. now rewrite S, fitted_in.
  - intros e t x _ [Se Re]. rewrite <- not_bits by exact Re. split; [|apply cast_range]. cbn [eval]. now rewrite Se.
  - intros n t Rn. split; [|exact Rn]. right. split; [now exists n|]. now split.
  - intros e t z _ [Se Re]. split; [now left|exact Re].
  - intros n. now right.
  - intros e u y _ [Se Re]. left. now exists u.
Qed.

(** ** Overflow *)
Lemma operand_stands scope e t z checks : (forall x t z, scope x = Some (t, z) -> in_range t z) -> operand scope e t z ->
  stands t e (eval (machine_arithmetic checks) (at_machine scope) e) z /\ in_range t z.
Proof.
  intros R [n u Rn|e' u x V].
  - split; [|exact Rn]. right. split; [now exists n|]. now split.
  - destruct (C90_exact scope _ _ _ R V checks) as [E Rx]. split; [now left|exact Rx].
Qed.
Lemma stands_some t e v x : stands t e v x -> exists w, v = Some w.
Proof. intros [-> |(_ & -> & _)]; eauto. Qed.
Lemma panicked_left checks o w : machine_op checks o Panicked w = Some Panicked.
Proof. reflexivity. Qed.
Lemma panicked_any checks o v : ~ In o [AndAlso; OrElse] -> machine_op checks o v Panicked = Some Panicked.
Proof. intros H. destruct v; try reflexivity. cbn [machine_op]. destruct o; try reflexivity; cbn in H; tauto. Qed.
Lemma calculates_plain o : In o [Plus; Minus; Times; AndBits; OrBits; XorBits; Divide; Remainder] -> ~ In o [AndAlso; OrElse].
Proof. cbn. intuition congruence. Qed.
Scheme has_type_rec := Minimality for has_type Sort Prop
  with fits_type_rec := Minimality for fits_type Sort Prop.
(** The values in scope have the types they are said to have. *)
Definition scope_typed (types : bytes -> option ity) (scope : bytes -> option (ity * Z)) : Prop :=
  (forall x, types x = option_map fst (scope x)) /\ forall x t z, scope x = Some (t, z) -> in_range t z.
Lemma typed_checked types scope : scope_typed types scope -> forall e t, has_type types e t ->
  (exists z, value scope e t z) \/ eval (machine_arithmetic true) (at_machine scope) e = Some Panicked.
Proof.
  intros [T R].
  assert (OP : forall o a b t, In o [Plus; Minus; Times; AndBits; OrBits; XorBits; Divide; Remainder] -> ~ (numeral a /\ numeral b) ->
            (In o [Divide; Remainder] -> b <> ENum 0) ->
            (exists z, operand scope a t z) \/ eval (machine_arithmetic true) (at_machine scope) a = Some Panicked ->
            (exists z, operand scope b t z) \/ eval (machine_arithmetic true) (at_machine scope) b = Some Panicked ->
            (exists z, value scope (EOp o a b) t z) \/ eval (machine_arithmetic true) (at_machine scope) (EOp o a b) = Some Panicked).
  { intros o a b t O N D Ha Hb.
    destruct Ha as [(x & Va)|Pa].
    2:{ right. cbn [eval]. rewrite Pa. destruct Hb as [(y & Vb)|Pb].
        - destruct (operand_stands scope _ _ _ true R Vb) as [Sb _]. apply stands_some in Sb as (w & ->). reflexivity.
        - now rewrite Pb. }
    destruct (operand_stands scope _ _ _ true R Va) as [Sa Ra]. pose proof (stands_some _ _ _ _ Sa) as (v & Ev).
    destruct Hb as [(y & Vb)|Pb].
    2:{ right. cbn [eval]. rewrite Ev, Pb. cbn [a_op machine_arithmetic]. apply panicked_any. now apply calculates_plain. }
    destruct (operand_stands scope _ _ _ true R Vb) as [Sb Rb]. pose proof (stands_some _ _ _ _ Sb) as (w & Ew).
    assert (E : eval (machine_arithmetic true) (at_machine scope) (EOp o a b) = calculate true o t x y).
    { cbn [eval]. rewrite Ev, Ew. cbn [a_op machine_arithmetic]. apply (machine_calculates true o a b); try rewrite <- Ev; try rewrite <- Ew; auto.
      - cbn in O. intuition subst o; reflexivity.
      - intros DO -> (n & ->). apply D; [cbn in O; intuition subst o; cbn; auto; discriminate|]. f_equal.
        inversion Vb as [m u Rm|m u z Vz]; subst; [lia|inversion Vz]. }
    assert (FIT : forall z, amounts o x y z -> calculate true o t x y = Some (fitted true t z) -> 
              (exists z, value scope (EOp o a b) t z) \/ eval (machine_arithmetic true) (at_machine scope) (EOp o a b) = Some Panicked).
    { intros z A C. rewrite E, C. unfold fitted. destruct (in_rangeb t z) eqn:RZ; [left|now right]. exists z.
      apply in_rangeb_iff in RZ. now apply (va_op scope o a b t x y z). }
    assert (BIT : forall z, amounts o x y z -> in_range t z -> exists z, value scope (EOp o a b) t z)
      by (intros z A Z; exists z; now apply (va_op scope o a b t x y z)).
    destruct O as [<-|[<-|[<-|[<-|[<-|[<-|[<-|[<-|[]]]]]]]]].
    - now apply (FIT (x + y)%Z (am_plus x y)).
    - now apply (FIT (x - y)%Z (am_minus x y)).
    - now apply (FIT (x * y)%Z (am_times x y)).
    - left. apply (BIT _ (am_and x y)). now apply land_range.
    - left. apply (BIT _ (am_or x y)). now apply lor_range.
    - left. apply (BIT _ (am_xor x y)). now apply lxor_range.
    - rewrite E. cbn [calculate]. destruct (Z.eqb_spec y 0) as [Y|Y]; [now right|]. destruct (in_rangeb t (Z.quot x y)) eqn:RZ; [left|now right].
      apply in_rangeb_iff in RZ. eexists. eapply va_divide; eauto. now apply quotient_quot.
    - rewrite E. cbn [calculate]. destruct (Z.eqb_spec y 0) as [Y|Y]; [now right|]. destruct (in_rangeb t (Z.quot x y)) eqn:RZ; [left|now right].
      apply in_rangeb_iff in RZ. eexists. eapply va_remainder; eauto. now apply quotient_quot. }
  assert (SH : forall o a b t y, In o [ShiftLeft; ShiftRight] ->
            (exists z, value scope a t z) \/ eval (machine_arithmetic true) (at_machine scope) a = Some Panicked ->
            amount scope b y -> (0 <= y < width t)%Z ->
            (exists z, value scope (EOp o a b) t z) \/ eval (machine_arithmetic true) (at_machine scope) (EOp o a b) = Some Panicked).
  { intros o a b t y O [(x & Va)|Pa] Ay Y.
    - left. destruct O as [<-|[<-|[]]].
      + eexists. eapply va_left; eauto. apply cast_wraps.
      + exists (x / 2 ^ y)%Z. eapply va_right; eauto. pose proof (Z.pow_pos_nonneg 2 y ltac:(lia) (proj1 Y)).
        pose proof (Z.div_mod x (2 ^ y) ltac:(lia)). pose proof (Z.mod_pos_bound x (2 ^ y) ltac:(lia)). lia.
    - right. cbn [eval]. rewrite Pa. destruct Ay as [n|e u y V]; [reflexivity|]. now rewrite (proj1 (C90_exact scope _ _ _ R V true)). }
  apply (has_type_rec types (fun e t => (exists z, value scope e t z) \/ eval (machine_arithmetic true) (at_machine scope) e = Some Panicked)
           (fun e t => (exists z, operand scope e t z) \/ eval (machine_arithmetic true) (at_machine scope) e = Some Panicked)).
  - intros x t H. left. rewrite T in H. destruct (scope x) as [[u z]|] eqn:E; [|discriminate]. injection H as <-. exists z. now apply va_name.
  - intros o a b t O N D _ Ha _ Hb. now apply OP.
  - intros o a b t u O _ Ha _ [(y & Vb)|Pb].
    + destruct (C90_exact scope _ _ _ R Vb true) as [Eb _].
      destruct (Z_le_gt_dec 0 y) as [Y0|Y0]; [destruct (Z_lt_le_dec y (width t)) as [Y1|Y1]|].
      * apply (SH o a b t y O Ha); [now apply (at_value scope b u)|lia].
      * right. cbn [eval]. rewrite Eb. destruct Ha as [(x & Va)|Pa]; [|now rewrite Pa]. destruct (C90_exact scope _ _ _ R Va true) as [Ea _]. rewrite Ea.
        cbn [a_op machine_arithmetic machine_op]. assert (S : shifts o = true) by (destruct O as [<-|[<-|[]]]; reflexivity). rewrite S.
        unfold shift. replace ((0 <=? y) && (y <? bits_of t))%Z with false; [reflexivity|]. unfold bits_of; fold (width t). lia.
      * right. cbn [eval]. rewrite Eb. destruct Ha as [(x & Va)|Pa]; [|now rewrite Pa]. destruct (C90_exact scope _ _ _ R Va true) as [Ea _]. rewrite Ea.
        cbn [a_op machine_arithmetic machine_op]. assert (S : shifts o = true) by (destruct O as [<-|[<-|[]]]; reflexivity). rewrite S.
        unfold shift. replace ((0 <=? y) && (y <? bits_of t))%Z with false; [reflexivity|]. unfold bits_of; fold (width t). lia.
    + right. cbn [eval]. rewrite Pb. destruct Ha as [(x & Va)|Pa]; [|now rewrite Pa]. rewrite (proj1 (C90_exact scope _ _ _ R Va true)). reflexivity.
  - intros o a n t O _ Ha W. apply (SH o a (ENum n) t (Z.of_N n) O Ha); [constructor|lia].
  - intros e t name u _ [(x & V)|P] Tn.
    + left. eexists. eapply va_cast; eauto. apply cast_wraps.
    + right. cbn [eval]. rewrite P. cbn [a_cast machine_arithmetic]. unfold machine_cast. now rewrite (type_found _ _ Tn).
  - intros n name u Rn Tn. left. exists (Z.of_N n). now apply va_cast_number.
  - intros e t _ [(x & V)|P] S.
    + destruct (C90_exact scope _ _ _ R V true) as [Ee _]. cbn [eval]. rewrite Ee. cbn [a_get machine_arithmetic machine_get]. pose proof S as S'. apply signed_iff in S'. rewrite S'.
      unfold fitted. destruct (in_rangeb t (- x)) eqn:RZ; [left|now right]. apply in_rangeb_iff in RZ. exists (- x)%Z. now apply va_minus.
    + right. cbn [eval]. now rewrite P.
  - intros e t _ [(x & V)|P]; [left; eexists; apply va_not; exact V|right]. cbn [eval]. now rewrite P.
  - intros n t Rn. left. exists (Z.of_N n). now apply op_number.
  - intros e t _ [(x & V)|P]; [left; exists x; now apply op_value|now right].
Qed.
(** With overflow checks an expression of some type either has the value it has in
    mathematics, in that type, or panics; and it panics exactly if some part leaves its
    type. *)
Theorem C90_checked : forall types scope e t, scope_typed types scope -> has_type types e t ->
  (exists z, value scope e t z /\ eval (machine_arithmetic true) (at_machine scope) e = Some (Whole t z)) \/
  (forall u z, ~ value scope e u z) /\ eval (machine_arithmetic true) (at_machine scope) e = Some Panicked.
Proof.
  intros types scope e t S H. pose proof S as [T R]. destruct (typed_checked types scope S e t H) as [(z & V)|P].
  - left. exists z. split; [exact V|]. apply (C90_exact scope _ _ _ R V).
  - right. split; [|exact P]. intros u z V. destruct (C90_exact scope _ _ _ R V true) as [E _]. congruence.
Qed.

Lemma calculate_unchecked o t x y : In o [Plus; Minus; Times; AndBits; OrBits; XorBits; Divide; Remainder] -> in_range t x -> in_range t y ->
  exists v, calculate false o t x y = Some v /\ ((exists z, v = Whole t z /\ in_range t z) \/ v = Panicked /\ In o [Divide; Remainder]).
Proof.
  intros O X Y.
  assert (F : forall z, exists w, fitted false t z = Whole t w /\ in_range t w).
  { intros z. unfold fitted. destruct (in_rangeb t z) eqn:E; [exists z; split; [reflexivity|now apply in_rangeb_iff]|]. exists (cast t z). split; [reflexivity|apply cast_range]. }
  destruct O as [<-|[<-|[<-|[<-|[<-|[<-|[<-|[<-|[]]]]]]]]]; cbn [calculate]; eexists; (split; [reflexivity|]); try (left; apply F).
  - left. eexists. split; [reflexivity|]. now apply land_range.
  - left. eexists. split; [reflexivity|]. now apply lor_range.
  - left. eexists. split; [reflexivity|]. now apply lxor_range.
  - destruct (Z.eqb_spec y 0); [right; cbn; auto|]. destruct (in_rangeb t _) eqn:E; [left|right; cbn; auto]. eexists. split; [reflexivity|]. now apply in_rangeb_iff.
  - destruct (Z.eqb_spec y 0); [right; cbn; auto|]. destruct (in_rangeb t _) eqn:E; [left|right; cbn; auto]. eexists. split; [reflexivity|]. now apply rem_range.
Qed.
(** Without them it always compiles and has a value of its type; only a division can
    panic. *)
Theorem C90_unchecked : forall types scope e t, scope_typed types scope -> has_type types e t ->
  exists v, eval (machine_arithmetic false) (at_machine scope) e = Some v /\
    ((exists z, v = Whole t z /\ in_range t z) \/ v = Panicked /\ has_division e).
Proof.
  intros types scope e t [T R]. revert e t.
  set (ev := eval (machine_arithmetic false) (at_machine scope)).
  apply (has_type_rec types (fun e t => exists v, ev e = Some v /\ ((exists z, v = Whole t z /\ in_range t z) \/ v = Panicked /\ has_division e))
    (fun e t => exists v, ev e = Some v /\ ((exists z, (v = Whole t z \/ numeral e /\ v = Literal z /\ e = ENum (Z.to_N z)) /\ in_range t z) \/ v = Panicked /\ has_division e))).
  - intros x t H. rewrite T in H. destruct (scope x) as [[u z]|] eqn:E; [|discriminate]. injection H as <-. exists (Whole u z).
    unfold ev. cbn [eval]. unfold at_machine. rewrite E. split; [reflexivity|]. left. exists z. split; [reflexivity|]. now apply (R x).
  - intros o a b t O N D _ (v & Ea & Ha) _ (w & Eb & Hb). unfold ev in *. cbn [eval]. rewrite Ea, Eb. cbn [a_op machine_arithmetic].
    destruct Ha as [(x & Sa & Ra)|[-> Da]]; [|exists Panicked; split; [reflexivity|right; split; [reflexivity|right; now left]]].
    destruct Hb as [(y & Sb & Rb)|[-> Db]]; [|exists Panicked; split; [apply panicked_any; now apply calculates_plain|right; split; [reflexivity|right; now right]]].
    rewrite (machine_calculates false o a b t v w x y N).
    + destruct (calculate_unchecked o t x y O Ra Rb) as (u & -> & [H|[-> H]]); eexists; (split; [reflexivity|]); [now left|right; split; [reflexivity|now left]].
    + destruct Sa as [-> |(Na & -> & _)]; [now left|right; auto].
    + destruct Sb as [-> |(Nb & -> & _)]; [now left|right; auto].
    + cbn in O. intuition subst o; reflexivity.
    + intros DO -> Nb. apply D; [cbn in O; intuition subst o; cbn; auto; discriminate|]. destruct Sb as [-> |(_ & _ & ->)]; [|reflexivity].
      destruct Nb as (n & ->). unfold ev in Eb. cbn in Eb. discriminate.
  - intros o a b t u O _ (v & Ea & Ha) _ (w & Eb & Hb). unfold ev in *. cbn [eval]. rewrite Ea, Eb. cbn [a_op machine_arithmetic].
    destruct Ha as [(x & -> & Ra)|[-> Da]]; [|exists Panicked; split; [reflexivity|right; split; [reflexivity|right; now left]]].
    destruct Hb as [(y & -> & Rb)|[-> Db]]; [|exists Panicked; split; [reflexivity|right; split; [reflexivity|right; now right]]].
    cbn [machine_op]. assert (S : shifts o = true) by (destruct O as [<-|[<-|[]]]; reflexivity). rewrite S.
    assert (H : forall y, (0 <= y)%Z -> exists v, shifted o t x y = Some v /\ exists z, v = Whole t z /\ in_range t z).
    { intros y0 Y. destruct O as [<-|[<-|[]]]; cbn [shifted]; eexists; (split; [reflexivity|]); eexists; (split; [reflexivity|]); [apply cast_range|now apply right_range]. }
    unfold shift. destruct (_ && _)%Z eqn:Y.
    + destruct (H y) as (v & -> & Hv); [lia|]. exists v. auto.
    + destruct (H (y mod bits_of t)%Z) as (v & -> & Hv); [apply Z.mod_pos_bound; now destruct t|]. exists v. auto.
  - intros o a n t O _ (v & Ea & Ha) W. unfold ev in *. cbn [eval]. rewrite Ea. cbn [a_op a_num machine_arithmetic].
    destruct Ha as [(x & -> & Ra)|[-> Da]]; [|exists Panicked; split; [reflexivity|right; split; [reflexivity|right; now left]]].
    cbn [machine_op]. assert (S : shifts o = true) by (destruct O as [<-|[<-|[]]]; reflexivity). rewrite S.
    unfold shift. replace ((0 <=? Z.of_N n) && (Z.of_N n <? bits_of t))%Z with true by (unfold bits_of; fold (width t); lia).
    destruct O as [<-|[<-|[]]]; cbn [shifted]; eexists; (split; [reflexivity|]); left; eexists; (split; [reflexivity|]); [apply cast_range|apply right_range; [lia|exact Ra]].
  - intros e t name u _ (v & Ee & He) Tn. unfold ev in *. cbn [eval]. rewrite Ee. cbn [a_cast machine_arithmetic]. unfold machine_cast. rewrite (type_found _ _ Tn).
    destruct He as [(x & -> & _)|[-> D]]; eexists; (split; [reflexivity|]); [left|right; auto]. eexists. split; [reflexivity|apply cast_range].
  - intros n name u Rn Tn. unfold ev. cbn [eval a_num a_cast machine_arithmetic]. unfold machine_cast. rewrite (type_found _ _ Tn).
    pose proof Rn as Rb. apply in_rangeb_iff in Rb. rewrite Rb. eexists. split; [reflexivity|]. left. eexists. split; [reflexivity|exact Rn].
  - intros e t _ (v & Ee & He) S. unfold ev in *. cbn [eval]. rewrite Ee. cbn [a_get machine_arithmetic machine_get]. apply signed_iff in S.
    destruct He as [(x & -> & _)|[-> D]]; [rewrite S|]; eexists; (split; [reflexivity|]); [left|right; auto].
    unfold fitted. destruct (in_rangeb t (- x)) eqn:E; [|exists (cast t (- x)); split; [reflexivity|apply cast_range]].
    exists (- x)%Z. split; [reflexivity|]. now apply in_rangeb_iff.
  - intros e t _ (v & Ee & He). unfold ev in *. cbn [eval]. rewrite Ee.
    destruct He as [(x & -> & _)|[-> D]]; eexists; (split; [reflexivity|]); [left|right; auto]. eexists. split; [reflexivity|apply cast_range].
  - intros n t Rn. exists (Literal (Z.of_N n)). split; [reflexivity|]. left. exists (Z.of_N n). split; [|exact Rn]. right. split; [now exists n|]. rewrite N2Z.id. now split.
  - intros e t _ (v & Ee & He). exists v. split; [exact Ee|]. destruct He as [(x & -> & Rx)|[-> D]]; [left|right; auto]. exists x. split; [now left|exact Rx].
Qed.
(** Sums, differences and products come out as if the last bits of the exact result had been
    taken. *)
Theorem C90_wraps : forall types scope e t z, scope_typed types scope -> has_type types e t ->
  sum_of (fun x => option_map snd (scope x)) e z ->
  exists w, eval (machine_arithmetic false) (at_machine scope) e = Some (Whole t w) /\ wraps_to t z w.
Proof.
  intros types scope e t z [T R] H. revert e t H z.
  set (ev := eval (machine_arithmetic false) (at_machine scope)).
  assert (F : forall t z, exists w, fitted false t z = Whole t w /\ wraps_to t z w).
  { intros t z. unfold fitted. destruct (in_rangeb t z) eqn:E.
    - exists z. split; [reflexivity|]. apply in_rangeb_iff in E. split; [exact E|]. exists 0%Z. lia.
    - exists (cast t z). split; [reflexivity|apply cast_wraps]. }
  apply (has_type_rec types (fun e t => forall z, sum_of (fun x => option_map snd (scope x)) e z -> exists w, ev e = Some (Whole t w) /\ wraps_to t z w)
    (fun e t => forall z, sum_of (fun x => option_map snd (scope x)) e z -> exists w, stands t e (ev e) w /\ wraps_to t z w));
    try (intros; match goal with H : sum_of _ (_ _ _) _ |- _ => inversion H end; fail).
  - intros x t H z S. inversion S as [|? ? E| | |]; subst. rewrite T in H. destruct (scope x) as [[u y]|] eqn:X; [|discriminate]. injection H as <-. injection E as <-.
    exists y. unfold ev. cbn [eval]. unfold at_machine. rewrite X. split; [reflexivity|]. split; [now apply (R x)|]. exists 0%Z. cbn. lia.
  - intros o a b t O N D _ Ha _ Hb z S.
    assert (H : forall x y, sum_of (fun x => option_map snd (scope x)) a x -> sum_of (fun x => option_map snd (scope x)) b y -> divides o = false -> shifts o = false ->
              exists v w, wraps_to t x v /\ wraps_to t y w /\ ev (EOp o a b) = calculate false o t v w).
    { intros x y Sx Sy DO SO. destruct (Ha x Sx) as (v & Sv & Wv). destruct (Hb y Sy) as (w & Sw & Ww). exists v, w. split; [exact Wv|]. split; [exact Ww|].
      unfold ev in *. cbn [eval]. pose proof (stands_some _ _ _ _ Sv) as (v' & Ev). pose proof (stands_some _ _ _ _ Sw) as (w' & Ew). rewrite Ev, Ew in *.
      cbn [a_op machine_arithmetic]. apply (machine_calculates false o a b); auto. congruence. }
    inversion S as [| |? ? x y Sx Sy|? ? x y Sx Sy|? ? x y Sx Sy]; subst; destruct (H x y Sx Sy eq_refl eq_refl) as (v & w & [_ (j & ->)] & [_ (k & ->)] & E); rewrite E; cbn [calculate].
    + destruct (F t (v + w)%Z) as (r & -> & W). exists r. split; [reflexivity|]. apply (wraps_same t _ _ _ W). exists (j + k)%Z. lia.
    + destruct (F t (v - w)%Z) as (r & -> & W). exists r. split; [reflexivity|]. apply (wraps_same t _ _ _ W). exists (j - k)%Z. lia.
    + destruct (F t (v * w)%Z) as (r & -> & W). exists r. split; [reflexivity|]. apply (wraps_same t _ _ _ W). exists (v * k + j * w + j * k * imod t)%Z. ring.
  - intros o a b t u O _ _ _ _ z S. destruct O as [<-|[<-|[]]]; inversion S.
  - intros o a n t O _ _ _ z S. destruct O as [<-|[<-|[]]]; inversion S.
  - intros n t Rn z S. inversion S; subst. exists (Z.of_N n). split; [right; split; [now exists n|now split]|]. split; [exact Rn|]. exists 0%Z. lia.
  - intros e t _ He z S. destruct (He z S) as (w & E & W). exists w. split; [now left|exact W].
Qed.

(** ** Numbers in attributes *)

(** In both profiles the decoder takes the number an expression stands for, as [usize]. *)
Theorem C90_number : forall scope text e t z w, (forall x t z, scope x = Some (t, z) -> in_range t z) ->
  reads_as Disjunction text e -> value scope e t z -> wraps_to Usize z w ->
  forall checks, code_value (machine_arithmetic checks) (at_machine scope) (var_code false text) = Some (Whole Usize w).
Proof.
  intros scope text e t z w R T V W checks. rewrite (C66_text _ _ _ _ _ (var_reads _ _ T)).
  apply (C90_exact scope (ECast e (txt "usize")) Usize w R). apply (va_cast scope e t z); [exact V|constructor|exact W].
Qed.
(** The encoder of a struct does what the decoder does, and panics where it does, for
    the expressions it accepts (C66). *)
Theorem C90_encoder : forall checks before after others text v, NoDup (map fst (before ++ after)) -> apart (before ++ after) others ->
  one_field_first (map fst (before ++ after)) text ->
  code_value (machine_arithmetic checks) (decoder_scope before others) (var_code false text) = Some v ->
  code_value (machine_arithmetic checks) (encoder_scope (Members (before ++ after)) others) (var_code true text) = Some v.
Proof.
  intros checks before after others text v ND AP F E.
  assert (S : struct_value (machine_arithmetic checks) (before ++ after) (Members (before ++ after))).
  { constructor; [exact ND| | |reflexivity]; cbn [a_get machine_arithmetic machine_get].
    - intros x w Hi. now rewrite (find_in _ x w ND Hi).
    - intros x Hx. now rewrite (find_not _ x Hx). }
  destruct (C66_struct machine (machine_arithmetic checks) before after _ others text v S AP E) as [[_ X]|[X _]]; [exact X|contradiction].
Qed.

(** ** Structs *)
Definition int_type (t : ty) : option ity := match t with TInt t => Some t | _ => None end.
Definition int_value (v : val) : option Z := match v with VInt z => Some z | _ => None end.
Definition bool_type (t : ty) : bool := match t with TBool => true | _ => false end.
Definition bool_value (v : val) : option bool := match v with VBool b => Some b | _ => None end.
(** Numbers and truth values in scope. *)
Definition seen (scope : bytes -> option (ity * Z)) (flags : bytes -> option bool) (x : bytes) : option machine :=
  match at_machine scope x with Some v => Some v | None => option_map Truth (flags x) end.
Lemma eval_more {V} (A : arithmetic V) s s' e v : (forall x w, s x = Some w -> s' x = Some w) -> eval A s e = Some v -> eval A s' e = Some v.
Proof.
  intros H. revert v. induction e as [n|x|e IH f|e IH t|o a IHa b IHb]; cbn [eval]; intros v; auto.
  - destruct (eval A s e) as [w|]; [|discriminate]. now rewrite (IH w eq_refl).
  - destruct (eval A s e) as [w|]; [|discriminate]. now rewrite (IH w eq_refl).
  - destruct (eval A s a) as [w|]; [|discriminate]. destruct (eval A s b) as [w'|]; [|discriminate]. now rewrite (IHa w eq_refl), (IHb w' eq_refl).
Qed.
Lemma seen_more scope flags x w : at_machine scope x = Some w -> seen scope flags x = Some w.
Proof. unfold seen. now intros ->. Qed.
Lemma variables_seen types fields : (forall x u v, In (x, (u, v)) fields -> types x = Some u) ->
  forall x, variables types (map fst fields) (map (fun f => snd (snd f)) fields) x =
    seen (integers_of int_type int_value fields) (truths_of bool_type bool_value fields) x.
Proof.
  intros HT x. unfold variables, seen, at_machine, integers_of, truths_of.
  assert (X : forall y, bytes_eqb x y = if list_eq_dec Byte.byte_eq_dec x y then true else false).
  { intros y. destruct (list_eq_dec _ x y) as [-> |N]; [apply bytes_eqb_refl|]. destruct (bytes_eqb x y) eqn:E; [|reflexivity]. apply bytes_eqb_eq in E. contradiction. }
  assert (Y : find (fun xv => bytes_eqb x (fst xv)) (combine (map fst fields) (map (fun f => snd (snd f)) fields)) =
              option_map (fun f => (fst f, snd (snd f))) (find (fun f => if list_eq_dec Byte.byte_eq_dec x (fst f) then true else false) fields)).
  { clear HT. induction fields as [|[y [u v]] r IH]; [reflexivity|]. cbn [map combine find fst snd]. rewrite X. destruct (list_eq_dec _ x y); [reflexivity|exact IH]. }
  rewrite Y. match goal with |- context [find ?f fields] => destruct (find f fields) as [[y [u v]]|] eqn:F end; [|reflexivity]. cbn [option_map fst snd].
  apply find_some in F as [I F]. cbn [fst] in F. destruct (list_eq_dec _ x y) as [<-|]; [|discriminate]. rewrite (HT x u v I). destruct u, v; reflexivity.
Qed.
(** The number in an attribute of a derived decoder is the one it stands for. *)
Theorem C90_field : forall types fields text e t z w vars, let scope := integers_of int_type int_value fields in
  (forall x u v, In (x, (u, v)) fields -> types x = Some u) -> (forall x u v, scope x = Some (u, v) -> in_range u v) ->
  reads_as Disjunction text e -> value scope e t z -> wraps_to Usize z w ->
  machine_number types var_code (map fst fields) text (mkenv (map (fun f => snd (snd f)) fields) vars) = w.
Proof.
  intros types fields text e t z w vars scope HT R T V W. unfold machine_number. cbn [ev_fields].
  assert (C : code_value (machine_arithmetic false) (variables types (map fst fields) (map (fun f => snd (snd f)) fields)) (var_code false text) = Some (Whole Usize w)).
  { pose proof (C90_number scope text e t z w R T V W false) as C. rewrite (C66_text _ _ _ _ _ (var_reads _ _ T)). rewrite (C66_text _ _ _ _ _ (var_reads _ _ T)) in C.
    refine (eval_more _ _ _ _ _ _ C). intros y v Hy. rewrite (variables_seen types fields HT). now apply seen_more. }
  now rewrite C.
Qed.
(** The decoder is derived for the type whose numbers are these. *)
Theorem C90_decoder : forall s c l,
  (exists es, first_line ["jbytes"; "repr"]%string (s_container s) es /\ Forall container_entry es /\ Forall own_codec es /\
     decided about_order es (c_order c) /\ decided about_width es (c_byte_count c)) ->
  fields_mean (machine_number (types_of s)) [] (s_fields s) l ->
  exists d fs, machine_decoder s = Some d /\ d_fields d = Some fs /\ d_named d = true /\
    GenDecode.container_of d = c /\ nameless fs = l /\ map n_name fs = map s_name (s_fields s).
Proof.
  intros s c l HC HF. unfold machine_decoder, derived. destruct (container_read _ _ HC) as (ca & -> & EO & EC).
  destruct (fields_read (machine_number (types_of s)) [] (s_fields s) l HF) as (fs & -> & EN & ET & _). rewrite EO.
  eexists _, fs. split; [reflexivity|]. repeat split; cbn [d_fields d_named]; auto.
Qed.

(** [struct Text { len: t, #[jbytes(length = "len - k")] body: Vec<u8> }] *)
Definition text_less (t : ity) (k : bytes) (m : meaning) : source :=
  mksource [] [mksource_field (txt "len") [] m (TInt t);
               mksource_field (txt "body") [jbytes_line [Property (txt "length") (quoted (txt "len - " ++ k))]] m TBytes].
Definition text_less_fields (t : ity) (k : bytes) (m : meaning) : list (fspec * ty) :=
  [(plain, TInt t); (at_length (machine_number (types_of (text_less t k m)) var_code [txt "len"] (txt "len - " ++ k)) plain, TBytes)].
Lemma less_reads k n : decimal_text k n -> reads_as Disjunction (txt "len - " ++ k) (EOp Minus (EName (txt "len")) (ENum n)).
Proof.
  intros D. apply (whole Sum). change (txt "len - " ++ k) with (txt "len " ++ txt "-" ++ " "%byte :: k).
  apply (ra_operation _ _ _ _ _ "-" Sum Sum Product sg_minus).
  - change (txt "len ") with (txt "len" ++ [" "%byte]). apply ra_after, ra_sum, ra_product, ra_atom, ra_name. split; [|discriminate].
    split; [left; vm_compute; split; discriminate|]. repeat (apply Forall_cons; [left; left; vm_compute; split; discriminate|]). apply Forall_nil.
  - apply ra_before, ra_product, ra_atom. now apply ra_number.
Qed.
Lemma less_literal k n : decimal_text k n -> string_literal (quoted (txt "len - " ++ k)) (txt "len - " ++ k).
Proof.
  intros (_ & D & _). assert (Q : forall c, In c (txt "len - " ++ k) -> c <> byte_of 34 /\ c <> byte_of 92).
  { intros c H. apply in_app_iff in H as [H|H]; [vm_compute in H; vm_compute; intuition (subst; discriminate)|].
    rewrite Forall_forall in D. specialize (D c H). split; intros ->; vm_compute in D; destruct D; congruence. }
  split; [|intros H; now apply Q in H]. f_equal. symmetry. apply escaped_plain. intros H. now apply Q in H.
Qed.
Lemma text_less_means t k n m : decimal_text k n ->
  fields_mean (machine_number (types_of (text_less t k m))) [] (s_fields (text_less t k m)) (text_less_fields t k m).
Proof.
  intros D. unfold text_less_fields. set (N := machine_number (types_of (text_less t k m))). unfold text_less. cbn [s_fields].
  set (f := mksource_field (txt "len") [] m (TInt t)). set (g := mksource_field (txt "body") _ m TBytes).
  change (plain, TInt t) with (fold_left (fun spec g => g spec) [] plain, s_type f). apply (fields_more N [] f [g] []).
  - now right.
  - intros (a & [] & _).
  - constructor.
  - easy.
  - change (at_length (N var_code [txt "len"] (txt "len - " ++ k)) plain, TBytes)
      with (fold_left (fun spec g => g spec) [at_length (N var_code [txt "len"] (txt "len - " ++ k))] plain, s_type g).
    apply (fields_more N _ g [] [Property (txt "length") (quoted (txt "len - " ++ k))]).
    + apply this_line. now left.
    + apply no_default.
    + constructor; [|constructor]. apply says_length; [left; reflexivity|].
      change (N var_code [txt "len"] (txt "len - " ++ k)) with (m_number (field_meaning N [txt "len"] g) (txt "len - " ++ k)).
      apply denotes_expression; [now apply (less_literal k n)|]. split; [vm_compute; intuition discriminate|discriminate].
    + intros k' lit [[= <- <-]|[]] K. vm_compute in K. intuition discriminate.
    + constructor.
Qed.
(** A length that comes out negative is not an error: if [len] is smaller than [k], the
    decoder reads on for as many bytes as its type can count, less the difference, without
    overflow checks; with them, it panics. *)
Theorem C90_negative_refuted : forall m t k n len body rest, signed t = false -> (imod t <= 2 ^ 64)%Z -> decimal_text k n ->
  (0 <= len < Z.of_N n)%Z -> (Z.of_N n <= imax t)%Z ->
  Z.of_N (size body) = (imod t - (Z.of_N n - len))%Z -> allocatable ((digits Be (N.to_nat (width_bytes t)) (Z.to_N len) ++ body) ++ rest) ->
  (exists d, machine_decoder (text_less t k m) = Some d /\ struct_compiles d [] = true /\
     run_struct dec d no_cattr ((digits Be (N.to_nat (width_bytes t)) (Z.to_N len) ++ body) ++ rest) 0 =
       Ok (VList [VInt len; VBytes body]) (size (digits Be (N.to_nat (width_bytes t)) (Z.to_N len) ++ body))) /\
  code_value (machine_arithmetic true) (fun x => if bytes_eqb x (txt "len") then Some (Whole t len) else None) (var_code false (txt "len - " ++ k)) = Some Panicked.
Proof.
  intros m t k n len body rest S B D L K SB AL.
  assert (RN : in_range t (Z.of_N n)) by (unfold in_range, imin; rewrite S; lia).
  assert (RL : in_range t len) by (unfold in_range, imin; rewrite S; lia).
  assert (OUT : in_rangeb t (len - Z.of_N n) = false).
  { destruct (in_rangeb t _) eqn:E; [|reflexivity]. apply in_rangeb_iff in E. unfold in_range, imin in E. rewrite S in E. lia. }
  assert (CA : cast t (len - Z.of_N n) = Z.of_N (size body)).
  { apply wraps_cast. split; [|exists (-1)%Z; lia]. unfold in_range, imin, imax in *. rewrite S in *. lia. }
  assert (CU : cast Usize (Z.of_N (size body)) = Z.of_N (size body)).
  { apply cast_id. unfold in_range, imin, imax. cbn [signed]. change (imod Usize) with (2 ^ 64)%Z. lia. }
  split.
  - destruct (C90_decoder (text_less t k m) no_cspec (text_less_fields t k m)) as (d & fs & E & F & NM & C & NL & NN).
    { exists []. split; [right; easy|]. repeat split; try (constructor; fail); apply undecided; easy. }
    { now apply (text_less_means t k n m). }
    exists d. split; [exact E|].
    destruct (C65_compiles d fs [] F) as [KD P].
    { rewrite NN. cbn. repeat constructor; cbn; intuition discriminate. }
    { intros g Hg. apply (in_map n_name) in Hg. rewrite NN in Hg. destruct Hg as [<-|[<-|[]]]; vm_compute; intuition discriminate. }
    { intros _ g Hg. apply (in_map (fun g => (n_spec g, n_type g))) in Hg. change (map _ fs) with (nameless fs) in Hg. rewrite NL in Hg.
      destruct Hg as [[= <- _]|[[= <- _]|[]]]; reflexivity. }
    { now left. }
    split; [exact KD|]. rewrite (C65_struct d fs no_cattr no_fattr _ 0 F KD P). rewrite NM, C, NL.
    set (N := machine_number (types_of (text_less t k m)) var_code [txt "len"] (txt "len - " ++ k)).
    assert (EN : forall vars, N (mkenv [VInt len] vars) = Z.of_N (size body)).
    { intros vars. unfold N, machine_number. cbn [ev_fields]. rewrite (C66_text _ _ _ _ _ (var_reads _ _ (less_reads k n D))).
      cbn [eval a_op a_cast a_num machine_arithmetic]. change (variables _ [txt "len"] [VInt len] (txt "len")) with (Some (Whole t len)).
      cbn [machine_op shifts divides andb]. apply in_rangeb_iff in RN. rewrite RN. cbn [andb negb calculate]. unfold fitted. rewrite OUT, CA. unfold machine_cast.
      change (integer_type (txt "usize")) with (Some Usize). cbn iota beta. now rewrite CU. }
    assert (WI : wire (TStruct true no_cspec (text_less_fields t k m)) no_cattr no_fattr (VList [VInt len; VBytes body]) = Some (digits Be (N.to_nat (width_bytes t)) (Z.to_N len) ++ body)).
    { unfold text_less_fields. fold N. cbn -[digits wire_int N app].
      unfold wire_int. assert (VB : value_inb t len = true). { now apply BitsLemmas.value_inb_range. }
      rewrite VB. cbn -[digits N app]. rewrite !app_nil_r. cbn [app].
      assert (U : unsigned t len = Z.to_N len). { unfold unsigned. f_equal. apply Z.mod_small. clear -RL S. unfold in_range, imin, imax, imod in RL. rewrite S in RL. destruct t; try discriminate S; cbv [isize_of] in RL; cbv [width_bytes]; lia. }
      now rewrite U. }
    assert (FI : fits (TStruct true no_cspec (text_less_fields t k m)) no_cattr no_fattr (VList [VInt len; VBytes body]) rest = true).
    { unfold text_less_fields. fold N. cbn -[digits wire_int N app N.eqb].
      cbn [app]. rewrite EN, Z.eqb_refl, bytes_eqb_refl. unfold as_usize, raw_of_int. change (imod Usize) with (2 ^ 64)%Z. rewrite Z.mod_small by lia. rewrite N2Z.id, N.eqb_refl. reflexivity. }
    assert (WF : well_formed (TStruct true no_cspec (text_less_fields t k m))).
    { unfold text_less_fields. well. }
    apply (C30_round_trip _ _ _ rest WF WI FI AL).
  - rewrite (C66_text _ _ _ _ _ (var_reads _ _ (less_reads k n D))).
    cbn [eval a_op a_cast a_num machine_arithmetic]. change (bytes_eqb (txt "len") (txt "len")) with true. cbn iota beta.
    cbn [machine_op shifts divides andb]. apply in_rangeb_iff in RN. rewrite RN. cbn [andb negb calculate]. unfold fitted. rewrite OUT. reflexivity.
Qed.

(** ** Examples *)
Definition len_is (z : Z) (x : bytes) : option (ity * Z) :=
  if bytes_eqb x (txt "len") then Some (U8, z) else if bytes_eqb x (txt "unit") then Some (U16, 40%Z) else None.
Lemma len_is_in z : in_range U8 z -> forall x t y, len_is z x = Some (t, y) -> in_range t y.
Proof.
  intros R x t y. unfold len_is. destruct (bytes_eqb x _); [intros [= <- <-]; exact R|]. destruct (bytes_eqb x _); [|discriminate].
  intros [= <- <-]. vm_compute. split; discriminate.
Qed.
Definition len_types (x : bytes) : option ity := option_map fst (len_is 0 x).
Lemma len_typed z : in_range U8 z -> scope_typed len_types (len_is z).
Proof.
  intros R. split; [|now apply len_is_in]. intros x. unfold len_types, len_is. destruct (bytes_eqb x _); [reflexivity|]. now destruct (bytes_eqb x _).
Qed.
Lemma u8_in z : (0 <= z < 256)%Z -> in_range U8 z.
Proof. unfold in_range. change (imin U8) with 0%Z. change (imax U8) with 255%Z. lia. Qed.
Lemma four : decimal_text (txt "4") 4.
Proof. repeat split; try discriminate; repeat constructor; discriminate. Qed.
Definition less_four : rexpr := EOp Minus (EName (txt "len")) (ENum 4).
(** [(len as u16 * unit - 4) / 5], with 9 for [len] and 40 for [unit]: 71. *)
Definition part_of : rexpr := EOp Divide (EOp Minus (EOp Times (ECast (EName (txt "len")) (txt "u16")) (EName (txt "unit"))) (ENum 4)) (ENum 5).
Example C90_exact_case : value (len_is 9) part_of U16 71 /\ value (len_is 9) less_four U8 5.
Proof.
  split.
  - apply (va_divide _ _ _ _ 356 5 71 1); [intros [[n H] _]; discriminate H| | |split; [reflexivity|split; [reflexivity|right; reflexivity]]|vm_compute; split; discriminate].
    + apply op_value, (va_op _ Minus _ _ _ 360 4 356); [intros [[n H] _]; discriminate H| | |apply (am_minus 360 4)|vm_compute; split; discriminate].
      * apply op_value, (va_op _ Times _ _ _ 9 40 360); [intros [[n H] _]; discriminate H| | |apply (am_times 9 40)|vm_compute; split; discriminate].
        { apply op_value, (va_cast _ _ U8 9); [now constructor|constructor|]. split; [vm_compute; split; discriminate|exists 0%Z; reflexivity]. }
        apply op_value. now constructor.
      * apply (op_number _ 4). vm_compute. split; discriminate.
    + apply (op_number _ 5). vm_compute. split; discriminate.
  - apply (va_op _ Minus _ _ _ 9 4 5); [intros [[n H] _]; discriminate H| | |apply (am_minus 9 4)|vm_compute; split; discriminate].
    + apply op_value. now constructor.
    + apply (op_number _ 4). vm_compute. split; discriminate.
Qed.
Lemma less_four_type : has_type len_types less_four U8.
Proof.
  apply ht_op; [cbn; tauto|intros [[n H] _]; discriminate H|cbn; intuition discriminate| |].
  - apply ft_type. now constructor.
  - constructor. vm_compute. split; discriminate.
Qed.
(** With 9, [len - 4] is 5; with 2 it is 254, or a panic. *)
Example C90_checked_case : scope_typed len_types (len_is 9) /\ scope_typed len_types (len_is 2) /\ has_type len_types less_four U8 /\
  eval (machine_arithmetic true) (at_machine (len_is 9)) less_four = Some (Whole U8 5) /\
  eval (machine_arithmetic true) (at_machine (len_is 2)) less_four = Some Panicked /\
  eval (machine_arithmetic false) (at_machine (len_is 2)) less_four = Some (Whole U8 254).
Proof.
  split; [apply len_typed, u8_in; lia|]. split; [apply len_typed, u8_in; lia|]. split; [exact less_four_type|].
  split; [reflexivity|]. split; reflexivity.
Qed.
Example C90_wraps_case : sum_of (fun x => option_map snd (len_is 2 x)) less_four (-2) /\ wraps_to U8 (-2) 254.
Proof.
  split; [apply (so_minus _ _ _ 2 4); [now constructor|apply (so_number _ 4)]|]. split; [vm_compute; split; discriminate|exists (-1)%Z; reflexivity].
Qed.
(** Division by a field that is 0 panics, whatever the checks. *)
Example C90_unchecked_case : let e := EOp Divide (ENum 100) (EName (txt "len")) in
  has_type len_types e U8 /\ has_division e /\
  eval (machine_arithmetic false) (at_machine (len_is 0)) e = Some Panicked /\
  eval (machine_arithmetic false) (at_machine (len_is 7)) e = Some (Whole U8 14).
Proof.
  cbv zeta. split; [|split; [left; now left|split; reflexivity]]. apply ht_op; [cbn; tauto|intros [_ [n H]]; discriminate H|discriminate| |].
  - constructor. vm_compute. split; discriminate.
  - apply ft_type. now constructor.
Qed.
Example C90_number_case :
  code_value (machine_arithmetic false) (at_machine (len_is 9)) (var_code false (txt "len - 4")) = Some (Whole Usize 5).
Proof.
  apply (C90_number (len_is 9) (txt "len - 4") less_four U8 5 5).
  - apply len_is_in, u8_in; lia.
  - apply (less_reads (txt "4") 4 four).
  - apply C90_exact_case.
  - split; [vm_compute; split; discriminate|exists 0%Z; reflexivity].
Qed.
Example C90_encoder_case : let fields := [(txt "len", Whole U8 9); (txt "rest", Whole U8 1)] in
  code_value (machine_arithmetic false) (encoder_scope (Members fields) (fun _ => None)) (var_code true (txt "len - 4")) = Some (Whole Usize 5).
Proof.
  cbv zeta. apply (C90_encoder false [(txt "len", Whole U8 9)] [(txt "rest", Whole U8 1)]).
  - repeat constructor; cbn; intuition discriminate.
  - split; [reflexivity|]. split; [cbn; intuition discriminate|reflexivity].
  - eexists _, _. split; [reflexivity|]. split; [cbn; auto|]. intros y [].
  - reflexivity.
Qed.
Example C90_field_case : let types := fun x => option_map TInt (len_types x) in
  machine_number types var_code [txt "len"; txt "unit"] (txt "len - 4") (mkenv [VInt 9; VInt 40] []) = 5%Z /\
  machine_number types var_code [txt "len"; txt "unit"] (txt "len - 4") (mkenv [VInt 2; VInt 40] []) = 254%Z.
Proof.
  cbv zeta. split; [|reflexivity].
  apply (C90_field (fun x => option_map TInt (len_types x)) [(txt "len", (TInt U8, VInt 9)); (txt "unit", (TInt U16, VInt 40))] (txt "len - 4") less_four U8 5 5).
  - intros x u v [[= <- <- <-]|[[= <- <- <-]|[]]]; reflexivity.
  - intros x u v. unfold integers_of. cbn [find fst]. destruct (list_eq_dec _ x _); [intros [= <- <-]; apply u8_in; lia|].
    destruct (list_eq_dec _ x _); [|discriminate]. intros [= <- <-]. vm_compute. split; discriminate.
  - apply (less_reads (txt "4") 4 four).
  - apply (va_op _ Minus _ _ _ 9 4 5); [intros [[n H] _]; discriminate H| | |apply (am_minus 9 4)|vm_compute; split; discriminate].
    + apply op_value. now constructor.
    + apply (op_number _ 4). vm_compute. split; discriminate.
  - split; [vm_compute; split; discriminate|exists 0%Z; reflexivity].
Qed.
Example C90_negative_case m : exists d, machine_decoder (text_less U8 (txt "4") m) = Some d /\ struct_compiles d [] = true /\
  run_struct dec d no_cattr ((digits Be 1 2 ++ repeat x07 254) ++ [x01]) 0 =
    Ok (VList [VInt 2; VBytes (repeat x07 254)]) (size (digits Be 1 2 ++ repeat x07 254)).
Proof.
  assert (N : size (repeat x07 254) = 254) by reflexivity.
  refine (proj1 (C90_negative_refuted m U8 (txt "4") 4 2 (repeat x07 254) [x01] eq_refl _ four _ _ _ _)).
  - vm_compute. discriminate.
  - split; [discriminate|reflexivity].
  - vm_compute. discriminate.
  - rewrite N. reflexivity.
  - vm_compute. reflexivity.
Qed.

Print Assumptions C90_exact.
Print Assumptions C90_checked.
Print Assumptions C90_unchecked.
Print Assumptions C90_wraps.
Print Assumptions C90_number.
Print Assumptions C90_encoder.
Print Assumptions C90_field.
Print Assumptions C90_decoder.
Print Assumptions C90_negative_refuted.
