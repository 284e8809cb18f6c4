(** Bit fields: the shift loops of the integer codecs compute [placed] and [under]. *)
From Verif Require Import Base Ints Reader Writer Schema Decode Encode Spec SpecOps WireSpec.
From Verif Require Import BaseLemmas ReaderLemmas WriterLemmas.

Lemma unsigned_cast t z : is_signed t = false -> cast t z = (z mod imod t)%Z.
Proof.
  intros H. rewrite is_signed_signed in H. unfold cast, int_of_raw, raw_of_int. rewrite H. cbn [andb].
  pose proof (imod_pos t). pose proof (Z.mod_pos_bound z (imod t) ltac:(lia)). lia.
Qed.
Lemma imod_width t : imod t = (2 ^ (8 * Z.of_N (width_bytes t)))%Z.
Proof. destruct t; reflexivity. Qed.
Lemma imod_256 t : imod t = Z.of_N (256 ^ width_bytes t).
Proof. rewrite width_sizeN, imod_pow256. reflexivity. Qed.

Lemma iter_S {A} (f : A -> A) n x : Nat.iter (S n) f x = f (Nat.iter n f x).
Proof. reflexivity. Qed.
Lemma iter_succ_r {A} (f : A -> A) n : forall x, Nat.iter (S n) f x = Nat.iter n f (f x).
Proof. induction n as [|n IH]; intros x; [reflexivity|].
  rewrite iter_S, IH, iter_S. reflexivity. Qed.

Lemma even_xI q : Z.even (Zpos (xI q)) = false. Proof. reflexivity. Qed.
Lemma even_xO q : Z.even (Zpos (xO q)) = true. Proof. reflexivity. Qed.
Lemma shiftr_xO q : Z.shiftr (Zpos (xO q)) 1 = Zpos q. Proof. reflexivity. Qed.

Lemma iter_up_odd t n v b : Z.even b = false -> Nat.iter n (bits_up t) (v, b) = (v, b).
Proof. intros H. induction n as [|n IH]; [reflexivity|]. rewrite iter_S, IH. cbn [bits_up]. rewrite H. reflexivity. Qed.
Lemma iter_down_odd n v b : Z.even b = false -> Nat.iter n bits_down (v, b) = (v, b).
Proof. intros H. induction n as [|n IH]; [reflexivity|]. rewrite iter_S, IH. cbn [bits_down]. rewrite H. reflexivity. Qed.

Lemma iter_up t p : is_signed t = false -> forall n v, (0 <= v < imod t)%Z -> (N.to_nat (low_zeros p) <= n)%nat ->
  fst (Nat.iter n (bits_up t) (v, Zpos p)) = ((v * 2 ^ Z.of_N (low_zeros p)) mod imod t)%Z.
Proof.
  intros Ht. pose proof (imod_pos t) as HM.
  induction p as [q IH|q IH|]; intros n v Hv Hn.
  - rewrite iter_up_odd by apply even_xI. cbn [low_zeros fst]. change (2 ^ Z.of_N 0)%Z with 1%Z.
    rewrite Z.mul_1_r, Z.mod_small; lia.
  - destruct n as [|n]; [cbn [low_zeros] in Hn; lia|].
    rewrite iter_succ_r. cbn [bits_up]. rewrite even_xO, shiftr_xO.
    rewrite unsigned_cast by exact Ht.
    rewrite IH; [|apply Z.mod_pos_bound; lia|cbn [low_zeros] in Hn; lia].
    cbn [low_zeros]. rewrite N2Z.inj_add. change (Z.of_N 1) with 1%Z.
    rewrite Z.shiftl_mul_pow2 by lia. rewrite Z.mul_mod_idemp_l by lia.
    rewrite Z.pow_add_r by lia. f_equal. lia.
  - rewrite iter_up_odd by reflexivity. cbn [low_zeros fst]. change (2 ^ Z.of_N 0)%Z with 1%Z.
    rewrite Z.mul_1_r, Z.mod_small; lia.
Qed.
Lemma iter_down p : forall n v, (N.to_nat (low_zeros p) <= n)%nat ->
  fst (Nat.iter n bits_down (v, Zpos p)) = (v / 2 ^ Z.of_N (low_zeros p))%Z.
Proof.
  induction p as [q IH|q IH|]; intros n v Hn.
  - rewrite iter_down_odd by apply even_xI. cbn [low_zeros fst]. change (2 ^ Z.of_N 0)%Z with 1%Z.
    rewrite Z.div_1_r; reflexivity.
  - destruct n as [|n]; [cbn [low_zeros] in Hn; lia|].
    rewrite iter_succ_r. cbn [bits_down]. rewrite even_xO, shiftr_xO.
    rewrite IH by (cbn [low_zeros] in Hn; lia).
    cbn [low_zeros]. rewrite N2Z.inj_add. change (Z.of_N 1) with 1%Z.
    rewrite Z.shiftr_div_pow2 by lia. rewrite Z.div_div, <- Z.pow_add_r by lia. reflexivity.
  - rewrite iter_down_odd by reflexivity. cbn [low_zeros fst]. change (2 ^ Z.of_N 0)%Z with 1%Z.
    rewrite Z.div_1_r; reflexivity.
Qed.
Lemma low_zeros_le p : 2 ^ low_zeros p <= Npos p.
Proof.
  induction p as [q IH|q IH|]; cbn [low_zeros].
  - change (2 ^ 0) with 1. lia.
  - rewrite N.pow_add_r. change (2 ^ 1) with 2. lia.
  - change (2 ^ 0) with 1. lia.
Qed.
Lemma low_zeros_lt p t : Npos p < 256 ^ width_bytes t -> (N.to_nat (low_zeros p) <= 8 * isize_of t)%nat.
Proof.
  intros H. pose proof (low_zeros_le p) as HL.
  assert (low_zeros p < 8 * width_bytes t).
  { apply N.pow_lt_mono_r_iff with (a := 2); [lia|].
    replace (2 ^ (8 * width_bytes t)) with (256 ^ width_bytes t); [lia|].
    rewrite N.pow_mul_r. reflexivity. }
  rewrite width_sizeN in H0. unfold sizeN in H0. lia.
Qed.

Lemma mask_ok_inv t mask : mask_ok t mask = true ->
  is_signed t = false /\ exists p, mask = Npos p /\ mask < 256 ^ width_bytes t.
Proof.
  unfold mask_ok. rewrite !andb_true_iff, negb_true_iff, !N.ltb_lt. intros [[H1 H2] H3].
  split; [exact H1|]. destruct mask as [|p]; [lia|]. exists p; auto.
Qed.
Lemma cast_mask t mask : is_signed t = false -> mask < 256 ^ width_bytes t -> cast t (Z.of_N mask) = Z.of_N mask.
Proof.
  intros Ht Hm. rewrite unsigned_cast by exact Ht. apply Z.mod_small. rewrite imod_256. lia.
Qed.
Lemma value_inb_range t z : value_inb t z = true <-> in_range t z.
Proof.
  rewrite <- value_in_range. unfold value_inb, value_in.
  destruct (is_signed t); rewrite andb_true_iff, Z.leb_le, Z.ltb_lt; reflexivity.
Qed.
Lemma unsigned_range t z : is_signed t = false -> (in_range t z <-> (0 <= z < imod t)%Z).
Proof.
  intros H. rewrite is_signed_signed in H. unfold in_range, imin, imax. rewrite H. lia.
Qed.

Lemma bits_place_placed t mask z : mask_ok t mask = true -> in_range t z ->
  bits_place t mask z = Z.of_N (placed t mask z).
Proof.
  intros Hm Hz. destruct (mask_ok_inv _ _ Hm) as (Ht & p & -> & Hlt).
  apply (unsigned_range t z Ht) in Hz.
  unfold bits_place. rewrite cast_mask by assumption.
  change (Z.of_N (Npos p)) with (Zpos p).
  rewrite iter_up; [|exact Ht|exact Hz|apply low_zeros_lt; exact Hlt].
  unfold placed. cbn [lowest]. rewrite N2Z.inj_mod, N2Z.inj_mul, Z2N.id, N2Z.inj_pow, <- imod_256 by lia.
  reflexivity.
Qed.
Lemma placed_lt t mask z : placed t mask z < 256 ^ width_bytes t.
Proof. unfold placed. apply N.mod_lt. pose proof (pow256_pos (width_bytes t)). lia. Qed.

Lemma bits_extract_under t mask v : mask_ok t mask = true ->
  bits_extract t mask (Z.of_N v) = Z.of_N (under mask v).
Proof.
  intros Hm. destruct (mask_ok_inv _ _ Hm) as (Ht & p & -> & Hlt).
  unfold bits_extract. rewrite cast_mask by assumption.
  change (Z.of_N (Npos p)) with (Zpos p).
  rewrite iter_down by (apply low_zeros_lt; exact Hlt).
  unfold under. cbn [lowest]. rewrite N2Z.inj_div, N2Z.inj_pow. change (Z.of_N 2) with 2%Z.
  f_equal. destruct v; reflexivity.
Qed.

Lemma lor_lt a b n : a < 256 ^ n -> b < 256 ^ n -> N.lor a b < 256 ^ n.
Proof.
  replace (256 ^ n) with (2 ^ (8 * n)) by (rewrite N.pow_mul_r; reflexivity).
  intros Ha Hb.
  destruct (N.eq_dec (N.lor a b) 0) as [->|Hnz]; [apply N.neq_0_lt_0, N.pow_nonzero; lia|].
  apply N.log2_lt_pow2; [lia|]. rewrite N.log2_lor.
  assert (8 * n <> 0) by (intros E; rewrite E in *; change (2 ^ 0) with 1 in *;
    replace a with 0 in Hnz by lia; replace b with 0 in Hnz by lia; apply Hnz; reflexivity).
  apply N.max_lub_lt.
  - destruct (N.eq_dec a 0) as [->|]; [change (N.log2 0) with 0; lia|apply N.log2_lt_pow2; lia].
  - destruct (N.eq_dec b 0) as [->|]; [change (N.log2 0) with 0; lia|apply N.log2_lt_pow2; lia].
Qed.
Lemma lor_of_N a b : Z.lor (Z.of_N a) (Z.of_N b) = Z.of_N (N.lor a b).
Proof. destruct a, b; reflexivity. Qed.
