(** Facts about slices, wrapping arithmetic and byte conversions. *)
From Coq Require Export ZifyBool ZifyNat ZifyN.
From Verif Require Export Base Ints.

Ltac Zify.zify_post_hook ::= Z.div_mod_to_equations.

Global Arguments N.add : simpl never.
Global Arguments N.sub : simpl never.
Global Arguments N.mul : simpl never.
Global Arguments N.modulo : simpl never.
Global Arguments N.div : simpl never.
Global Arguments N.of_nat : simpl never.
Global Arguments N.to_nat : simpl never.
Global Arguments Z.of_N : simpl never.
Global Arguments Z.modulo : simpl never.
Global Arguments Z.div : simpl never.
Global Arguments Z.pow : simpl never.
Global Arguments N.pow : simpl never.

(** Lengths Rust can allocate. *)
Definition small (d : bytes) : Prop := lenN d < W63.

Lemma wadd_small a b : a + b < W64 -> wadd a b = a + b.
Proof. intros H; unfold wadd; apply N.mod_small; exact H. Qed.

Lemma wsub_small a b : b <= a -> a < W64 -> wsub a b = a - b.
Proof.
  intros H1 H2; unfold wsub. rewrite (N.mod_small b) by lia.
  replace (a + W64 - b) with ((a - b) + 1 * W64) by lia.
  rewrite N.mod_add by lia. apply N.mod_small; lia.
Qed.

Lemma lenN_app {A} (a b : list A) : lenN (a ++ b) = lenN a + lenN b.
Proof. unfold lenN; rewrite app_length; lia. Qed.

Lemma lenN_nil {A} : lenN (@nil A) = 0.
Proof. reflexivity. Qed.

Lemma lenN_cons {A} (x : A) l : lenN (x :: l) = 1 + lenN l.
Proof. unfold lenN; cbn [length]; lia. Qed.

Lemma lenN_rev {A} (l : list A) : lenN (rev l) = lenN l.
Proof. unfold lenN; rewrite rev_length; reflexivity. Qed.

Lemma lenN_zeros n : lenN (zeros n) = n.
Proof. unfold lenN, zeros; rewrite repeat_length; lia. Qed.

Lemma lenN_firstn {A} (l : list A) n : n <= lenN l -> lenN (firstn (N.to_nat n) l) = n.
Proof. unfold lenN; intros H; rewrite firstn_length; lia. Qed.

Lemma lenN_skipn {A} (l : list A) n : lenN (skipn (N.to_nat n) l) = lenN l - n.
Proof. unfold lenN; rewrite skipn_length; lia. Qed.

Lemma lenN_0 {A} (l : list A) : lenN l = 0 -> l = [].
Proof. destruct l; [reflexivity|rewrite lenN_cons; lia]. Qed.

Lemma to_nat_lenN {A} (l : list A) : N.to_nat (lenN l) = length l.
Proof. unfold lenN; lia. Qed.

(** The bytes [p .. p+n). *)
Definition sub (d : bytes) (p n : N) : bytes := firstn (N.to_nat n) (skipn (N.to_nat p) d).

Lemma lenN_sub d p n : p + n <= lenN d -> lenN (sub d p n) = n.
Proof. intros H; unfold sub; apply lenN_firstn; rewrite lenN_skipn; lia. Qed.

Lemma sub_app pre v rest : sub (pre ++ v ++ rest) (lenN pre) (lenN v) = v.
Proof.
  unfold sub; rewrite !to_nat_lenN, skipn_app, skipn_all, Nat.sub_diag.
  cbn [skipn app]. rewrite firstn_app, firstn_all, Nat.sub_diag. cbn. apply app_nil_r.
Qed.

Lemma sub_0 d p : sub d p 0 = [].
Proof. reflexivity. Qed.

Lemma slice_get_ok d a b : a <= b -> b <= lenN d -> slice_get d a b = Some (sub d a (b - a)).
Proof.
  intros H1 H2; unfold slice_get, sub.
  destruct (N.leb_spec a b); [|lia]. destruct (N.leb_spec b (lenN d)); [|lia]. reflexivity.
Qed.

Lemma slice_get_none {A} (d : list A) a b : b < a \/ lenN d < b -> slice_get d a b = None.
Proof.
  intros H; unfold slice_get.
  destruct (N.leb_spec a b); destruct (N.leb_spec b (lenN d)); cbn; try reflexivity; lia.
Qed.

Lemma slice_get_from_ok {A} (d : list A) a : a <= lenN d -> slice_get_from d a = Some (skipn (N.to_nat a) d).
Proof. intros H; unfold slice_get_from; destruct (N.leb_spec a (lenN d)); [reflexivity|lia]. Qed.
Lemma slice_get_from_none {A} (d : list A) a : lenN d < a -> slice_get_from d a = None.
Proof. intros H; unfold slice_get_from; destruct (N.leb_spec a (lenN d)); [lia|reflexivity]. Qed.
Lemma slice_get_to_ok {A} (d : list A) a : a <= lenN d -> slice_get_to d a = Some (firstn (N.to_nat a) d).
Proof. intros H; unfold slice_get_to; destruct (N.leb_spec a (lenN d)); [reflexivity|lia]. Qed.
Lemma slice_get_to_none {A} (d : list A) a : lenN d < a -> slice_get_to d a = None.
Proof. intros H; unfold slice_get_to; destruct (N.leb_spec a (lenN d)); [lia|reflexivity]. Qed.

Lemma firstn_skipn_split {A} (d : list A) (a b : nat) :
  firstn (a + b) d = firstn a d ++ firstn b (skipn a d).
Proof.
  revert d; induction a as [|a IH]; intros [|x d]; cbn; try reflexivity.
  - rewrite firstn_nil; reflexivity.
  - rewrite IH; reflexivity.
Qed.

Lemma skipn_add {A} (d : list A) (a b : nat) : skipn (a + b) d = skipn b (skipn a d).
Proof.
  revert d; induction a as [|a IH]; intros [|x d]; cbn; try reflexivity.
  - rewrite skipn_nil; reflexivity.
  - apply IH.
Qed.

Lemma sub_split d p n m : sub d p (n + m) = sub d p n ++ sub d (p + n) m.
Proof.
  unfold sub. rewrite N2Nat.inj_add, firstn_skipn_split. f_equal.
  rewrite N2Nat.inj_add, skipn_add. reflexivity.
Qed.

(** ** Byte equality *)
Lemma byte_eqb_eq a b : byte_eqb a b = true <-> a = b.
Proof.
  unfold byte_eqb; split.
  - intros H; apply Byte.byte_dec_bl; exact H.
  - intros ->; apply Byte.byte_dec_lb; reflexivity.
Qed.

Lemma bytes_eqb_eq a b : bytes_eqb a b = true <-> a = b.
Proof.
  revert b; induction a as [|x a IH]; intros [|y b]; cbn; try (split; congruence).
  rewrite andb_true_iff, byte_eqb_eq, IH; split; [intros [-> ->]; reflexivity|].
  intros H; injection H; auto.
Qed.

Lemma bytes_eqb_refl a : bytes_eqb a a = true.
Proof. apply bytes_eqb_eq; reflexivity. Qed.

Lemma starts_with_iff p l : starts_with p l = true <-> exists r, l = p ++ r.
Proof.
  revert l; induction p as [|x p IH]; intros l; cbn.
  - split; [intros _; exists l; reflexivity|reflexivity].
  - destruct l as [|y l]; cbn.
    + split; [discriminate|intros [r Hr]; discriminate].
    + rewrite andb_true_iff, byte_eqb_eq, IH; split.
      * intros [-> [r ->]]; exists r; reflexivity.
      * intros [r Hr]; injection Hr; intros; subst; split; [reflexivity|exists r; reflexivity].
Qed.

Lemma starts_with_app p r : starts_with p (p ++ r) = true.
Proof. apply starts_with_iff; exists r; reflexivity. Qed.

(** ** Bytes as numbers *)
Lemma b2n_lt b : b2n b < 256.
Proof. unfold b2n; pose proof (Byte.to_N_bounded b); lia. Qed.

Lemma n2b_b2n b : n2b (b2n b) = b.
Proof.
  unfold n2b. rewrite N.mod_small by apply b2n_lt.
  unfold b2n; rewrite Byte.of_to_N; reflexivity.
Qed.

Lemma b2n_n2b v : b2n (n2b v) = v mod 256.
Proof.
  unfold n2b, b2n.
  destruct (Byte.of_N (v mod 256)) as [b|] eqn:E.
  - apply Byte.to_of_N in E; exact E.
  - apply Byte.of_N_None_iff in E. pose proof (N.mod_lt v 256); lia.
Qed.

Lemma n2b_mod v : n2b (v mod 256) = n2b v.
Proof. unfold n2b; rewrite N.mod_mod by lia; reflexivity. Qed.

Lemma b2n_inj a b : b2n a = b2n b -> a = b.
Proof. intros H; rewrite <- (n2b_b2n a), H; apply n2b_b2n. Qed.

Lemma to_le_length n v : length (to_le n v) = n.
Proof. revert v; induction n as [|n IH]; intros v; cbn; [reflexivity|rewrite IH; reflexivity]. Qed.
Lemma to_be_length n v : length (to_be n v) = n.
Proof. unfold to_be; rewrite rev_length; apply to_le_length. Qed.
Lemma to_bytes_length bo n v : length (to_bytes bo n v) = n.
Proof. destruct bo; cbn; [apply to_be_length|apply to_le_length]. Qed.
Lemma to_bytes_lenN bo n v : lenN (to_bytes bo n v) = N.of_nat n.
Proof. unfold lenN; rewrite to_bytes_length; reflexivity. Qed.

Lemma pow256_S n : 256 ^ N.of_nat (S n) = 256 * 256 ^ N.of_nat n.
Proof. rewrite Nat2N.inj_succ, N.pow_succ_r'; reflexivity. Qed.
Lemma pow256_pos n : 0 < 256 ^ n.
Proof. apply N.neq_0_lt_0, N.pow_nonzero; lia. Qed.

Lemma le_val_lt l : le_val l < 256 ^ lenN l.
Proof.
  unfold lenN; induction l as [|b l IH]; cbn [le_val length]; [cbn; lia|].
  rewrite pow256_S. pose proof (b2n_lt b). lia.
Qed.
Lemma be_val_lt l : be_val l < 256 ^ lenN l.
Proof. unfold be_val; rewrite <- (lenN_rev l); apply le_val_lt. Qed.
Lemma from_bytes_lt bo l : from_bytes bo l < 256 ^ lenN l.
Proof. destruct bo; cbn; [apply be_val_lt|apply le_val_lt]. Qed.

Lemma mod_mul_split a b c : b <> 0 -> c <> 0 -> a mod (b * c) = a mod b + b * ((a / b) mod c).
Proof. intros; apply N.mod_mul_r; assumption. Qed.

Lemma le_val_to_le n v : le_val (to_le n v) = v mod 256 ^ N.of_nat n.
Proof.
  revert v; induction n as [|n IH]; intros v; cbn [to_le le_val].
  - change (256 ^ N.of_nat 0) with 1. rewrite N.mod_1_r; reflexivity.
  - rewrite IH, b2n_n2b, pow256_S, mod_mul_split; [reflexivity|lia|].
    pose proof (pow256_pos (N.of_nat n)); lia.
Qed.
Lemma from_to_bytes bo n v : from_bytes bo (to_bytes bo n v) = v mod 256 ^ N.of_nat n.
Proof.
  destruct bo; cbn; [unfold be_val, to_be; rewrite rev_involutive|]; apply le_val_to_le.
Qed.

Lemma to_le_le_val l : to_le (length l) (le_val l) = l.
Proof.
  induction l as [|b l IH]; cbn [to_le le_val length]; [reflexivity|].
  pose proof (b2n_lt b). f_equal.
  - rewrite <- (n2b_b2n b) at 2. rewrite <- (n2b_mod (_ + _)).
    f_equal. lia.
  - replace ((b2n b + 256 * le_val l) / 256) with (le_val l); [exact IH|].
    symmetry; rewrite N.mul_comm, N.div_add by lia. rewrite N.div_small by lia. lia.
Qed.
Lemma to_from_bytes bo l : to_bytes bo (length l) (from_bytes bo l) = l.
Proof.
  destruct bo; cbn; [|apply to_le_le_val].
  unfold to_be, be_val. rewrite <- (rev_length l), to_le_le_val, rev_involutive; reflexivity.
Qed.

Lemma le_val_app a b : le_val (a ++ b) = le_val a + 256 ^ lenN a * le_val b.
Proof.
  unfold lenN; induction a as [|x a IH]; cbn [app le_val length].
  - change (256 ^ N.of_nat 0) with 1; lia.
  - rewrite IH, pow256_S; lia.
Qed.
Lemma le_val_zeros n : le_val (zeros n) = 0.
Proof. unfold zeros; induction (N.to_nat n) as [|k IH]; cbn; [reflexivity|rewrite IH; reflexivity]. Qed.
Lemma rev_zeros n : rev (zeros n) = zeros n.
Proof.
  unfold zeros; induction (N.to_nat n) as [|k IH]; [reflexivity|].
  change (repeat x00 (S k)) with (x00 :: repeat x00 k) at 1. cbn [rev]. rewrite IH.
  change [x00] with (repeat x00 1). rewrite <- repeat_app, Nat.add_1_r. reflexivity.
Qed.
Lemma be_val_zeros_app n l : be_val (zeros n ++ l) = be_val l.
Proof.
  unfold be_val. rewrite rev_app_distr, rev_zeros, le_val_app, le_val_zeros. lia.
Qed.
Lemma le_val_app_zeros n l : le_val (l ++ zeros n) = le_val l.
Proof. rewrite le_val_app, le_val_zeros; lia. Qed.

Lemma to_le_mod n v : to_le n (v mod 256 ^ N.of_nat n) = to_le n v.
Proof.
  rewrite <- le_val_to_le. rewrite <- (to_le_length n v) at 1. apply to_le_le_val.
Qed.
Lemma to_bytes_mod bo n v : to_bytes bo n (v mod 256 ^ N.of_nat n) = to_bytes bo n v.
Proof. destruct bo; cbn; unfold to_be; rewrite to_le_mod; reflexivity. Qed.

(** Truncated images of a wider integer. *)
Lemma firstn_to_le n m v : (n <= m)%nat -> firstn n (to_le m v) = to_le n v.
Proof.
  revert m v; induction n as [|n IH]; intros [|m] v H; cbn; try reflexivity; try lia.
  rewrite IH by lia; reflexivity.
Qed.
Lemma skipn_to_be n m v : (n <= m)%nat -> skipn (m - n) (to_be m v) = to_be n v.
Proof.
  intros H; unfold to_be. rewrite skipn_rev, to_le_length.
  replace (m - (m - n))%nat with n by lia. rewrite firstn_to_le by exact H. reflexivity.
Qed.

(** ** Integer types *)
Lemma imod_pos t : (0 < imod t)%Z.
Proof. destruct t; reflexivity. Qed.
Lemma imod_even t : (imod t = 2 * (imod t / 2))%Z.
Proof. destruct t; reflexivity. Qed.
Lemma imod_pow256 t : Z.of_N (256 ^ sizeN t) = imod t.
Proof. destruct t; reflexivity. Qed.

Lemma raw_lt t z : raw_of_int t z < 256 ^ sizeN t.
Proof.
  unfold raw_of_int. pose proof (imod_pow256 t). pose proof (imod_pos t).
  pose proof (Z.mod_pos_bound z (imod t) ltac:(lia)). lia.
Qed.

Lemma int_of_raw_of_int t z : in_range t z -> int_of_raw t (raw_of_int t z) = z.
Proof.
  unfold in_range, imin, imax, int_of_raw, raw_of_int; intros H.
  pose proof (imod_pos t) as Hp. pose proof (imod_even t) as He.
  pose proof (Z.mod_pos_bound z (imod t) Hp) as Hb.
  rewrite Z2N.id by lia.
  destruct (signed t); cbn [andb].
  - destruct (Z.leb_spec (imod t / 2) (z mod imod t)).
    + destruct (Z_lt_le_dec z 0) as [Hz|Hz].
      * rewrite <- (Z.mod_add z 1 (imod t)) in * by lia.
        rewrite Z.mod_small in * by lia. lia.
      * rewrite Z.mod_small in * by lia. lia.
    + destruct (Z_lt_le_dec z 0) as [Hz|Hz].
      * rewrite <- (Z.mod_add z 1 (imod t)) in * by lia.
        rewrite Z.mod_small in * by lia. lia.
      * rewrite Z.mod_small in * by lia. lia.
  - apply Z.mod_small; lia.
Qed.

Lemma int_of_raw_range t u : u < 256 ^ sizeN t -> in_range t (int_of_raw t u).
Proof.
  intros H. unfold in_range, imin, imax, int_of_raw.
  pose proof (imod_pow256 t). pose proof (imod_even t) as He. pose proof (imod_pos t).
  destruct (signed t); cbn [andb].
  - destruct (Z.leb_spec (imod t / 2) (Z.of_N u)); lia.
  - lia.
Qed.

Lemma raw_of_int_of_raw t u : u < 256 ^ sizeN t -> raw_of_int t (int_of_raw t u) = u.
Proof.
  intros H. unfold int_of_raw, raw_of_int.
  pose proof (imod_pow256 t). pose proof (imod_pos t).
  destruct (signed t && (imod t / 2 <=? Z.of_N u)%Z).
  - replace (Z.of_N u - imod t)%Z with (Z.of_N u + (-1) * imod t)%Z by lia.
    rewrite Z.mod_add by lia. rewrite Z.mod_small by lia. lia.
  - rewrite Z.mod_small by lia. lia.
Qed.

Lemma cast_id t z : in_range t z -> cast t z = z.
Proof. apply int_of_raw_of_int. Qed.
Lemma cast_range t z : in_range t (cast t z).
Proof. apply int_of_raw_range, raw_lt. Qed.

Lemma in_rangeb_iff t z : in_rangeb t z = true <-> in_range t z.
Proof. unfold in_rangeb, in_range; rewrite andb_true_iff, !Z.leb_le; reflexivity. Qed.
