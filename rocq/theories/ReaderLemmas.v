(** Facts about the reader primitives. *)
From Verif Require Export BaseLemmas Reader Spec.

(** ** The specification's numbers agree with the model's *)
Lemma le_number_cons b l : le_number (b :: l) = b2n b + 256 * le_number l.
Proof.
  unfold le_number. cbn [length seq map sumN fold_right].
  unfold byte_at at 1; cbn [nth]. change (256 ^ N.of_nat 0) with 1.
  rewrite N.mul_1_r. fold (b2n b). f_equal.
  rewrite <- seq_shift, map_map.
  generalize (seq 0 (length l)) as s; induction s as [|i s IH]; [reflexivity|].
  cbn [map sumN fold_right]. fold sumN. unfold sumN in IH. rewrite IH.
  unfold byte_at at 1; cbn [nth]. fold (byte_at l i).
  rewrite pow256_S. unfold sumN. lia.
Qed.

Lemma le_number_val l : le_number l = le_val l.
Proof. induction l as [|b l IH]; [reflexivity|]. rewrite le_number_cons, IH; reflexivity. Qed.

Lemma be_number_app l b : be_number (l ++ [b]) = b2n b + 256 * be_number l.
Proof.
  unfold be_number. rewrite app_length; cbn [length]. rewrite Nat.add_1_r, seq_S, map_app.
  assert (Hs : forall a c, sumN (a ++ c) = sumN a + sumN c).
  { intros a c; unfold sumN; induction a as [|x a IH]; cbn; [lia|rewrite IH; lia]. }
  rewrite Hs. cbn [map sumN fold_right plus].
  replace (S (length l) - 1 - length l)%nat with O by lia.
  change (256 ^ N.of_nat 0) with 1.
  unfold byte_at at 2. rewrite app_nth2, Nat.sub_diag by lia. cbn [nth].
  fold (b2n b).
  assert (Hm : sumN (map (fun i => byte_at (l ++ [b]) i * 256 ^ N.of_nat (S (length l) - 1 - i)) (seq 0 (length l)))
             = 256 * sumN (map (fun i => byte_at l i * 256 ^ N.of_nat (length l - 1 - i)) (seq 0 (length l)))).
  { assert (Hin : forall i, In i (seq 0 (length l)) -> (i < length l)%nat)
      by (intros i Hi; apply in_seq in Hi; lia).
    revert Hin. generalize (seq 0 (length l)) as s; induction s as [|i s IH]; intros Hin; [reflexivity|].
    cbn [map]. unfold sumN in *; cbn [fold_right]. rewrite IH by (intros; apply Hin; right; assumption).
    assert (i < length l)%nat by (apply Hin; left; reflexivity).
    unfold byte_at at 1. rewrite app_nth1 by lia. fold (byte_at l i).
    replace (S (length l) - 1 - i)%nat with (S (length l - 1 - i)) by lia.
    rewrite pow256_S. lia. }
  rewrite Hm. unfold sumN; cbn [fold_right]. lia.
Qed.

Lemma be_number_val l : be_number l = be_val l.
Proof.
  unfold be_val. rewrite <- (rev_involutive l) at 1.
  induction (rev l) as [|b r IH]; [reflexivity|].
  cbn [rev]. rewrite be_number_app, IH; reflexivity.
Qed.

Lemma number_from_bytes bo l : number bo l = from_bytes bo l.
Proof. destruct bo; cbn; [apply be_number_val|apply le_number_val]. Qed.

Lemma width_sizeN t : width_bytes t = sizeN t.
Proof. destruct t; reflexivity. Qed.
Lemma is_signed_signed t : is_signed t = signed t.
Proof. destruct t; reflexivity. Qed.

Lemma value_in_range t z : value_in t z <-> in_range t z.
Proof.
  unfold value_in, in_range, imin, imax, imod. rewrite is_signed_signed, width_sizeN.
  destruct t; cbn -[Z.pow Z.le Z.lt]; unfold sizeN; cbn -[Z.pow Z.le Z.lt].
  all: match goal with |- context [(2 ^ ?x)%Z] => idtac end.
  all: repeat match goal with |- context [(2 ^ ?x)%Z] =>
         let v := eval vm_compute in (2 ^ x)%Z in change (2 ^ x)%Z with v end; cbn; lia.
Qed.

Lemma int_number_eq bo t l : int_number bo t l = int_of_raw t (from_bytes bo l).
Proof.
  unfold int_number, int_of_raw. rewrite is_signed_signed, number_from_bytes, width_sizeN.
  destruct (signed t) eqn:E; [|reflexivity]. cbn [andb].
  unfold twos_complement, imod.
  replace (8 * Z.of_nat (isize_of t))%Z with (8 * Z.of_N (sizeN t))%Z
    by (unfold sizeN; lia).
  assert (H2 : (2 ^ (8 * Z.of_N (sizeN t)) / 2 = 2 ^ (8 * Z.of_N (sizeN t) - 1))%Z)
    by (destruct t; reflexivity).
  rewrite H2.
  destruct (Z.ltb_spec (Z.of_N (from_bytes bo l)) (2 ^ (8 * Z.of_N (sizeN t) - 1))),
           (Z.leb_spec (2 ^ (8 * Z.of_N (sizeN t) - 1)) (Z.of_N (from_bytes bo l)));
    try reflexivity; lia.
Qed.

(** ** Reading bytes *)
Lemma remaining_in d p : p <= lenN d -> remaining d p = skipn (N.to_nat p) d.
Proof. intros H; unfold remaining; rewrite slice_get_from_ok by exact H; reflexivity. Qed.
Lemma remaining_out d p : lenN d < p -> remaining d p = [].
Proof. intros H; unfold remaining; rewrite slice_get_from_none by exact H; reflexivity. Qed.
Lemma remaining_len_eq d p : remaining_len d p = lenN d - p.
Proof.
  unfold remaining_len. destruct (N.le_gt_cases p (lenN d)).
  - rewrite remaining_in, lenN_skipn by assumption; reflexivity.
  - rewrite remaining_out by assumption. rewrite lenN_nil; lia.
Qed.

Lemma remaining_app pre l : remaining (pre ++ l) (lenN pre) = l.
Proof.
  rewrite remaining_in by (rewrite lenN_app; lia).
  rewrite to_nat_lenN, skipn_app, skipn_all, Nat.sub_diag; reflexivity.
Qed.

Lemma take_bytes_in d p n : small d -> p + n <= lenN d ->
  take_bytes n d p = Ok (sub d p n) (p + n).
Proof.
  unfold small; intros Hs H; unfold take_bytes. rewrite remaining_len_eq.
  destruct (N.ltb_spec (lenN d - p) n); [lia|].
  rewrite wadd_small by lia. rewrite wsub_small by lia.
  rewrite slice_get_ok by lia.
  replace (p + n - (p + n - n)) with n by lia. replace (p + n - n) with p by lia. reflexivity.
Qed.

Lemma take_bytes_out d p n : lenN d < p + n -> 0 < n \/ p <= lenN d ->
  take_bytes n d p = Err (mkerr p InvalidByteLength) p.
Proof.
  intros H H2; unfold take_bytes. rewrite remaining_len_eq.
  destruct (N.ltb_spec (lenN d - p) n); [reflexivity|lia].
Qed.

(** Past the end, an empty read panics. *)
Lemma take_bytes_panic d p : small d -> p < W64 -> lenN d < p -> take_bytes 0 d p = Panic.
Proof.
  unfold small; intros Hs Hp H; unfold take_bytes. rewrite remaining_len_eq.
  destruct (N.ltb_spec (lenN d - p) 0); [lia|].
  rewrite wadd_small by lia. rewrite wsub_small by lia.
  rewrite slice_get_none by lia. reflexivity.
Qed.

Lemma take_bytes_app pre v rest : small (pre ++ v ++ rest) ->
  take_bytes (lenN v) (pre ++ v ++ rest) (lenN pre) = Ok v (lenN pre + lenN v).
Proof.
  intros Hs. rewrite take_bytes_in; [|exact Hs|rewrite !lenN_app; lia].
  rewrite sub_app; reflexivity.
Qed.

Lemma untake_bytes_in d p n : small d -> p + n <= lenN d ->
  untake_bytes n d p = Ok (sub d p n) p.
Proof.
  unfold small; intros Hs H; unfold untake_bytes, slice_ok. rewrite remaining_len_eq.
  destruct (N.ltb_spec (lenN d - p) n); [lia|].
  rewrite wadd_small by lia. rewrite slice_get_ok by lia.
  replace (p + n - p) with n by lia. reflexivity.
Qed.
Lemma untake_bytes_out d p n : lenN d < p + n -> 0 < n \/ p <= lenN d ->
  untake_bytes n d p = Err (mkerr p InvalidByteLength) p.
Proof.
  intros H H2; unfold untake_bytes. rewrite remaining_len_eq.
  destruct (N.ltb_spec (lenN d - p) n); [reflexivity|lia].
Qed.
Lemma untake_bytes_panic d p : small d -> p < W64 -> lenN d < p -> untake_bytes 0 d p = Panic.
Proof.
  unfold small; intros Hs Hp H; unfold untake_bytes, slice_ok. rewrite remaining_len_eq.
  destruct (N.ltb_spec (lenN d - p) 0); [lia|].
  rewrite wadd_small by lia. rewrite slice_get_none by lia. reflexivity.
Qed.

(** [untake m m']: [m'] is [m] without the move. *)
Definition unmoved {A} (r : res N A) (p : N) : res N A :=
  match r with Ok v _ => Ok v p | Err e _ => Err e p | Panic => Panic | Hang => Hang end.

Lemma untake_bytes_take d p n : small d -> p < W64 ->
  untake_bytes n d p = unmoved (take_bytes n d p) p.
Proof.
  intros Hs Hp. destruct (N.le_gt_cases (p + n) (lenN d)) as [H|H].
  - rewrite untake_bytes_in, take_bytes_in by assumption; reflexivity.
  - destruct (N.eq_dec n 0) as [->|Hn].
    + rewrite untake_bytes_panic, take_bytes_panic by (assumption || lia); reflexivity.
    + rewrite untake_bytes_out, take_bytes_out by (assumption || lia); reflexivity.
Qed.

Lemma take_fixed_in d p bo n : small d -> p + n <= lenN d ->
  take_fixed bo n d p = Ok (from_bytes bo (sub d p n)) (p + n).
Proof. intros; unfold take_fixed, bind; rewrite take_bytes_in by assumption; reflexivity. Qed.
Lemma take_fixed_out d p bo n : 0 < n -> lenN d < p + n ->
  take_fixed bo n d p = Err (mkerr p InvalidByteLength) p.
Proof. intros; unfold take_fixed, bind; rewrite take_bytes_out by (assumption || lia); reflexivity. Qed.

Lemma sub_1 d p : p + 1 <= lenN d -> exists b, sub d p 1 = [b].
Proof.
  intros H. pose proof (lenN_sub d p 1 H) as HL.
  destruct (sub d p 1) as [|b [|c l]] eqn:E.
  - discriminate HL.
  - exists b; reflexivity.
  - rewrite !lenN_cons in HL; lia.
Qed.

Lemma from_bytes_1 bo b : from_bytes bo [b] = b2n b.
Proof. destruct bo; cbn; lia. Qed.

Lemma take_u8_fixed bo d p : small d -> take_u8 d p = take_fixed bo 1 d p.
Proof.
  intros Hs. unfold take_u8, take_fixed, bind, idx0, ret.
  destruct (N.le_gt_cases (p + 1) (lenN d)).
  - rewrite take_bytes_in by assumption.
    destruct (sub_1 d p) as [b Hb]; [assumption|]. rewrite Hb, from_bytes_1; reflexivity.
  - rewrite take_bytes_out by (assumption || lia). reflexivity.
Qed.

Lemma take_int_fixed k t d p : small d ->
  take_int k t d p = (v <- take_fixed (order_of k) (sizeN t) ;; ret (int_of_raw t v)) d p.
Proof.
  intros Hs. destruct t; try reflexivity;
    unfold take_int, bind; rewrite (take_u8_fixed (order_of k)) by assumption; reflexivity.
Qed.

Lemma sizeN_pos t : 0 < sizeN t.
Proof. destruct t; reflexivity. Qed.

Lemma take_int_in k t d p : small d -> p + sizeN t <= lenN d ->
  take_int k t d p = Ok (int_of_raw t (from_bytes (order_of k) (sub d p (sizeN t)))) (p + sizeN t).
Proof.
  intros. rewrite take_int_fixed by assumption. unfold bind.
  rewrite take_fixed_in by assumption; reflexivity.
Qed.
Lemma take_int_out k t d p : small d -> lenN d < p + sizeN t ->
  take_int k t d p = Err (mkerr p InvalidByteLength) p.
Proof.
  intros. rewrite take_int_fixed by assumption. unfold bind.
  rewrite take_fixed_out by (assumption || apply sizeN_pos); reflexivity.
Qed.

Lemma take_n_in bo size n d p : small d -> n <= size -> p + n <= lenN d ->
  take_n bo size n d p = Ok (from_bytes bo (sub d p n)) (p + n).
Proof.
  intros Hs Hn H. destruct bo; cbn; unfold take_n_be, take_n_le, bind;
    destruct (N.ltb_spec size n); try lia; rewrite take_bytes_in by assumption; cbn.
  - rewrite be_val_zeros_app; reflexivity.
  - rewrite le_val_app_zeros; reflexivity.
Qed.
Lemma take_n_out bo size n d p : n <= size -> lenN d < p + n -> 0 < n \/ p <= lenN d ->
  take_n bo size n d p = Err (mkerr p InvalidByteLength) p.
Proof.
  intros Hn H Hz. destruct bo; cbn; unfold take_n_be, take_n_le, bind;
    destruct (N.ltb_spec size n); try lia; rewrite take_bytes_out by assumption; reflexivity.
Qed.
Lemma take_n_be_big size n d p : size < n -> take_n Be size n d p = Err (mkerr p InvalidByteLength) p.
Proof. intros H; cbn; unfold take_n_be; destruct (N.ltb_spec size n); [reflexivity|lia]. Qed.
Lemma take_n_le_big size n d p : size < n -> take_n Le size n d p = Panic.
Proof. intros H; cbn; unfold take_n_le; destruct (N.ltb_spec size n); [reflexivity|lia]. Qed.

Lemma take_array_bytes n d p : small d -> p <= lenN d -> take_array n d p = take_bytes n d p.
Proof.
  unfold small; intros Hs Hp. unfold take_array. rewrite remaining_in by exact Hp.
  destruct (N.le_gt_cases (p + n) (lenN d)).
  - rewrite take_bytes_in by assumption. rewrite slice_get_to_ok by (rewrite lenN_skipn; lia).
    rewrite wadd_small by lia. reflexivity.
  - rewrite take_bytes_out by (assumption || lia).
    rewrite slice_get_to_none by (rewrite lenN_skipn; lia). reflexivity.
Qed.

(** ** Searching *)
Lemma memmem_some needle hay i : memmem_find needle hay = Some i ->
  occurs_at needle hay i /\ forall j, (j < i)%nat -> ~ occurs_at needle hay j.
Proof.
  revert i; induction hay as [|x hay IH]; intros i; cbn [memmem_find].
  - destruct (starts_with needle []) eqn:E; [|discriminate].
    intros H; injection H as <-. split; [|intros; lia].
    apply starts_with_iff in E as [r Hr]. exists [], r; split; [exact Hr|reflexivity].
  - destruct (starts_with needle (x :: hay)) eqn:E.
    + intros H; injection H as <-. split; [|intros; lia].
      apply starts_with_iff in E as [r Hr]. exists [], r; split; [exact Hr|reflexivity].
    + destruct (memmem_find needle hay) as [k|]; cbn; [|discriminate].
      intros H; injection H as <-. destruct (IH k eq_refl) as [(a & b & Hab & Ha) Hmin].
      split.
      * exists (x :: a), b; split; [rewrite Hab; reflexivity|cbn; lia].
      * intros [|j] Hj (a' & b' & Hab' & Ha').
        -- destruct a'; [|discriminate]. cbn in Hab'.
           assert (starts_with needle (x :: hay) = true) by (rewrite Hab'; apply starts_with_app).
           congruence.
        -- destruct a' as [|y a']; [discriminate|]. cbn in Hab', Ha'. injection Hab' as _ Hab'.
           apply (Hmin j); [lia|]. exists a', b'; split; [exact Hab'|lia].
Qed.

Lemma memmem_none needle hay : memmem_find needle hay = None -> forall j, ~ occurs_at needle hay j.
Proof.
  induction hay as [|x hay IH]; cbn [memmem_find].
  - destruct (starts_with needle []) eqn:E; [discriminate|].
    intros _ j (a & b & Hab & Ha).
    destruct a as [|? a]; [|discriminate]. cbn in Hab.
    assert (starts_with needle [] = true) by (rewrite Hab; apply starts_with_app). congruence.
  - destruct (starts_with needle (x :: hay)) eqn:E; [discriminate|].
    destruct (memmem_find needle hay); cbn; [discriminate|]. intros _ j (a & b & Hab & Ha).
    destruct a as [|y a].
    + cbn in Hab. assert (starts_with needle (x :: hay) = true) by (rewrite Hab; apply starts_with_app).
      congruence.
    + cbn in Hab; injection Hab as _ Hab. apply (IH eq_refl (length a)). exists a, b; auto.
Qed.

Lemma memmem_complete needle hay i :
  occurs_at needle hay i -> (forall j, (j < i)%nat -> ~ occurs_at needle hay j) ->
  memmem_find needle hay = Some i.
Proof.
  intros Ho Hm. destruct (memmem_find needle hay) as [k|] eqn:E.
  - apply memmem_some in E as [Hk Hkm]. f_equal.
    destruct (Nat.lt_trichotomy k i) as [H|[H|H]]; [|exact H|].
    + exfalso; apply (Hm k H Hk).
    + exfalso; apply (Hkm i H Ho).
  - exfalso. apply (memmem_none _ _ E i Ho).
Qed.

Lemma occurs_len needle hay i : occurs_at needle hay i -> (i + length needle <= length hay)%nat.
Proof. intros (a & b & -> & <-). rewrite !app_length. lia. Qed.

(** ends_with and occurrences *)
Lemma ends_with_iff p l : ends_with p l = true <-> exists a, l = a ++ p.
Proof.
  unfold ends_with. rewrite andb_true_iff, bytes_eqb_eq, Nat.leb_le. split.
  - intros [HL HE]. exists (firstn (length l - length p) l).
    rewrite <- (firstn_skipn (length l - length p) l) at 1. f_equal. symmetry; exact HE.
  - intros [a ->]. rewrite app_length. split; [lia|].
    replace (length a + length p - length p)%nat with (length a) by lia.
    rewrite skipn_app, skipn_all, Nat.sub_diag. reflexivity.
Qed.

Lemma longest_some pats seen k : longest_ending pats seen = Some k ->
  (exists p, In p pats /\ length p = k /\ ends_with p seen = true) /\
  (forall p, In p pats -> ends_with p seen = true -> (length p <= k)%nat).
Proof.
  revert k; induction pats as [|q ps IH]; intros k; cbn; [discriminate|].
  destruct (ends_with q seen) eqn:E.
  - destruct (longest_ending ps seen) as [m|] eqn:Em; intros H; injection H as <-.
    + destruct (IH m eq_refl) as [(p & Hp & HL & He) Hall]. split.
      * destruct (Nat.max_spec (length q) m) as [[Hlt ->]|[Hge ->]].
        -- exists p; auto.
        -- exists q; auto.
      * intros p' [<-|Hp'] He'; [lia|]. specialize (Hall p' Hp' He'); lia.
    + split; [exists q; auto|].
      intros p' [<-|Hp'] He'; [lia|].
      exfalso. clear -Em Hp' He'. revert Em; induction ps as [|r ps IHp]; [destruct Hp'|].
      cbn. destruct (ends_with r seen) eqn:Er; [discriminate|].
      intros Em. destruct Hp' as [->|Hp']; [congruence|]. apply IHp; assumption.
  - intros H. destruct (IH k H) as [(p & Hp & HL & He) Hall]. split; [exists p; auto|].
    intros p' [<-|Hp'] He'; [congruence|]. apply Hall; assumption.
Qed.
Lemma longest_none pats seen : longest_ending pats seen = None ->
  forall p, In p pats -> ends_with p seen = false.
Proof.
  induction pats as [|q ps IH]; cbn; [intros _ p []|].
  destruct (ends_with q seen) eqn:E; [discriminate|].
  intros H p [<-|Hp]; [exact E|]. apply IH; assumption.
Qed.

(** a match of [p] in [hay] ending at offset [e] *)
Lemma occurs_ends p hay i : occurs_at p hay i <->
  (i + length p <= length hay)%nat /\ ends_with p (firstn (i + length p) hay) = true
  /\ (i = length (firstn (i + length p) hay) - length p)%nat.
Proof.
  split.
  - intros (a & b & -> & <-). rewrite !app_length. split; [lia|].
    rewrite app_assoc, firstn_app, <- app_length, firstn_all, Nat.sub_diag. cbn [firstn].
    rewrite app_nil_r. split; [|rewrite app_length; lia].
    apply ends_with_iff; exists a; reflexivity.
  - intros (HL & He & Hi). apply ends_with_iff in He as [a Ha].
    exists a, (skipn (i + length p) hay). rewrite app_assoc, <- Ha, firstn_skipn.
    split; [reflexivity|]. rewrite Ha, app_length in Hi. lia.
Qed.

Lemma ac_scan_some pats rest : forall seen s e,
  (forall k, (k < length seen)%nat -> forall p, In p pats -> ends_with p (firstn k seen) = false) ->
  ac_scan pats seen rest = Some (s, e) ->
  let hay := seen ++ rest in
  (s <= e <= length hay)%nat /\
  (exists p, In p pats /\ occurs_at p hay s /\ (s + length p = e)%nat) /\
  (forall p j, In p pats -> occurs_at p hay j ->
     (e < j + length p)%nat \/ (e = j + length p)%nat /\ (s <= j)%nat).
Proof.
  induction rest as [|b rest IH]; intros seen s e Hpre; cbn [ac_scan].
  - destruct (longest_ending pats seen) as [k|] eqn:El; [|discriminate].
    intros H; injection H as <- <-. cbn. rewrite app_nil_r.
    apply longest_some in El as [(p & Hp & HL & He) Hall].
    assert (Hk : (k <= length seen)%nat).
    { unfold ends_with in He. apply andb_prop in He as [He _]. apply Nat.leb_le in He. lia. }
    split; [lia|]. split.
    + exists p. split; [exact Hp|]. split; [|lia].
      apply occurs_ends. replace (length seen - k + length p)%nat with (length seen) by lia.
      rewrite firstn_all. split; [lia|]. split; [exact He|lia].
    + intros q j Hq Ho. apply occurs_ends in Ho as (HjL & Hje & Hj).
      destruct (Nat.lt_trichotomy (j + length q) (length seen)) as [H|[H|H]].
      * rewrite (Hpre _ H q Hq) in Hje; discriminate.
      * right. rewrite H, firstn_all in Hje. specialize (Hall q Hq Hje). lia.
      * lia.
  - destruct (longest_ending pats seen) as [k|] eqn:El.
    + intros H; injection H as <- <-. cbn zeta.
      apply longest_some in El as [(p & Hp & HL & He) Hall].
      assert (Hk : (k <= length seen)%nat).
      { unfold ends_with in He. apply andb_prop in He as [He _]. apply Nat.leb_le in He. lia. }
      rewrite app_length. split; [lia|]. split.
      * exists p. split; [exact Hp|]. split; [|lia].
        apply occurs_ends. replace (length seen - k + length p)%nat with (length seen) by lia.
        rewrite firstn_app, firstn_all, Nat.sub_diag. cbn [firstn]. rewrite app_nil_r, app_length.
        split; [lia|]. split; [exact He|lia].
      * intros q j Hq Ho. apply occurs_ends in Ho as (HjL & Hje & Hj).
        destruct (Nat.lt_trichotomy (j + length q) (length seen)) as [H|[H|H]].
        -- rewrite firstn_app in Hje. replace (j + length q - length seen)%nat with O in Hje by lia.
           cbn [firstn] in Hje. rewrite app_nil_r, (Hpre _ H q Hq) in Hje; discriminate.
        -- right. rewrite H, firstn_app, firstn_all, Nat.sub_diag in Hje. cbn [firstn] in Hje.
           rewrite app_nil_r in Hje. specialize (Hall q Hq Hje). lia.
        -- lia.
    + intros H. specialize (IH (seen ++ [b]) s e).
      replace (seen ++ b :: rest) with ((seen ++ [b]) ++ rest) by (rewrite <- app_assoc; reflexivity).
      apply IH; [|exact H].
      intros k Hk p Hp. rewrite app_length in Hk; cbn in Hk.
      destruct (Nat.eq_dec k (length seen)) as [->|Hne].
      * rewrite firstn_app, firstn_all, Nat.sub_diag. cbn [firstn]. rewrite app_nil_r.
        apply (longest_none _ _ El p Hp).
      * rewrite firstn_app. replace (k - length seen)%nat with O by lia. cbn [firstn].
        rewrite app_nil_r. apply Hpre; [lia|exact Hp].
Qed.

Lemma ac_scan_none pats rest : forall seen,
  (forall k, (k < length seen)%nat -> forall p, In p pats -> ends_with p (firstn k seen) = false) ->
  ac_scan pats seen rest = None ->
  forall p j, In p pats -> ~ occurs_at p (seen ++ rest) j.
Proof.
  induction rest as [|b rest IH]; intros seen Hpre; cbn [ac_scan];
    destruct (longest_ending pats seen) as [k|] eqn:El; try discriminate.
  - intros _ p j Hp Ho. rewrite app_nil_r in Ho. apply occurs_ends in Ho as (HjL & Hje & Hj).
    destruct (Nat.eq_dec (j + length p) (length seen)) as [H|H].
    + rewrite H, firstn_all in Hje. rewrite (longest_none _ _ El p Hp) in Hje; discriminate.
    + rewrite (Hpre (j + length p)%nat) in Hje; [discriminate|lia|exact Hp].
  - intros H. replace (seen ++ b :: rest) with ((seen ++ [b]) ++ rest) by (rewrite <- app_assoc; reflexivity).
    apply IH; [|exact H].
    intros k Hk p Hp. rewrite app_length in Hk; cbn in Hk.
    destruct (Nat.eq_dec k (length seen)) as [->|Hne].
    + rewrite firstn_app, firstn_all, Nat.sub_diag. cbn [firstn]. rewrite app_nil_r.
      apply (longest_none _ _ El p Hp).
    + rewrite firstn_app. replace (k - length seen)%nat with O by lia. cbn [firstn].
      rewrite app_nil_r. apply Hpre; [lia|exact Hp].
Qed.

Lemma ac_find_some pats hay s e : ac_find pats hay = Some (s, e) ->
  (s <= e <= length hay)%nat /\
  (exists p, In p pats /\ occurs_at p hay s /\ (s + length p = e)%nat) /\
  (forall p j, In p pats -> occurs_at p hay j ->
     (e < j + length p)%nat \/ (e = j + length p)%nat /\ (s <= j)%nat).
Proof. intros H. apply (@ac_scan_some pats hay [] s e); [cbn; intros; lia|exact H]. Qed.
Lemma ac_find_none pats hay : ac_find pats hay = None -> forall p j, In p pats -> ~ occurs_at p hay j.
Proof. intros H. apply (@ac_scan_none pats hay []); [cbn; intros; lia|exact H]. Qed.

Lemma ac_find_complete pats hay s e :
  (exists p, In p pats /\ occurs_at p hay s /\ (s + length p = e)%nat) ->
  (forall p j, In p pats -> occurs_at p hay j ->
     (e < j + length p)%nat \/ (e = j + length p)%nat /\ (s <= j)%nat) ->
  ac_find pats hay = Some (s, e).
Proof.
  intros (p & Hp & Ho & He) Hmin.
  destruct (ac_find pats hay) as [[s' e']|] eqn:E.
  - apply ac_find_some in E as (_ & (p' & Hp' & Ho' & He') & Hmin').
    specialize (Hmin p' s' Hp' Ho'). specialize (Hmin' p s Hp Ho).
    assert (s = s' /\ e = e') as [-> ->] by lia. reflexivity.
  - exfalso; apply (ac_find_none _ _ E p s Hp Ho).
Qed.
