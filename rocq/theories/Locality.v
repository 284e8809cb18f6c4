(** On delimited schemas a successful decoding looks at the bytes it consumes
    and at no others. *)
From Verif Require Import Base Ints Spec SpecOps Reader BaseLemmas ReaderLemmas ReaderHist.
From Verif Require Import Schema Utf8 Decode Encode WireSpec CodecBase EncLemmas DecLemmas SafetySpec Bounds.

Definition confined {A} (k : N) (m : rd A) : Prop :=
  forall pre w rest a, small (pre ++ w ++ rest) ->
  m (pre ++ w ++ rest) (lenN pre) = Ok a (lenN pre + lenN w) ->
  k <= lenN w /\ forall rest', reads m w rest' a.
Definition delim {A} (m : rd A) : Prop := tame false m /\ confined 0 m.

Lemma split_at (w : bytes) q p : p <= q -> q <= p + lenN w ->
  exists w1 w2, w = w1 ++ w2 /\ q = p + lenN w1.
Proof.
  intros H1 H2. exists (firstn (N.to_nat (q - p)) w), (skipn (N.to_nat (q - p)) w).
  split; [symmetry; apply firstn_skipn|]. rewrite lenN_firstn by lia. lia.
Qed.
Lemma tame_ok {A} s (m : rd A) d p a q : tame s m -> small d -> p <= lenN d -> m d p = Ok a q -> p <= q <= lenN d.
Proof. intros T Hs Hp E. specialize (T d p Hs Hp). rewrite E in T. exact T. Qed.
Lemma in_pre (pre w rest : bytes) : lenN pre <= lenN (pre ++ w ++ rest).
Proof. rewrite lenN_app. lia. Qed.
Lemma reads_confined {A} k (m : rd A) :
  (forall pre w rest a, small (pre ++ w ++ rest) ->
   m (pre ++ w ++ rest) (lenN pre) = Ok a (lenN pre + lenN w) -> k <= lenN w /\ forall rest', reads m w rest' a) ->
  confined k m.
Proof. auto. Qed.
Lemma confined_weaken {A} k k' (m : rd A) : k' <= k -> confined k m -> confined k' m.
Proof. intros H C pre w rest a Hs E. destruct (C pre w rest a Hs E). split; [lia|assumption]. Qed.
Lemma confined_bind {A B} i j (m : rd A) (k : A -> rd B) : tame false m -> confined i m ->
  (forall a, tame false (k a)) -> (forall a, confined j (k a)) -> confined (i + j) (bind m k).
Proof.
  intros Tm Cm Tk Ck pre w rest b Hs E. unfold bind in E.
  destruct (m (pre ++ w ++ rest) (lenN pre)) as [a q|e q| |] eqn:Em; try discriminate.
  pose proof (tame_ok _ _ _ _ _ _ Tm Hs (in_pre _ _ _) Em) as Hq.
  pose proof (tame_ok _ _ _ _ _ _ (Tk a) Hs (proj2 Hq) E) as Hq2.
  destruct (split_at w q (lenN pre)) as (w1 & w2 & -> & ->); [lia|lia|].
  rewrite <- app_assoc in Em, Hs.
  destruct (Cm pre w1 (w2 ++ rest) a Hs Em) as [C1 R1].
  assert (E2 : k a ((pre ++ w1) ++ w2 ++ rest) (lenN (pre ++ w1)) = Ok b (lenN (pre ++ w1) + lenN w2)).
  { rewrite <- app_assoc, lenN_app. rewrite <- app_assoc in E. rewrite E. f_equal. rewrite lenN_app. lia. }
  destruct (Ck a (pre ++ w1) w2 rest b) as [C2 R2]; [rewrite <- app_assoc; exact Hs|exact E2|].
  split; [rewrite lenN_app; lia|]. intros rest'. exact (reads_bind m k w1 w2 rest' a b (R1 _) (R2 _)).
Qed.
Lemma delim_bind {A B} (m : rd A) (k : A -> rd B) : delim m -> (forall a, delim (k a)) -> delim (bind m k).
Proof.
  intros [T C] H. split; [apply tame_bind; [exact T|intros; apply H]|].
  apply (confined_bind 0 0); [exact T|exact C|intros; apply H|intros; apply H].
Qed.
Lemma nothing_consumed (pre w : bytes) : lenN pre = lenN pre + lenN w -> w = [].
Proof. intros H. apply lenN_0. lia. Qed.
Lemma confined_ret {A} (a : A) : confined 0 (ret a).
Proof.
  intros pre w rest b Hs E. unfold ret in E. inversion E as [[E1 E2]].
  apply nothing_consumed in E2. subst. split; [lia|]. intros rest'. apply reads_ret.
Qed.
Lemma delim_ret {A} (a : A) : delim (ret a).
Proof. split; [apply tame_ret|apply confined_ret]. Qed.
Lemma delim_fail {A} k : delim (@fail A k).
Proof. split; [apply tame_fail|]. intros pre w rest b Hs E. discriminate. Qed.
Lemma delim_panic {A} : delim (@panic A).
Proof. split; [apply tame_panic; reflexivity|]. intros pre w rest b Hs E. discriminate. Qed.
Lemma delim_map {A B} (m : rd A) (f : A -> B) : delim m -> delim (x <- m ;; ret (f x)).
Proof. intros H. apply delim_bind; [exact H|intros; apply delim_ret]. Qed.
Lemma delim_dec_n {A} n (d : rd A) : delim d -> delim (dec_n n d).
Proof.
  intros H. induction n as [|n IH]; [apply delim_ret|].
  cbn [dec_n]. apply delim_bind; [exact H|]. intros x. apply delim_map. exact IH.
Qed.
Lemma delim_dec_seq ds : Forall delim ds -> delim (dec_seq ds).
Proof.
  induction 1 as [|d r Hd Hr IH]; [apply delim_ret|].
  cbn [dec_seq]. apply delim_bind; [exact Hd|]. intros x. apply delim_map. exact IH.
Qed.

(** ** The calls of the reader *)
Lemma take_bytes_ok n d p l q : small d -> p <= lenN d -> take_bytes n d p = Ok l q ->
  q = p + n /\ p + n <= lenN d /\ l = sub d p n.
Proof.
  intros Hs Hp E. destruct (N.le_gt_cases (p + n) (lenN d)) as [H|H].
  - rewrite take_bytes_in in E by assumption. injection E as <- <-. auto.
  - rewrite take_bytes_out in E by (auto || lia). discriminate.
Qed.
Lemma confined_bytes n : confined n (take_bytes n).
Proof.
  intros pre w rest a Hs E. destruct (take_bytes_ok _ _ _ _ _ Hs (in_pre _ _ _) E) as (Hq & _ & Ha).
  assert (n = lenN w) by lia. subst n. rewrite sub_mid in Ha. subst a.
  split; [lia|]. intros rest'. apply take_bytes_reads.
Qed.
Lemma delim_bytes n : delim (take_bytes n).
Proof. split; [apply tame_bytes|]. apply (confined_weaken n); [lia|apply confined_bytes]. Qed.
Lemma delim_idx0 l : delim (idx0 l).
Proof.
  destruct l; [apply (@delim_panic byte)|]. apply (delim_ret b).
Qed.
Lemma delim_byte {A} (f : byte -> A) : delim (l <- take_bytes 1 ;; x <- idx0 l ;; ret (f x)).
Proof.
  apply delim_bind; [apply delim_bytes|]. intros l. apply delim_bind; [apply delim_idx0|].
  intros x. apply delim_ret.
Qed.
Lemma delim_u8 : delim take_u8.
Proof. apply delim_byte. Qed.
Lemma delim_fixed bo n : delim (take_fixed bo n).
Proof. apply delim_map, delim_bytes. Qed.
Lemma delim_int k t : delim (take_int k t).
Proof. destruct t; apply delim_map; first [apply delim_u8|apply delim_fixed]. Qed.
Lemma delim_uint k n : delim (take_uint k n).
Proof.
  unfold take_uint, take_n. destruct (order_of k).
  - unfold take_n_be. destruct (8 <? n); [apply delim_fail|apply delim_map, delim_bytes].
  - unfold take_n_le. destruct (8 <? n); [apply delim_panic|apply delim_map, delim_bytes].
Qed.

Lemma occurs_within s a b j : occurs_at s a j -> occurs_at s (a ++ b) j.
Proof. intros (x & y & -> & <-). exists x, (y ++ b). rewrite <- !app_assoc. auto. Qed.
Lemma occurs_cut s a b j : occurs_at s (a ++ b) j -> (j + length s <= length a)%nat -> occurs_at s a j.
Proof.
  intros (x & y & E & <-) L. exists x, (skipn (length x + length s) a). split; [|reflexivity].
  assert (F : firstn (length x + length s) a = x ++ s).
  { assert (G : firstn (length x + length s) (a ++ b) = x ++ s).
    { rewrite E, app_assoc, firstn_app, app_length.
      replace (_ - _)%nat with O by lia. rewrite firstn_O, app_nil_r.
      rewrite <- app_length. apply firstn_all. }
    rewrite firstn_app in G. replace (length x + length s - length a)%nat with O in G by lia.
    rewrite firstn_O, app_nil_r in G. exact G. }
  rewrite app_assoc, <- F. symmetry. apply firstn_skipn.
Qed.
Lemma first_found s l rest : memmem_find s (l ++ s ++ rest) = Some (length l) -> ends_first s l = true.
Proof.
  intros H. apply memmem_some in H. destruct H as [_ H].
  unfold ends_first. apply forallb_forall. intros j Hj. apply in_seq in Hj.
  apply negb_true_iff. destruct (starts_with s (skipn j (l ++ s))) eqn:E; [|reflexivity].
  exfalso. apply (H j); [lia|]. rewrite app_assoc. apply occurs_within. apply occurs_at_starts.
  split; [rewrite app_length; lia|exact E].
Qed.
Lemma found s hay i : memmem_find s hay = Some i -> hay = firstn i hay ++ s ++ skipn (i + length s) hay /\ (i <= length hay)%nat.
Proof.
  intros H. apply memmem_some in H. destruct H as [H _].
  pose proof (occurs_len _ _ _ H). apply firstn_occ in H.
  split; [|lia]. rewrite app_assoc, <- H. symmetry. apply firstn_skipn.
Qed.
Lemma app_cut (a b c d : bytes) : a ++ b = c ++ d -> length a = length c -> a = c /\ b = d.
Proof.
  revert c. induction a as [|x a IH]; intros [|y c] E L; cbn in *; try discriminate; [auto|].
  injection E as -> E. destruct (IH c E ltac:(lia)) as [-> ->]. auto.
Qed.

Lemma search_split s pre w rest i : memmem_find s (remaining (pre ++ w ++ rest) (lenN pre)) = Some i ->
  lenN w = N.of_nat i + lenN s ->
  exists l, w = l ++ s /\ length l = i /\ ends_first s l = true.
Proof.
  intros H L. rewrite remaining_app in H. destruct (found _ _ _ H) as [E Hi].
  assert (F : length (firstn i (w ++ rest)) = i) by (rewrite firstn_length; lia).
  set (l := firstn i (w ++ rest)) in *.
  rewrite app_assoc in E. apply app_cut in E; [|rewrite app_length; unfold lenN in L; lia].
  destruct E as [E1 E2]. exists l. split; [exact E1|]. split; [exact F|].
  apply (first_found s l rest). rewrite app_assoc, <- E1, F. exact H.
Qed.
Lemma slice_ok_inv d a b p v q : slice_ok d a b p = Ok v q -> q = p /\ slice_get d a b = Some v.
Proof. unfold slice_ok. destruct (slice_get d a b); [|discriminate]. intros E. injection E as <- <-. auto. Qed.

Lemma delim_find s : delim (find_subsequence s).
Proof.
  split; [apply tame_wb, wb_find|]. intros pre w rest a Hs E. split; [lia|]. intros rest'.
  pose proof E as E0. unfold find_subsequence in E.
  destruct (memmem_find s (remaining (pre ++ w ++ rest) (lenN pre))) as [i|] eqn:M; [|discriminate].
  pose proof M as M0. rewrite remaining_in in M0 by apply in_pre.
  destruct (find_sub_in s _ _ i Hs (in_pre pre w rest) M0) as [F1 F2]. rewrite F1 in E0.
  injection E0 as Ea Eq.
  destruct (search_split s pre w rest i M) as (l & -> & Hl & He); [lia|].
  rewrite <- app_assoc, <- Hl in Ea. change (N.of_nat (length l)) with (lenN l) in Ea.
  rewrite sub_mid in Ea. subst a. apply find_reads. exact He.
Qed.
Lemma delim_needle s : delim (find_subsequence_needle s true).
Proof.
  split; [apply tame_wb, wb_find_needle|]. intros pre w rest a Hs E. split; [lia|].
  pose proof E as E0. unfold find_subsequence_needle in E.
  destruct (memmem_find s (remaining (pre ++ w ++ rest) (lenN pre))) as [i|] eqn:M; [|discriminate].
  pose proof M as M0. rewrite remaining_in in M0 by apply in_pre.
  destruct (find_needle_in s true _ _ i Hs (in_pre pre w rest) M0) as [F1 F2]. rewrite F1 in E0.
  injection E0 as Ea Eq.
  destruct (search_split s pre w rest i M) as (l & -> & Hl & He); [lia|].
  replace (N.of_nat i + lenN s) with (lenN (l ++ s)) in Ea by (rewrite lenN_app; unfold lenN; lia).
  rewrite sub_mid in Ea. subst a. intros rest' pre' Hs'. unfold find_subsequence_needle.
  rewrite remaining_app, <- app_assoc. rewrite ends_first_memmem by exact He.
  apply small_pre in Hs'. rewrite lenN_app in Hs'. change (N.of_nat (length l)) with (lenN l).
  rewrite (wadd_small (lenN l)) by lia. rewrite !wadd_small by lia.
  rewrite <- lenN_app, (app_assoc l). rewrite slice_ok_app by (rewrite lenN_app; lia). reflexivity.
Qed.
Lemma delim_skip_to k : delim (skip_to k).
Proof.
  destruct k; [|apply delim_ret]. apply delim_bind; [apply delim_needle|intros; apply delim_ret].
Qed.
Lemma delim_finds pats : delim (find_subsequences pats).
Proof.
  split; [apply tame_wb, wb_finds|]. intros pre w rest a Hs E. split; [lia|].
  pose proof E as E0. unfold find_subsequences in E.
  destruct (ac_find pats (remaining (pre ++ w ++ rest) (lenN pre))) as [[i e]|] eqn:M; [|discriminate].
  pose proof M as M0. rewrite remaining_in in M0 by apply in_pre.
  destruct (finds_in pats _ _ i e Hs (in_pre pre w rest) M0) as (F1 & F2 & F3). rewrite F1 in E0.
  injection E0 as Ea Eq. assert (He : lenN w = N.of_nat e) by lia.
  rewrite remaining_app in M. apply ac_find_some in M. destruct M as (_ & (s & Hin & Ho & Hse) & Hfirst).
  intros rest' pre' Hs'. unfold find_subsequences. rewrite remaining_app.
  assert (He' : e = length w) by (unfold lenN in He; lia).
  rewrite (ac_find_complete pats (w ++ rest') i e).
  - apply small_pre in Hs'. rewrite !wadd_small by lia.
    assert (Hi : N.of_nat i <= lenN w) by lia.
    destruct (split_at w (lenN pre' + N.of_nat i) (lenN pre')) as (w1 & w2 & -> & Hw1); [lia|lia|].
    assert (Hw1' : N.of_nat i = lenN w1) by lia. rewrite Hw1' in *.
    rewrite <- app_assoc in *. rewrite lenN_app in Hs'.
    rewrite slice_ok_app by lia.
    rewrite sub_mid in Ea. subst a. f_equal. lia.
  - exists s. split; [exact Hin|]. split; [|exact Hse]. apply occurs_within.
    apply (occurs_cut s w rest); [exact Ho|lia].
  - intros s' j Hin' Ho'.
    destruct (Nat.le_gt_cases (j + length s') e) as [L|L]; [|left; lia].
    apply (Hfirst s' j Hin'). apply occurs_within. apply (occurs_cut s' w rest'); [exact Ho'|lia].
Qed.

(** ** Leaves *)
Lemma delim_dec_int it ca fa : delim (dec_int it ca fa).
Proof.
  unfold dec_int. apply delim_bind; [|intros; apply delim_ret].
  destruct (a_length fa); [|apply delim_int].
  destruct (sizeN it <? n); [apply delim_fail|]. apply delim_map, delim_uint.
Qed.
Lemma delim_dec_raw ca fa : a_remaining fa = false -> delim (dec_raw ca fa).
Proof.
  intros R. unfold dec_raw. apply delim_bind; [apply delim_skip_to|intros _].
  apply delim_bind; [apply delim_skip_to|intros _].
  destruct (a_length fa); [apply delim_bytes|].
  destruct (a_byte_count fa).
  { apply delim_bind; [apply delim_uint|intros; apply delim_bytes]. }
  destruct (a_linend fa); [apply delim_finds|].
  destruct (a_linend_value fa); [apply delim_find|].
  rewrite R. apply delim_bind; [apply delim_u8|intros; apply delim_bytes].
Qed.
Lemma delim_dec_string ca fa : a_remaining fa = false -> delim (dec_string ca fa).
Proof.
  intros R. unfold dec_string. apply delim_bind; [exact (delim_dec_raw ca fa R)|].
  intros l. destruct (utf8_ok l); [apply delim_ret|apply delim_fail].
Qed.
Lemma delim_mac ca fa : delim (dec_mac ca fa).
Proof. apply delim_map, delim_uint. Qed.
Lemma delim_ipv4 ca fa : delim (dec_ipv4 ca fa).
Proof. apply delim_map, delim_int. Qed.
Lemma delim_ipv6 ca fa : delim (dec_ipv6 ca fa).
Proof. apply delim_map, delim_int. Qed.
Lemma delim_ipaddr ca fa : delim (dec_ipaddr ca fa).
Proof.
  unfold dec_ipaddr. destruct (a_length fa) as [l|]; [|apply delim_fail].
  destruct (l =? 16); [apply delim_map, delim_ipv6|].
  destruct (l =? 4); [apply delim_map, delim_ipv4|apply delim_fail].
Qed.
Lemma delim_netaddr ca fa : delim (dec_netaddr ca fa).
Proof.
  unfold dec_netaddr. destruct (a_length fa) as [l|] eqn:L; [|apply delim_fail].
  destruct (l =? 0); [apply delim_fail|].
  destruct (l =? 4); [apply delim_map, delim_ipv4|].
  destruct (l =? 6); [apply delim_map, delim_mac|].
  destruct (l =? 16); [apply delim_map, delim_ipv6|].
  apply delim_map. apply delim_dec_int.
Qed.
Lemma delim_counted {A} ca fa (d : rd A) : a_try_count fa = None -> delim d -> delim (dec_counted ca fa d).
Proof.
  intros Ht Hd. unfold dec_counted, get_count_and_try_count. rewrite Ht.
  assert (Q : forall m : rd N, delim m ->
    delim (ct <- (v <- m ;; ret (v, None)) ;; match snd ct with
             | Some n => dec_try (N.to_nat n) d | None => dec_n (N.to_nat (fst ct)) d end)).
  { intros m Hm. split.
    - apply tame_bind; [apply tame_map, Hm|].
      intros [c [o|]]; cbn; [apply tame_dec_try, Hd|apply tame_dec_n, Hd].
    - apply (reads_confined 0). 
      assert (D : delim (v <- m ;; dec_n (N.to_nat v) d)).
      { apply delim_bind; [exact Hm|]. intros. apply delim_dec_n, Hd. }
      assert (X : forall dt p, (ct <- (v <- m ;; ret (v, None)) ;; match snd ct with
             | Some n => dec_try (N.to_nat n) d | None => dec_n (N.to_nat (fst ct)) d end) dt p
             = (v <- m ;; dec_n (N.to_nat v) d) dt p).
      { intros dt p. unfold bind, ret. destruct (m dt p); reflexivity. }
      intros pre w rest a Hs E. rewrite X in E. destruct (proj2 D pre w rest a Hs E) as [D1 D2].
      split; [exact D1|]. intros rest' pre' Hs'. rewrite X. apply D2. exact Hs'. }
  destruct (a_count fa) as [c|].
  - exact (Q (ret c) (delim_ret c)).
  - destruct (a_byte_count_outside fa); apply Q; [apply delim_uint|apply delim_u8].
Qed.
Lemma delim_ext {A} (m m' : rd A) : (forall d p, m d p = m' d p) -> delim m' -> delim m.
Proof.
  intros X [T C]. split; [exact (tame_ext false m m' X T)|].
  intros pre w rest a Hs E. rewrite X in E. destruct (C pre w rest a Hs E) as [D1 D2].
  split; [exact D1|]. intros rest' pre' Hs'. rewrite X. apply D2. exact Hs'.
Qed.

(** ** Fields *)
Definition close (f : fspec) (en : env) (v : val) : rd val :=
  let v := match f_value_decode f with Some g => g en v | None => v end in
  match f_check f with
  | Some c => if val_eqb v (c en) then ret v else fail InvalidValue
  | None => ret v
  end.
Lemma delim_close f en v : delim (close f en v).
Proof.
  unfold close. destruct (f_check f) as [c|]; [|apply delim_ret].
  destruct (val_eqb _ _); [apply delim_ret|apply delim_fail].
Qed.
Lemma delim_field (d : cattr -> fattr -> rd val) f ca fa en : f_offset f = None -> f_untake f = false ->
  (forall g, f_with_decode f = Some g -> forall en ca fa, delim (g en ca fa)) ->
  a_remaining fa = false -> delim (d ca fa) -> delim (dec_field d f ca fa en).
Proof.
  intros Ho Hu Hw Hr Hd. unfold dec_field, dec_offset. rewrite Ho, Hu. cbn [eval_opt option_map].
  apply delim_bind; [apply delim_ret|intros _].
  destruct (f_with_decode f) as [g|]; [apply Hw; reflexivity|].
  destruct (f_skip_decode f); [apply delim_ret|].
  destruct (f_from_str f) as [[parse show]|].
  { apply delim_bind; [exact (delim_dec_string ca fa Hr)|].
    intros l. destruct (parse l); [apply delim_ret|apply delim_fail]. }
  apply (delim_ext _ (v <- match f_if f with
       | Some c => if c en then d ca fa else ret (VOpt None) | None => d ca fa end ;; close f en v)).
  { intros dt p. unfold get_position, bind, ret, close. reflexivity. }
  apply delim_bind; [|intros; apply delim_close].
  destruct (f_if f) as [c|]; [destruct (c en); [exact Hd|apply delim_ret]|exact Hd].
Qed.

(** An integer of the full width. *)
Lemma dec_int_width it ca fa d p z q : a_length fa = None -> small d -> p <= lenN d ->
  dec_int it ca fa d p = Ok z q -> q = p + width_bytes it /\ q <= lenN d.
Proof.
  intros L Hs Hp. unfold dec_int. rewrite L. unfold bind at 1. rewrite width_sizeN.
  destruct (N.le_gt_cases (p + sizeN it) (lenN d)) as [H|H].
  - rewrite take_int_in by assumption. unfold ret. intros E. injection E as _ <-. auto.
  - rewrite take_int_out by assumption. discriminate.
Qed.
Lemma dec_int_prefix it ca fa pre w rest rest' z : a_length fa = None -> width_bytes it <= lenN w ->
  small (pre ++ w ++ rest) ->
  dec_int it ca fa (pre ++ w ++ rest) (lenN pre) = Ok z (lenN pre + width_bytes it) ->
  forall pre', small (pre' ++ w ++ rest') ->
  dec_int it ca fa (pre' ++ w ++ rest') (lenN pre') = Ok z (lenN pre' + width_bytes it).
Proof.
  intros L W Hs E pre' Hs'.
  destruct (split_at w (lenN pre + width_bytes it) (lenN pre)) as (w1 & w2 & -> & Hw); [lia|lia|].
  assert (Hw1 : width_bytes it = lenN w1) by lia. rewrite Hw1 in *. rewrite <- app_assoc in *.
  destruct (proj2 (delim_dec_int it ca fa) pre w1 (w2 ++ rest) z Hs E) as [_ R]. apply R. exact Hs'.
Qed.
Definition int_field (it : ity) (f : fspec) (ca : cattr) (fa : fattr) (en : env) : rd val :=
  z <- dec_int it ca fa ;; close f en (VInt z).
Lemma whole_word_inv f : whole_word f = true ->
  f_use f = true /\ f_length f = None /\ f_skip_decode f = None /\ f_from_str f = None /\ f_if f = None
  /\ f_with_decode f = None.
Proof.
  unfold whole_word, absent. intros H.
  destruct (f_use f), (f_length f), (f_skip_decode f), (f_from_str f), (f_if f), (f_with_decode f); try discriminate. repeat split; reflexivity.
Qed.
Lemma dec_field_int it f ca fa en d p : whole_word f = true -> f_offset f = None ->
  dec_field (dec (TInt it)) f ca fa en d p =
  match dec_int it ca fa d p with
  | Ok z q => close f en (VInt z) d (if f_untake f then p else q)
  | Err e q => Err e q | Panic => Panic | Hang => Hang
  end.
Proof.
  intros Hw Ho. destruct (whole_word_inv f Hw) as (_ & _ & H1 & H2 & H3 & H4).
  unfold dec_field, dec_offset. rewrite Ho, H4, H1, H2, H3. cbn [eval_opt option_map dec].
  unfold get_position, bind, ret. destruct (dec_int it ca fa d p) as [z q|e q| |]; try reflexivity.
  destruct (f_untake f); reflexivity.
Qed.
Lemma close_stays f en v d p : match close f en v d p with Ok _ q | Err _ q => q = p | _ => False end.
Proof. unfold close. destruct (f_check f); [destruct (val_eqb _ _)|]; reflexivity. Qed.

Lemma confined_untaken {B} it f ca fa en n (k : val -> rd B) : whole_word f = true -> f_offset f = None ->
  f_untake f = true -> a_length fa = None -> (forall a, tame false (k a)) -> (forall a, confined (N.max n (width_bytes it)) (k a)) ->
  confined n (v <- dec_field (dec (TInt it)) f ca fa en ;; k v).
Proof.
  intros Hw Ho Hu L Tk Ck pre w rest b Hs E. unfold bind in E.
  rewrite dec_field_int in E by assumption. rewrite Hu in E.
  destruct (dec_int it ca fa (pre ++ w ++ rest) (lenN pre)) as [z q|e q| |] eqn:Ei; try discriminate.
  destruct (dec_int_width _ _ _ _ _ _ _ L Hs (in_pre _ _ _) Ei) as [-> Hq].
  pose proof (close_stays f en (VInt z) (pre ++ w ++ rest) (lenN pre)) as Q.
  destruct (close f en (VInt z) (pre ++ w ++ rest) (lenN pre)) as [v p1|e p1| |] eqn:Ec; try discriminate. subst p1.
  destruct (Ck v pre w rest b Hs E) as [C R]. split; [lia|]. intros rest' pre' Hs'.
  unfold bind. rewrite dec_field_int by assumption. rewrite Hu.
  rewrite (dec_int_prefix it ca fa pre w rest rest' z L) by (try assumption; lia).
  assert (Ec' : close f en (VInt z) (pre' ++ w ++ rest') (lenN pre') = Ok v (lenN pre')).
  { revert Ec. unfold close, ret, fail. destruct (f_check f); [destruct (val_eqb _ _)|]; intros Ec; inversion Ec; reflexivity. }
  rewrite Ec'. apply R. exact Hs'.
Qed.
Lemma confined_word it f ca fa en : whole_word f = true -> f_offset f = None -> f_untake f = false ->
  a_length fa = None -> a_remaining fa = false -> confined (width_bytes it) (dec_field (dec (TInt it)) f ca fa en).
Proof.
  intros Hw Ho Hu L Hr pre w rest a Hs E.
  assert (D : delim (dec_field (dec (TInt it)) f ca fa en)).
  { apply delim_field; try assumption.
    - intros g Eg. destruct (whole_word_inv f Hw) as (_ & _ & _ & _ & _ & Q). congruence.
    - apply delim_map, delim_dec_int. }
  destruct (proj2 D pre w rest a Hs E) as [_ R]. split; [|exact R].
  rewrite dec_field_int in E by assumption. rewrite Hu in E.
  destruct (dec_int it ca fa (pre ++ w ++ rest) (lenN pre)) as [z q|e q| |] eqn:Ei; try discriminate.
  destruct (dec_int_width _ _ _ _ _ _ _ L Hs (in_pre _ _ _) Ei) as [-> Hq].
  pose proof (close_stays f en (VInt z) (pre ++ w ++ rest) (lenN pre + width_bytes it)) as Q.
  rewrite E in Q. lia.
Qed.

Lemma no_lookahead_inv f : no_lookahead f = true ->
  f_remaining f = false /\ f_loop f = None /\ f_try_count f = None /\ f_offset f = None.
Proof.
  unfold no_lookahead, absent. intros H.
  destruct (f_remaining f), (f_loop f), (f_try_count f), (f_offset f); try discriminate. auto.
Qed.
Lemma no_lookahead_delimits f en fa : no_lookahead f = true -> modifiers f en = Some fa -> delimits fa = true.
Proof.
  intros H E. destruct (no_lookahead_inv f H) as (H1 & H2 & H3 & H4).
  unfold modifiers in E. destruct (f_use f); [|injection E as <-; reflexivity].
  destruct (match f_order f with Some (OConst b) => _ | Some (OVar e) => _ | None => _ end); [|discriminate].
  injection E as <-. unfold delimits. cbn. rewrite H1, H2, H3. reflexivity.
Qed.
Lemma delimits_inv fa : delimits fa = true -> a_remaining fa = false /\ a_loop fa = None /\ a_try_count fa = None.
Proof.
  unfold delimits, absent. destruct (a_remaining fa), (a_loop fa), (a_try_count fa); try discriminate. auto.
Qed.

Definition L (t : ty) : Prop := delimited t = true -> each_decoder delim t ->
  forall ca fa, delimits fa = true -> delim (dec t ca fa).

Lemma fields_delim inherit vars fs : Forall (fun ft => L (snd ft)) fs ->
  Forall (with_fine delim) fs ->
  forall seen, delimited_fields delimited seen fs = true ->
  forall ca prev done, delimits prev = true ->
  tame false (dec_fields dec inherit vars fs ca prev done)
  /\ confined seen (dec_fields dec inherit vars fs ca prev done).
Proof.
  induction fs as [|[f t] r IH]; intros HF HW seen HD ca prev done HP.
  - cbn [dec_fields]. cbn in HD. apply N.eqb_eq in HD. subst seen. split; [apply tame_ret|apply confined_ret].
  - inversion HF as [|? ? Ht HF']; subst. cbn [snd] in Ht.
    inversion HW as [|? ? [Hw1 Hw2] HW']; subst. cbn [fst snd] in Hw1, Hw2.
    cbn [delimited_fields] in HD. apply andb_prop in HD. destruct HD as [Hn HD].
    cbn [dec_fields]. destruct (modifiers f (mkenv done vars)) as [own|] eqn:Em.
    2:{ split; [apply tame_panic; reflexivity|]. intros pre w rest a Hs E. discriminate. }
    set (fa := if inherit && negb (f_use f) then prev else own).
    assert (Hfa : delimits fa = true).
    { unfold fa. destruct (inherit && negb (f_use f)); [exact HP|exact (no_lookahead_delimits _ _ _ Hn Em)]. }
    destruct (no_lookahead_inv f Hn) as (_ & _ & _ & Ho).
    destruct (delimits_inv fa Hfa) as (Hr & _ & _).
    assert (General : negb (f_untake f) && delimited t && (seen =? 0) && delimited_fields delimited 0 r = true ->
      tame false (v <- dec_field (dec t) f ca fa (mkenv done vars) ;;
        dec_fields dec inherit vars r (publish f (mkenv (done ++ [v]) vars) ca) fa (done ++ [v]))
      /\ confined seen (v <- dec_field (dec t) f ca fa (mkenv done vars) ;;
        dec_fields dec inherit vars r (publish f (mkenv (done ++ [v]) vars) ca) fa (done ++ [v]))).
    { intros G. apply andb_prop in G. destruct G as [G G4]. apply andb_prop in G. destruct G as [G G3].
      apply andb_prop in G. destruct G as [G1 G2]. apply negb_true_iff in G1. apply N.eqb_eq in G3. subst seen.
      apply delim_bind.
      - apply delim_field; try assumption. exact (Ht G2 Hw2 ca fa Hfa).
      - intros v. apply (IH HF' HW' 0 G4). exact Hfa. }
    destruct t; try (apply General; exact HD).
    destruct (whole_word f) eqn:Hw; [|apply General; exact HD].
    assert (Hl : a_length fa = None).
    { destruct (whole_word_inv f Hw) as (U & Lf & _). unfold fa. rewrite U, andb_false_r.
      destruct (modifiers_inv _ _ _ Em) as [[Q _]|(_ & Q & _)]; [congruence|]. rewrite Q, Lf. reflexivity. }
    assert (Tf : tame false (dec_field (dec (TInt t)) f ca fa (mkenv done vars))).
    { apply (tame_field false _ f ca fa _ (TInt t)); [exact Ho| |discriminate|].
      { intros g Eg. destruct (whole_word_inv f Hw) as (_ & _ & _ & _ & _ & Q). congruence. } apply tame_map, tame_dec_int. discriminate. }
    destruct (f_untake f) eqn:Hu.
    + split.
      * apply tame_bind; [exact Tf|]. intros v. exact (proj1 (IH HF' HW' _ HD _ fa _ Hfa)).
      * apply confined_untaken; try assumption.
        -- intros v. exact (proj1 (IH HF' HW' _ HD _ fa _ Hfa)).
        -- intros v. exact (proj2 (IH HF' HW' _ HD _ fa _ Hfa)).
    + split.
      * apply tame_bind; [exact Tf|]. intros v. exact (proj1 (IH HF' HW' _ HD _ fa _ Hfa)).
      * apply (confined_weaken (width_bytes t + (seen - width_bytes t))); [lia|].
        apply confined_bind; [exact Tf|apply confined_word; assumption| |].
        -- intros v. exact (proj1 (IH HF' HW' _ HD _ fa _ Hfa)).
        -- intros v. exact (proj2 (IH HF' HW' _ HD _ fa _ Hfa)).
Qed.

Lemma delim_advance0 : delim (advance 0).
Proof.
  assert (X : forall d p, small d -> p <= lenN d -> advance 0 d p = Ok tt p).
  { intros d p Hs Hp. unfold advance. unfold small in Hs. rewrite wadd_small by lia. f_equal. lia. }
  split.
  - intros d p Hs Hp. rewrite X by assumption. lia.
  - intros pre w rest a Hs E. rewrite X in E by (assumption || apply in_pre). injection E as <- E.
    apply nothing_consumed in E. subst w. split; [lia|]. intros rest' pre' Hs'.
    rewrite X by (assumption || apply in_pre). f_equal. rewrite lenN_nil. lia.
Qed.
Definition arm_body (ca : cattr) (vars : list (nat * N)) (v : vspec) (fs : list (fspec * ty)) (i : nat) : rd val :=
  match modifiers (v_attr v) (mkenv [] vars) with
  | Some prev => _ <- dec_offset (f_offset (v_attr v)) (mkenv [] vars);;
      xs <- dec_fields dec (negb (v_named v)) vars fs ca prev [];; ret (VVariant i xs)
  | None => panic
  end.
Lemma delim_body ca vars v fs i : Forall (fun ft => L (snd ft)) fs -> Forall (with_fine delim) fs ->
  no_lookahead (v_attr v) = true -> delimited_fields delimited 0 fs = true -> delim (arm_body ca vars v fs i).
Proof.
  intros HL HW Hn HO. unfold arm_body.
  destruct (modifiers (v_attr v) (mkenv [] vars)) as [prev|] eqn:Em; [|apply delim_panic].
  destruct (no_lookahead_inv _ Hn) as (_ & _ & _ & Ho).
  unfold dec_offset. rewrite Ho. cbn [eval_opt option_map].
  apply delim_bind; [apply delim_ret|intros _]. apply delim_map.
  apply fields_delim; [exact HL|exact HW|exact HO|]. exact (no_lookahead_delimits _ _ _ Hn Em).
Qed.

Lemma arms_delim hit nomatch ca vars vs :
  Forall (fun vf => Forall (fun ft => L (snd ft)) (snd vf)) vs ->
  forallb (fun vf : vspec * list (fspec * ty) =>
                 no_lookahead (v_attr (fst vf)) && delimited_fields delimited 0 (snd vf)) vs = true ->
  every (fun vf : vspec * list (fspec * ty) => Forall (with_fine delim) (snd vf)) vs ->
  forall i next, delim (dec_arms dec hit (fun _ => 0) nomatch ca vars vs i next).
Proof.
  induction vs as [|[v fs] r IH]; intros HL HO HW i next.
  - cbn [dec_arms]. apply delim_fail.
  - inversion HL as [|? ? HL1 HL2]; subst. cbn [forallb fst snd] in HO.
    apply andb_prop in HO. destruct HO as [HO1 HO2]. apply andb_prop in HO1. destruct HO1 as [Hn HO1].
    cbn [dec_arms]. destruct (hit v (variant_index v next)); [|apply IH; try assumption; exact (proj2 HW)].
    apply delim_bind; [apply delim_advance0|intros _]. exact (delim_body ca vars v fs i HL1 (proj1 HW) Hn HO1).
Qed.

Lemma starts_both a b l : starts_with a l = true -> starts_with b l = true ->
  starts_with a b = true \/ starts_with b a = true.
Proof.
  rewrite !starts_with_iff. intros [x ->] [y E].
  destruct (Nat.le_ge_cases (length a) (length b)) as [H|H].
  - left. exists (skipn (length a) b).
    assert (F : firstn (length a) (b ++ y) = a).
    { rewrite <- E, firstn_app, firstn_all, Nat.sub_diag, firstn_O, app_nil_r. reflexivity. }
    rewrite firstn_app in F. replace (length a - length b)%nat with O in F by lia.
    rewrite firstn_O, app_nil_r in F. rewrite <- F at 1. symmetry. apply firstn_skipn.
  - right. exists (skipn (length b) a).
    assert (F : firstn (length b) (a ++ x) = b).
    { rewrite E, firstn_app, firstn_all, Nat.sub_diag, firstn_O, app_nil_r. reflexivity. }
    rewrite firstn_app in F. replace (length b - length a)%nat with O in F by lia.
    rewrite firstn_O, app_nil_r in F. rewrite <- F at 1. symmetry. apply firstn_skipn.
Qed.
Definition prefix_hit (whole : bytes) (v : vspec) (_ : N) : bool :=
  v_default v || starts_with (variant_bytes v) whole.
Definition prefix_eat (v : vspec) : N := if v_default v then 0 else lenN (variant_bytes v).

Lemma arms_prefix nomatch ca vars vs :
  Forall (fun vf => Forall (fun ft => L (snd ft)) (snd vf)) vs ->
  forallb (fun vf : vspec * list (fspec * ty) =>
                 no_lookahead (v_attr (fst vf)) && delimited_fields delimited 0 (snd vf)) vs = true ->
  every (fun vf : vspec * list (fspec * ty) => Forall (with_fine delim) (snd vf)) vs ->
  forallb (fun vf : vspec * list (fspec * ty) => negb (v_default (fst vf))) vs = true ->
  apart (map (fun vf => literal (fst vf)) vs) = true ->
  forall i next pre w rest a, small (pre ++ w ++ rest) ->
  dec_arms dec (prefix_hit (w ++ rest)) prefix_eat nomatch ca vars vs i next (pre ++ w ++ rest) (lenN pre)
    = Ok a (lenN pre + lenN w) ->
  (exists vf, In vf vs /\ starts_with (literal (fst vf)) w = true) /\
  forall pre' rest', small (pre' ++ w ++ rest') ->
  dec_arms dec (prefix_hit (w ++ rest')) prefix_eat nomatch ca vars vs i next (pre' ++ w ++ rest') (lenN pre')
    = Ok a (lenN pre' + lenN w).
Proof.
  induction vs as [|[v fs] r IH]; intros HL HO HW HD HA i next pre w rest a Hs E; [discriminate E|].
  inversion HL as [|? ? HL1 HL2]; subst. cbn [forallb fst snd] in HO, HD. cbn [map apart fst] in HA.
  apply andb_prop in HO. destruct HO as [HO1 HO2]. apply andb_prop in HO1. destruct HO1 as [Hn HO1].
  apply andb_prop in HD. destruct HD as [HD1 HD2]. apply negb_true_iff in HD1.
  apply andb_prop in HA. destruct HA as [HA1 HA2].
  pose proof (delim_body ca vars v fs i HL1 (proj1 HW) Hn HO1) as [TB CB].
  cbn [dec_arms] in E |- *.
  change (prefix_hit (w ++ rest) v (variant_index v next)) with (v_default v || starts_with (literal v) (w ++ rest)) in E.
  rewrite HD1, orb_false_l in E.
  destruct (starts_with (literal v) (w ++ rest)) eqn:Eh.
  - fold (arm_body ca vars v fs i) in E. unfold bind in E. unfold advance, prefix_eat in E. rewrite HD1 in E.
    change (variant_bytes v) with (literal v) in E.
    assert (Hlen : lenN pre + lenN (literal v) <= lenN (pre ++ w ++ rest)).
    { rewrite lenN_app. apply starts_len in Eh. lia. }
    rewrite wadd_small in E by (unfold small in Hs; lia).
    pose proof (tame_ok _ _ _ _ _ _ TB Hs Hlen E) as Hq.
    assert (Hw : exists w2, w = literal v ++ w2).
    { apply starts_with_iff in Eh. destruct Eh as [x Ex].
      destruct (split_at w (lenN pre + lenN (literal v)) (lenN pre)) as (w1 & w2 & -> & Hw1); [lia|lia|].
      rewrite <- app_assoc in Ex. apply app_cut in Ex; [|unfold lenN in Hw1; lia]. destruct Ex as [-> _]. eauto. }
    destruct Hw as [w2 ->].
    split; [exists (v, fs); split; [left; reflexivity|apply starts_with_app]|].
    intros pre' rest' Hs'.
    change (prefix_hit ((literal v ++ w2) ++ rest') v (variant_index v next))
      with (v_default v || starts_with (literal v) ((literal v ++ w2) ++ rest')).
    rewrite <- app_assoc, starts_with_app, orb_true_r.
    fold (arm_body ca vars v fs i). unfold bind. unfold advance, prefix_eat. rewrite HD1.
    change (variant_bytes v) with (literal v).
    rewrite <- !app_assoc in *.
    pose proof (small_pre pre' (literal v) (w2 ++ rest') Hs') as Sm.
    rewrite wadd_small by lia.
    assert (E2 : arm_body ca vars v fs i ((pre ++ literal v) ++ w2 ++ rest) (lenN (pre ++ literal v))
      = Ok a (lenN (pre ++ literal v) + lenN w2)).
    { rewrite <- app_assoc, lenN_app. rewrite E. f_equal. rewrite lenN_app. lia. }
    destruct (CB (pre ++ literal v) w2 rest a) as [_ R]; [rewrite <- app_assoc; exact Hs|exact E2|].
    specialize (R rest' (pre' ++ literal v)). rewrite <- app_assoc, lenN_app in R.
    rewrite R by exact Hs'. f_equal. rewrite lenN_app. lia.
  - destruct (IH HL2 HO2 (proj2 HW) HD2 HA2 _ _ _ _ _ _ Hs E) as [(vf & Hin & Hst) R].
    split; [exists vf; split; [right; exact Hin|exact Hst]|]. intros pre' rest' Hs'.
    change (prefix_hit (w ++ rest') v (variant_index v next)) with (v_default v || starts_with (literal v) (w ++ rest')).
    rewrite HD1, orb_false_l.
    destruct (starts_with (literal v) (w ++ rest')) eqn:Eh'.
    + exfalso. assert (Hst' : starts_with (literal (fst vf)) (w ++ rest') = true).
      { apply starts_with_iff in Hst. destruct Hst as [x ->]. rewrite <- app_assoc. apply starts_with_app. }
      rewrite forallb_forall in HA1.
      assert (H1 : In (literal (fst vf)) (map (fun vf => literal (fst vf)) r)) by (apply in_map_iff; eauto).
      apply HA1 in H1. apply andb_prop in H1. destruct H1 as [N1 N2].
      apply negb_true_iff in N1, N2.
      destruct (starts_both _ _ _ Eh' Hst'); congruence.
    + apply R. exact Hs'.
Qed.

Lemma delimits_key fa : delimits fa = true -> delimits (key_fattr fa) = true.
Proof. unfold key_fattr. destruct (a_split fa); [reflexivity|auto]. Qed.
Lemma delimits_value fa : delimits fa = true -> delimits (value_fattr fa) = true.
Proof. unfold value_fattr. destruct (a_linend_value fa); [reflexivity|]. destruct (a_linend fa); [reflexivity|auto]. Qed.

Lemma delimited_offset_free t : delimited t = true -> offset_free t = true.
Proof.
  assert (F : forall fs, Forall (fun ft : fspec * ty => delimited (snd ft) = true -> offset_free (snd ft) = true) fs ->
    forall seen, delimited_fields delimited seen fs = true -> offset_free_fields offset_free fs = true).
  { induction 1 as [|[f t0] r Ht Hr IHr]; intros seen H; [reflexivity|].
    cbn [delimited_fields] in H. apply andb_prop in H. destruct H as [H0 H].
    destruct (no_lookahead_inv f H0) as (_ & _ & _ & Ho).
    unfold offset_free_fields. cbn [forallb fst snd]. unfold no_offset. rewrite Ho. cbn [andb].
    cbn [snd] in Ht.
    assert (G : negb (f_untake f) && delimited t0 && (seen =? 0) && delimited_fields delimited 0 r = true ->
       offset_free t0 && offset_free_fields offset_free r = true).
    { intros G. apply andb_prop in G. destruct G as [G G4]. apply andb_prop in G. destruct G as [G G3].
      apply andb_prop in G. destruct G as [G1 G2]. rewrite (Ht G2). exact (IHr _ G4). }
    destruct t0; try (apply G; exact H).
    destruct (whole_word f); [|apply G; exact H].
    cbn [offset_free andb]. destruct (f_untake f); exact (IHr _ H). }
  induction t as [t Hl|n t IH|ts IH|t IH|t IH|k v IHk IHv|t IH|named c fs IH|e vs IH] using ty_nested_ind;
    cbn [delimited offset_free]; try (exact IH).
  - destruct t; try discriminate Hl; reflexivity.
  - intros H. rewrite forallb_forall in *. rewrite Forall_forall in IH. auto.
  - intros H. apply andb_prop in H. destruct H. rewrite IHk, IHv by assumption. reflexivity.
  - discriminate.
  - apply F. exact IH.
  - intros H. apply andb_prop in H. destruct H as [_ H]. rewrite forallb_forall in *. rewrite Forall_forall in IH.
    intros vf Hin. specialize (H vf Hin). apply andb_prop in H. destruct H as [H1 H2].
    destruct (no_lookahead_inv _ H1) as (_ & _ & _ & Ho). unfold no_offset. rewrite Ho. cbn [andb].
    exact (F _ (IH vf Hin) _ H2).
Qed.

Theorem dec_delim t : L t.
Proof.
  induction t as [t Hl|n t IH|ts IH|t IH|t IH|k v IHk IHv|t IH|named c fs IH|e vs IH] using ty_nested_ind;
    intros HD HW ca fa HF.
  - destruct (delimits_inv fa HF) as (Hr & _ & _).
    destruct t; try discriminate Hl; cbn [dec]; try apply delim_map; try apply delim_ret.
    + apply delim_dec_int.
    + apply delim_byte.
    + apply delim_byte.
    + apply delim_fixed.
    + apply delim_fixed.
    + exact (delim_dec_raw ca fa Hr).
    + exact (delim_dec_string ca fa Hr).
    + apply delim_mac.
    + apply delim_ipv4.
    + apply delim_ipv6.
    + apply delim_ipaddr.
    + exact (delim_netaddr ca fa).
    + apply HW.
  - cbn [dec]. apply delim_map, delim_dec_n. exact (IH HD HW ca fa HF).
  - cbn [dec]. apply delim_map, delim_dec_seq. cbn [delimited] in HD.
    rewrite forallb_forall in HD. rewrite Forall_forall in *. intros m Hm.
    apply in_map_iff in Hm. destruct Hm as (t & <- & Hin). exact (IH t Hin (HD t Hin) (each_decoder_in _ _ _ HW Hin) ca fa HF).
  - cbn [dec]. destruct (delimits_inv fa HF) as (_ & Hl & Ht). rewrite Hl.
    apply delim_map. apply delim_counted; [exact Ht|]. exact (IH HD HW ca fa HF).
  - cbn [dec]. destruct (delimits_inv fa HF) as (_ & Hl & Ht).
    apply delim_map. apply delim_counted; [exact Ht|]. exact (IH HD HW ca fa HF).
  - cbn [dec]. destruct (delimits_inv fa HF) as (_ & Hl & Ht).
    cbn [delimited] in HD. apply andb_prop in HD. destruct HD as [H1 H2].
    apply delim_map. apply delim_counted; [exact Ht|].
    apply delim_bind; [exact (IHk H1 (proj1 HW) ca _ (delimits_key fa HF))|].
    intros x. apply delim_map. exact (IHv H2 (proj2 HW) ca _ (delimits_value fa HF)).
  - discriminate.
  - cbn [dec]. apply delim_map. apply fields_delim; [exact IH|exact (with_fine_all _ _ HW)|exact HD|reflexivity].
  - cbn [dec]. destruct vs as [|vf vs']; [apply delim_ret|].
    remember (vf :: vs') as vs eqn:Evs. pose proof HD as HD0. cbn [delimited] in HD.
    apply andb_prop in HD. destruct HD as [HB HD].
    assert (HW2 : every (fun vf : vspec * list (fspec * ty) => Forall (with_fine delim) (snd vf)) vs).
    { cbn [each_decoder] in HW. clear - HW. induction vs as [|[v fs] r IH]; [exact HW|].
      split; [exact (with_fine_all _ _ (proj1 HW))|exact (IH (proj2 HW))]. }
    destruct (e_branching e) eqn:Eb.
    + apply delim_bind.
      * unfold enum_tag. destruct (a_branch fa); [apply delim_ret|].
        destruct (a_byte_count fa); [apply delim_uint|].
        destruct (c_byte_count (e_c e)); [apply delim_uint|apply delim_u8].
      * intros tag. apply arms_delim; assumption.
    + apply andb_prop in HB. destruct HB as [HB1 HB2]. split.
      * intros d p Hs Hp. apply arms_tame; try assumption.
        -- rewrite Forall_forall. intros; apply Forall_forall; intros; apply dec_tame.
        -- exact (delimited_offset_free (TEnum e vs) HD0).
        -- clear - HW2. induction vs as [|[v fs] r IH]; [exact HW2|].
           split; [|exact (IH (proj2 HW2))]. eapply Forall_impl; [|exact (proj1 HW2)]. apply with_fine_impl. intros m Hm. exact (proj1 Hm).
        -- discriminate.
        -- intros v n Hh. destruct (v_default v); [lia|]. cbn in Hh. apply starts_remaining; assumption.
      * intros pre w rest a Hs E. rewrite remaining_app in E.
        destruct (arms_prefix _ _ _ _ IH HD HW2 HB1 HB2 _ _ _ _ _ _ Hs E) as [_ R].
        split; [lia|]. intros rest' pre' Hs'. cbv beta. rewrite remaining_app. apply R. exact Hs'.
    + discriminate.
    + apply delim_bind; [apply delim_bytes|]. intros x. apply arms_delim; assumption.
Qed.
