(** Facts about every reading call and about histories of reading calls. *)
From Verif Require Export ReaderLemmas SpecOps.

(** A read that either succeeds moving forward inside the data, or fails in place. *)
Definition well_behaved {A} (m : rd A) : Prop := forall d p, small d -> p <= lenN d ->
  (exists v p', m d p = Ok v p' /\ p <= p' <= lenN d) \/
  (exists e, m d p = Err e p /\ e_pos e = p).

Lemma wb_rmap {A B} (f : A -> B) m : well_behaved m -> well_behaved (rmap f m).
Proof.
  intros H d p Hs Hp. unfold rmap, bind, ret.
  destruct (H d p Hs Hp) as [(v & p' & -> & Hb)|(e & -> & He)].
  - left; exists (f v), p'; auto.
  - right; exists e; auto.
Qed.

Lemma wb_ext {A} (m m' : rd A) : (forall d p, small d -> p <= lenN d -> m d p = m' d p) ->
  well_behaved m' -> well_behaved m.
Proof. intros E H d p Hs Hp. rewrite E by assumption. apply H; assumption. Qed.

Lemma wb_take_bytes n : well_behaved (take_bytes n).
Proof.
  intros d p Hs Hp. destruct (N.le_gt_cases (p + n) (lenN d)).
  - rewrite take_bytes_in by assumption. left; do 2 eexists; split; [reflexivity|lia].
  - rewrite take_bytes_out by (assumption || lia). right; eexists; split; reflexivity.
Qed.
Lemma wb_untake_bytes n : well_behaved (untake_bytes n).
Proof.
  intros d p Hs Hp. destruct (N.le_gt_cases (p + n) (lenN d)).
  - rewrite untake_bytes_in by assumption. left; do 2 eexists; split; [reflexivity|lia].
  - rewrite untake_bytes_out by (assumption || lia). right; eexists; split; reflexivity.
Qed.

Lemma wb_idx {B} (f : byte -> B) (m : rd bytes) (m1 : m = take_bytes 1 \/ m = untake_bytes 1) :
  well_behaved (l <- m ;; b <- idx0 l ;; ret (f b)).
Proof.
  intros d p Hs Hp. unfold bind, idx0, ret.
  destruct (N.le_gt_cases (p + 1) (lenN d)).
  - destruct (sub_1 d p) as [b Hb]; [assumption|].
    destruct m1 as [-> | ->]; [rewrite take_bytes_in by assumption|rewrite untake_bytes_in by assumption];
      rewrite Hb; left; do 2 eexists; (split; [reflexivity|lia]).
  - destruct m1 as [-> | ->]; [rewrite take_bytes_out by (assumption || lia)
                             |rewrite untake_bytes_out by (assumption || lia)];
      right; eexists; (split; reflexivity).
Qed.

Lemma wb_take_n bo size n : (size <? n) && (match bo with Le => true | Be => false end) = false ->
  well_behaved (take_n bo size n).
Proof.
  intros Hok d p Hs Hp. destruct bo; cbn; unfold take_n_be, take_n_le, panic, fail;
    destruct (N.ltb_spec size n); cbn in Hok; try discriminate.
  - right; eexists; split; reflexivity.
  - apply wb_rmap with (f := fun l => be_val (zeros (size - n) ++ l)); auto using wb_take_bytes.
  - apply wb_rmap with (f := fun l => le_val (l ++ zeros (size - n))); auto using wb_take_bytes.
Qed.
Lemma wb_untake_n bo size n : (size <? n) && (match bo with Le => true | Be => false end) = false ->
  well_behaved (untake_n bo size n).
Proof.
  intros Hok d p Hs Hp. destruct bo; cbn; unfold untake_n_be, untake_n_le, panic, fail;
    destruct (N.ltb_spec size n); cbn in Hok; try discriminate.
  - right; eexists; split; reflexivity.
  - apply wb_rmap with (f := fun l => be_val (zeros (size - n) ++ l)); auto using wb_untake_bytes.
  - apply wb_rmap with (f := fun l => le_val (l ++ zeros (size - n))); auto using wb_untake_bytes.
Qed.

Lemma find_sub_in needle d p i : small d -> p <= lenN d ->
  memmem_find needle (skipn (N.to_nat p) d) = Some i ->
  find_subsequence needle d p = Ok (sub d p (N.of_nat i)) (p + N.of_nat i + lenN needle)
  /\ p + N.of_nat i + lenN needle <= lenN d.
Proof.
  unfold small; intros Hs Hp Hm.
  pose proof (memmem_some _ _ _ Hm) as [Ho _]. apply occurs_len in Ho.
  rewrite skipn_length in Ho.
  assert (Hb : p + N.of_nat i + lenN needle <= lenN d) by (unfold lenN in *; lia).
  split; [|exact Hb].
  unfold find_subsequence. rewrite remaining_in by exact Hp. rewrite Hm. unfold slice_ok.
  rewrite !(wadd_small (N.of_nat i)) by lia. rewrite !wadd_small by lia.
  rewrite slice_get_ok by lia. replace (p + N.of_nat i - p) with (N.of_nat i) by lia.
  f_equal. lia.
Qed.
Lemma find_needle_in needle incl d p i : small d -> p <= lenN d ->
  memmem_find needle (skipn (N.to_nat p) d) = Some i ->
  let n := if incl : bool then N.of_nat i + lenN needle else N.of_nat i in
  find_subsequence_needle needle incl d p = Ok (sub d p n) (p + n) /\ p + n <= lenN d.
Proof.
  intros Hs Hp Hm n; unfold small in Hs.
  pose proof (memmem_some _ _ _ Hm) as [Ho _]. apply occurs_len in Ho.
  rewrite skipn_length in Ho.
  assert (Hb : p + N.of_nat i + lenN needle <= lenN d) by (unfold lenN in *; lia).
  assert (Hn : p + n <= lenN d) by (subst n; destruct incl; lia).
  split; [|exact Hn].
  unfold find_subsequence_needle. rewrite remaining_in by exact Hp. rewrite Hm. unfold slice_ok.
  rewrite (wadd_small (N.of_nat i)) by lia. fold n. rewrite !wadd_small by lia.
  rewrite slice_get_ok by lia. replace (p + n - p) with n by lia. reflexivity.
Qed.
Lemma finds_in pats d p s e : small d -> p <= lenN d ->
  ac_find pats (skipn (N.to_nat p) d) = Some (s, e) ->
  find_subsequences pats d p = Ok (sub d p (N.of_nat s)) (p + N.of_nat e)
  /\ p + N.of_nat e <= lenN d /\ (s <= e)%nat.
Proof.
  unfold small; intros Hs Hp Hm.
  pose proof (ac_find_some _ _ _ _ Hm) as [Hb _]. rewrite skipn_length in Hb.
  assert (Hn : p + N.of_nat e <= lenN d) by (unfold lenN in *; lia).
  split; [|split; [exact Hn|lia]].
  unfold find_subsequences. rewrite remaining_in by exact Hp. rewrite Hm. unfold slice_ok.
  rewrite !wadd_small by lia.
  rewrite slice_get_ok by lia. replace (p + N.of_nat s - p) with (N.of_nat s) by lia. reflexivity.
Qed.
Lemma finds_needle_in pats incl d p s e : small d -> p <= lenN d ->
  ac_find pats (skipn (N.to_nat p) d) = Some (s, e) ->
  let n := if incl : bool then N.of_nat e else N.of_nat s in
  find_subsequences_needle pats incl d p = Ok (sub d p n) (p + n)
  /\ p + n <= lenN d.
Proof.
  intros Hs Hp Hm n; unfold small in Hs.
  pose proof (ac_find_some _ _ _ _ Hm) as [Hb _]. rewrite skipn_length in Hb.
  assert (Hn : p + n <= lenN d) by (subst n; destruct incl; unfold lenN in *; lia).
  split; [|exact Hn].
  unfold find_subsequences_needle. rewrite remaining_in by exact Hp. rewrite Hm. unfold slice_ok.
  fold n. rewrite !wadd_small by lia.
  rewrite slice_get_ok by lia. replace (p + n - p) with n by lia. reflexivity.
Qed.

Lemma find_sub_none needle d p : p <= lenN d ->
  memmem_find needle (skipn (N.to_nat p) d) = None -> find_subsequence needle d p = Err (mkerr p Fail) p.
Proof. intros Hp H; unfold find_subsequence. rewrite remaining_in, H by exact Hp; reflexivity. Qed.

Lemma wb_find s : well_behaved (find_subsequence s).
Proof.
  intros d p Hs Hp. destruct (memmem_find s (skipn (N.to_nat p) d)) as [i|] eqn:E.
  - destruct (find_sub_in s d p i Hs Hp E) as [-> Hb]. left; do 2 eexists; split; [reflexivity|lia].
  - rewrite find_sub_none by assumption. right; eexists; split; reflexivity.
Qed.
Lemma wb_find_needle s b : well_behaved (find_subsequence_needle s b).
Proof.
  intros d p Hs Hp. destruct (memmem_find s (skipn (N.to_nat p) d)) as [i|] eqn:E.
  - destruct (find_needle_in s b d p i Hs Hp E) as [-> Hb]. left; do 2 eexists; split; [reflexivity|lia].
  - unfold find_subsequence_needle. rewrite remaining_in, E by exact Hp. right; eexists; split; reflexivity.
Qed.
Lemma wb_finds s : well_behaved (find_subsequences s).
Proof.
  intros d p Hs Hp. destruct (ac_find s (skipn (N.to_nat p) d)) as [[i j]|] eqn:E.
  - destruct (finds_in s d p i j Hs Hp E) as [-> Hb]. left; do 2 eexists; split; [reflexivity|lia].
  - unfold find_subsequences. rewrite remaining_in, E by exact Hp. right; eexists; split; reflexivity.
Qed.
Lemma wb_finds_needle s b : well_behaved (find_subsequences_needle s b).
Proof.
  intros d p Hs Hp. destruct (ac_find s (skipn (N.to_nat p) d)) as [[i j]|] eqn:E.
  - destruct (finds_needle_in s b d p i j Hs Hp E) as [-> Hb]. left; do 2 eexists; split; [reflexivity|lia].
  - unfold find_subsequences_needle. rewrite remaining_in, E by exact Hp. right; eexists; split; reflexivity.
Qed.

Lemma starts_len m l : starts_with m l = true -> lenN m <= lenN l.
Proof. intros H; apply starts_with_iff in H as [r ->]; rewrite lenN_app; lia. Qed.

Lemma wb_starts m : well_behaved (take_bytes_starts m).
Proof.
  intros d p Hs Hp. unfold take_bytes_starts. unfold small in Hs.
  destruct (N.ltb_spec (remaining_len d p) (lenN m)); [right; eexists; split; reflexivity|].
  rewrite remaining_len_eq in *.
  destruct (starts_with m (remaining d p)) eqn:E; [|right; eexists; split; reflexivity].
  left; do 2 eexists; split; [reflexivity|]. rewrite wadd_small by lia. lia.
Qed.

Lemma wb_take_array n : well_behaved (take_array n).
Proof.
  apply wb_ext with (m' := take_bytes n); [intros; apply take_array_bytes; assumption|apply wb_take_bytes].
Qed.

Lemma wb_rop o : wide_le o = false -> well_behaved (run_rop o).
Proof.
  intros Hw. destruct o; cbn [run_rop]; apply wb_rmap.
  - apply wb_take_array.
  - apply (wb_rmap (fun v => match bo with Le => rev v | Be => v end)), wb_take_array.
  - apply wb_take_bytes.
  - apply wb_starts.
  - apply wb_idx; auto.
  - apply wb_idx; auto.
  - destruct t; cbn [take_int]; (apply wb_rmap with (f := int_of_raw _));
      solve [apply wb_idx; auto | apply (wb_rmap (from_bytes _)), wb_take_bytes].
  - apply wb_take_n. reflexivity.
  - apply wb_take_n. exact Hw.
  - apply (wb_rmap (int_of_raw I64)), wb_take_n. exact Hw.
  - apply (wb_rmap (from_bytes _)), wb_take_bytes.
  - apply (wb_rmap (from_bytes _)), wb_take_bytes.
  - apply wb_find.
  - apply wb_find_needle.
  - apply wb_finds.
  - apply wb_finds_needle.
  - apply wb_untake_bytes.
  - apply wb_idx; auto.
  - apply wb_idx; auto.
  - destruct t; cbn [untake_int]; (apply wb_rmap with (f := int_of_raw _));
      solve [apply wb_idx; auto | apply (wb_rmap (from_bytes _)), wb_untake_bytes].
  - apply wb_untake_n. reflexivity.
  - apply wb_untake_n. exact Hw.
  - apply (wb_rmap (int_of_raw I64)), wb_untake_n. exact Hw.
  - apply (wb_rmap (from_bytes _)), wb_untake_bytes.
  - apply (wb_rmap (from_bytes _)), wb_untake_bytes.
Qed.

Lemma run_rops_in_bounds ops : forallb (fun o => negb (wide_le o)) ops = true ->
  forall d p, small d -> p <= lenN d ->
  exists outs q, run_rops ops d p = Some (outs, q) /\ p <= q <= lenN d /\ length outs = length ops.
Proof.
  induction ops as [|o ops IH]; cbn [forallb run_rops]; intros H d p Hs Hp.
  - exists [], p; split; [reflexivity|split; [lia|reflexivity]].
  - apply andb_prop in H as [Ho H]. apply negb_true_iff in Ho.
    destruct (wb_rop o Ho d p Hs Hp) as [(v & p' & -> & Hb)|(e & -> & He)].
    + destruct (IH H d p' Hs) as (outs & q & -> & Hq & HL); [lia|].
      exists (inl v :: outs), q; split; [reflexivity|split; [lia|cbn; lia]].
    + destruct (IH H d p Hs Hp) as (outs & q & -> & Hq & HL).
      exists (inr e :: outs), q; split; [reflexivity|split; [lia|cbn; lia]].
Qed.

Lemma run_rop_err o d p e p' : small d -> p <= lenN d -> run_rop o d p = Err e p' -> p' = p /\ e_pos e = p.
Proof.
  intros Hs Hp H. destruct (wide_le o) eqn:Hw.
  - assert (Hpan : run_rop o d p = Panic).
    { destruct o; cbn in Hw; try discriminate; apply andb_prop in Hw as [Hn Hk];
        destruct (named_order k) eqn:Ek; try discriminate; change (named_order k) with (order_of k) in Ek; apply N.ltb_lt in Hn;
        cbn [run_rop]; unfold rmap, bind, take_uint, take_sint, untake_uint, untake_sint, bind;
        rewrite Ek; [rewrite take_n_le_big by lia|rewrite take_n_le_big by lia| |]; try reflexivity;
        cbn [untake_n]; unfold untake_n_le; destruct (N.ltb_spec 8 n); try lia; reflexivity. }
    congruence.
  - destruct (wb_rop o Hw d p Hs Hp) as [(v & q & E & _)|(e' & E & He)].
    + congruence.
    + rewrite E in H. injection H as <- <-. auto.
Qed.

(** ** untake mirrors take *)
Definition mirrors {A} (u t : rd A) : Prop := forall d p, small d -> p < W64 -> u d p = unmoved (t d p) p.

Lemma mir_rmap {A B} (f : A -> B) u t : mirrors u t -> mirrors (rmap f u) (rmap f t).
Proof.
  intros H d p Hs Hp. unfold rmap, bind, ret. rewrite H by assumption.
  destruct (t d p); reflexivity.
Qed.
Lemma mir_bytes n : mirrors (untake_bytes n) (take_bytes n).
Proof. intros d p Hs Hp; apply untake_bytes_take; assumption. Qed.
Lemma mir_idx {B} (f : byte -> B) :
  mirrors (l <- untake_bytes 1 ;; b <- idx0 l ;; ret (f b)) (l <- take_bytes 1 ;; b <- idx0 l ;; ret (f b)).
Proof.
  intros d p Hs Hp. unfold bind, idx0, ret. rewrite untake_bytes_take by assumption.
  destruct (take_bytes 1 d p) as [l q|e q| |]; cbn [unmoved]; try reflexivity. destruct l; reflexivity.
Qed.
Lemma mir_n bo size n : mirrors (untake_n bo size n) (take_n bo size n).
Proof.
  destruct bo; cbn; unfold untake_n_be, take_n_be, untake_n_le, take_n_le; destruct (size <? n).
  - intros d p Hs Hp; reflexivity.
  - apply (mir_rmap (fun l => be_val (zeros (size - n) ++ l))), mir_bytes.
  - intros d p Hs Hp; reflexivity.
  - apply (mir_rmap (fun l => le_val (l ++ zeros (size - n)))), mir_bytes.
Qed.
Lemma untake_mirrors o u : untake_of o = Some u -> mirrors (run_rop u) (run_rop o).
Proof.
  destruct o; cbn [untake_of]; intros H; try discriminate; injection H as <-; cbn [run_rop]; apply mir_rmap.
  - apply mir_bytes.
  - apply mir_idx.
  - apply mir_idx.
  - destruct t; cbn [take_int untake_int]; apply (mir_rmap (int_of_raw _));
      solve [apply mir_idx | apply (mir_rmap (from_bytes _)), mir_bytes].
  - apply mir_n.
  - apply mir_n.
  - apply (mir_rmap (int_of_raw I64)), mir_n.
  - apply (mir_rmap (from_bytes _)), mir_bytes.
  - apply (mir_rmap (from_bytes _)), mir_bytes.
Qed.

(** ** Consecutive takes *)
Lemma takes_partition ns : forall d p vs q, small d -> p <= lenN d ->
  run_rops (map RTakeBytes ns) d p = Some (map (fun v => inl (RvBytes v)) vs, q) ->
  p <= q <= lenN d /\ concat vs = sub d p (q - p) /\ map (@lenN byte) vs = ns.
Proof.
  induction ns as [|n ns IH]; intros d p vs q Hs Hp; cbn [map run_rops run_rop].
  - intros H; injection H as H1 <-. destruct vs; [|discriminate].
    rewrite N.sub_diag. cbn. split; [lia|split; reflexivity].
  - unfold rmap, bind, ret.
    destruct (N.le_gt_cases (p + n) (lenN d)) as [Hin|Hout].
    + rewrite take_bytes_in by assumption.
      destruct (run_rops (map RTakeBytes ns) d (p + n)) as [[vs' q']|] eqn:E; [|discriminate].
      intros H; injection H as Hv <-.
      destruct vs as [|v vs]; [discriminate|]. cbn in Hv. injection Hv as <- Hv.
      subst vs'. apply IH in E; [|exact Hs|lia]. destruct E as (Hb & Hc & Hl).
      split; [lia|]. cbn [concat map]. rewrite Hc, Hl, lenN_sub by lia. split; [|reflexivity].
      replace (q' - p) with (n + (q' - (p + n))) by lia. rewrite sub_split; reflexivity.
    + rewrite take_bytes_out by (assumption || lia).
      destruct (run_rops (map RTakeBytes ns) d p) as [[vs' q']|]; [|discriminate].
      intros H; injection H as Hv _. destruct vs; discriminate.
Qed.

(** ** The statements of the reading properties *)
Lemma window_sub d p n : window d p n = sub d p n.
Proof. reflexivity. Qed.
Lemma named_order_of k : named_order k = order_of k.
Proof. destruct k; reflexivity. Qed.

Lemma take_int_spec k t d p : allocatable d ->
  take_int k t d p =
    if p + width_bytes t <=? size d
    then Ok (int_number (named_order k) t (window d p (width_bytes t))) (p + width_bytes t)
    else Err (mkerr p InvalidByteLength) p.
Proof.
  intros Hs. rewrite width_sizeN, named_order_of, int_number_eq. change size with (@lenN byte).
  destruct (N.leb_spec (p + sizeN t) (lenN d)).
  - rewrite take_int_in by assumption. reflexivity.
  - apply take_int_out; assumption.
Qed.
Lemma take_u24_spec k d p : allocatable d ->
  take_u24 k d p =
    if p + 3 <=? size d
    then Ok (number (named_order k) (window d p 3)) (p + 3)
    else Err (mkerr p InvalidByteLength) p.
Proof.
  intros Hs. rewrite named_order_of, number_from_bytes. unfold take_u24. change size with (@lenN byte).
  destruct (N.leb_spec (p + 3) (lenN d)).
  - rewrite take_n_in by (assumption || lia). reflexivity.
  - apply take_n_out; lia.
Qed.
Lemma take_float_spec n k d p : allocatable d -> 0 < n ->
  take_fixed (order_of k) n d p =
    if p + n <=? size d
    then Ok (number (named_order k) (window d p n)) (p + n)
    else Err (mkerr p InvalidByteLength) p.
Proof.
  intros Hs Hn. rewrite number_from_bytes. change (named_order k) with (order_of k). change size with (@lenN byte).
  destruct (N.leb_spec (p + n) (lenN d)).
  - rewrite take_fixed_in by assumption. reflexivity.
  - apply take_fixed_out; assumption.
Qed.
Lemma take_f32_spec k d p : allocatable d ->
  take_f32 k d p =
    if p + 4 <=? size d
    then Ok (number (named_order k) (window d p 4)) (p + 4)
    else Err (mkerr p InvalidByteLength) p.
Proof. intros Hs. apply take_float_spec; [exact Hs|lia]. Qed.
Lemma take_f64_spec k d p : allocatable d ->
  take_f64 k d p =
    if p + 8 <=? size d
    then Ok (number (named_order k) (window d p 8)) (p + 8)
    else Err (mkerr p InvalidByteLength) p.
Proof. intros Hs. apply take_float_spec; [exact Hs|lia]. Qed.

(** ** Every call that reads a given number of bytes *)
Definition answers (o : rop) (n : N) (f : bytes -> rval) : Prop := forall d p, allocatable d -> p <= size d ->
  run_rop o d p =
    if p + n <=? size d then Ok (f (window d p n)) (if peeks o then p else p + n)
    else Err (mkerr p InvalidByteLength) p.
Lemma answers_bytes n d p : allocatable d -> p <= size d ->
  take_bytes n d p = if p + n <=? size d then Ok (window d p n) (p + n) else Err (mkerr p InvalidByteLength) p.
Proof.
  intros Hs Hp. change size with (@lenN byte) in *. destruct (N.leb_spec (p + n) (lenN d)).
  - rewrite take_bytes_in by assumption. reflexivity.
  - apply take_bytes_out; auto.
Qed.
Lemma answers_n bo m n d p : n <= m -> allocatable d -> p <= size d ->
  take_n bo m n d p =
    if p + n <=? size d then Ok (number bo (window d p n)) (p + n) else Err (mkerr p InvalidByteLength) p.
Proof.
  intros Hn Hs Hp. change size with (@lenN byte) in *. rewrite number_from_bytes. destruct (N.leb_spec (p + n) (lenN d)).
  - rewrite take_n_in by assumption. reflexivity.
  - apply take_n_out; auto.
Qed.
Lemma answers_take o n f : peeks o = false -> reading o = Some (n, f) -> answers o n f.
Proof.
  intros Ho H d p Hs Hp. destruct o; try discriminate; cbn [reading run_rop peeks] in *; unfold rmap, bind, ret.
  - injection H as <- <-. rewrite take_array_bytes, answers_bytes by assumption. destruct (_ <=? _); reflexivity.
  - unfold take_byteorder_array, bind, ret. rewrite take_array_bytes, answers_bytes by assumption.
    destruct bo; injection H as <- <-; destruct (_ <=? _); reflexivity.
  - injection H as <- <-. rewrite answers_bytes by assumption. destruct (_ <=? _); reflexivity.
  - injection H as <- <-. unfold take_bool, bind, ret. rewrite answers_bytes by assumption.
    destruct (N.leb_spec (p + 1) (size d)) as [L|L]; [|reflexivity]. change (be_number (window d p 1)) with (number Be (window d p 1)). rewrite number_from_bytes.
    destruct (sub_1 d p L) as [b E]. unfold idx0. change (window d p 1) with (sub d p 1). rewrite E, from_bytes_1. reflexivity.
  - injection H as <- <-. unfold take_char, bind, ret. rewrite answers_bytes by assumption.
    destruct (N.leb_spec (p + 1) (size d)) as [L|L]; [|reflexivity]. change (be_number (window d p 1)) with (number Be (window d p 1)). rewrite number_from_bytes.
    destruct (sub_1 d p L) as [b E]. unfold idx0. change (window d p 1) with (sub d p 1). rewrite E, from_bytes_1. reflexivity.
  - injection H as <- <-. rewrite take_int_spec by assumption. destruct (_ <=? _); reflexivity.
  - injection H as <- <-. rewrite take_u24_spec by assumption. destruct (_ <=? _); reflexivity.
  - destruct (N.leb_spec n0 8) as [L|L]; [|discriminate]. injection H as <- <-. unfold take_uint.
    rewrite (answers_n _ _ _ _ _ L Hs Hp). destruct (_ <=? _); reflexivity.
  - destruct (N.leb_spec n0 8) as [L|L]; [|discriminate]. injection H as <- <-. unfold take_sint, bind, ret.
    rewrite (answers_n _ _ _ _ _ L Hs Hp). destruct (_ <=? _); [|reflexivity].
    rewrite int_number_eq, number_from_bytes. reflexivity.
  - injection H as <- <-. rewrite take_f32_spec by assumption. destruct (_ <=? _); reflexivity.
  - injection H as <- <-. rewrite take_f64_spec by assumption. destruct (_ <=? _); reflexivity.
Qed.
Lemma answers_untake o n f u : untake_of o = Some u -> reading o = Some (n, f) -> answers u n f.
Proof.
  intros Hu H d p Hs Hp.
  assert (Hw : p < W64) by (unfold allocatable in Hs; change size with (@lenN byte) in *; lia).
  rewrite (untake_mirrors _ _ Hu d p Hs Hw). unfold unmoved.
  rewrite (answers_take o n f ltac:(destruct o; try reflexivity; discriminate) H d p Hs Hp).
  assert (Ho : peeks o = false) by (destruct o; try reflexivity; discriminate).
  assert (Hp' : peeks u = true) by (destruct o; try discriminate; injection Hu as <-; reflexivity).
  rewrite Ho, Hp'. destruct (_ <=? _); reflexivity.
Qed.
Lemma reading_answers o n f : reading o = Some (n, f) -> answers o n f.
Proof.
  intros H. destruct (peeks o) eqn:E; [|exact (answers_take o n f E H)].
  destruct o; try discriminate E.
  - exact (answers_untake (RTakeBytes _) n f _ eq_refl H).
  - exact (answers_untake RTakeBool n f _ eq_refl H).
  - exact (answers_untake RTakeChar n f _ eq_refl H).
  - exact (answers_untake (RTakeInt _ _) n f _ eq_refl H).
  - exact (answers_untake (RTakeU24 _) n f _ eq_refl H).
  - exact (answers_untake (RTakeUint _ _) n f _ eq_refl H).
  - exact (answers_untake (RTakeSint _ _) n f _ eq_refl H).
  - exact (answers_untake (RTakeF32 _) n f _ eq_refl H).
  - exact (answers_untake (RTakeF64 _) n f _ eq_refl H).
Qed.
Lemma take_int_value_in k t d p z q : take_int k t d p = Ok z q -> allocatable d -> value_in t z.
Proof.
  intros H Hs. apply value_in_range.
  destruct (N.le_gt_cases (p + sizeN t) (lenN d)).
  - rewrite take_int_in in H by assumption. injection H as <- _. apply int_of_raw_range.
    pose proof (from_bytes_lt (order_of k) (sub d p (sizeN t))) as HL.
    rewrite lenN_sub in HL by assumption. exact HL.
  - rewrite take_int_out in H by assumption. discriminate.
Qed.

Lemma history_in_bounds ops d p :
  (forall o, In o ops -> wide_le o = false) ->
  allocatable d -> p <= size d ->
  exists outs q, run_rops ops d p = Some (outs, q) /\ p <= q /\ q <= size d /\ length outs = length ops.
Proof.
  intros Hw Hs Hp.
  destruct (run_rops_in_bounds ops) with (d := d) (p := p) as (outs & q & H & Hq & HL); auto.
  - apply forallb_forall. intros o Ho. rewrite Hw by exact Ho. reflexivity.
  - exists outs, q. split; [exact H|]. change size with (@lenN byte). split; [lia|]. split; [lia|exact HL].
Qed.
Lemma take_zero_past_end d p : allocatable d -> size d < p -> p < W64 -> run_rop (RTakeBytes 0) d p = Panic.
Proof. intros Hs Hp Hq. cbn [run_rop]. unfold rmap, bind. rewrite take_bytes_panic by assumption. reflexivity. Qed.

Lemma takes_window ns d p vs q :
  allocatable d -> p <= size d ->
  run_rops (map RTakeBytes ns) d p = Some (map (fun v => inl (RvBytes v)) vs, q) ->
  p <= q /\ q <= size d /\ concat vs = window d p (q - p) /\ map size vs = ns.
Proof.
  intros Hs Hp H. destruct (takes_partition ns d p vs q Hs Hp H) as (Hb & Hc & Hl).
  change size with (@lenN byte). repeat split; (lia || assumption).
Qed.

Lemma firstn_occ needle l i : occurs_at needle l i -> firstn (i + length needle) l = firstn i l ++ needle.
Proof.
  intros (a & b & -> & <-).
  rewrite (firstn_app (length a) a), firstn_all, Nat.sub_diag. cbn [firstn]. rewrite app_nil_r.
  rewrite app_assoc, <- app_length, firstn_app, firstn_all, Nat.sub_diag. cbn [firstn].
  rewrite app_nil_r. reflexivity.
Qed.

Lemma find_subsequence_spec needle d p : allocatable d -> p <= size d ->
  let rest := skipn (N.to_nat p) d in
  (exists i, occurs_at needle rest i /\ (forall j, (j < i)%nat -> ~ occurs_at needle rest j) /\
     find_subsequence needle d p = Ok (firstn i rest) (p + N.of_nat i + size needle))
  \/ ((forall i, ~ occurs_at needle rest i) /\ find_subsequence needle d p = Err (mkerr p Fail) p).
Proof.
  intros Hs Hp rest. destruct (memmem_find needle rest) as [i|] eqn:E.
  - left; exists i. destruct (memmem_some _ _ _ E) as [Ho Hl]. split; [exact Ho|split; [exact Hl|]].
    destruct (find_sub_in needle d p i Hs Hp E) as [-> _].
    unfold sub. rewrite Nat2N.id. reflexivity.
  - right. split; [apply (memmem_none _ _ E)|]. apply find_sub_none; assumption.
Qed.
Lemma find_subsequence_needle_spec needle incl d p : allocatable d -> p <= size d ->
  let rest := skipn (N.to_nat p) d in
  (exists i, occurs_at needle rest i /\ (forall j, (j < i)%nat -> ~ occurs_at needle rest j) /\
     find_subsequence_needle needle incl d p =
       if incl : bool
       then Ok (firstn i rest ++ needle) (p + N.of_nat i + size needle)
       else Ok (firstn i rest) (p + N.of_nat i))
  \/ ((forall i, ~ occurs_at needle rest i) /\
      find_subsequence_needle needle incl d p = Err (mkerr p Fail) p).
Proof.
  intros Hs Hp rest. destruct (memmem_find needle rest) as [i|] eqn:E.
  - left; exists i. destruct (memmem_some _ _ _ E) as [Ho Hl]. split; [exact Ho|split; [exact Hl|]].
    destruct (find_needle_in needle incl d p i Hs Hp E) as [-> _].
    destruct incl; unfold sub.
    + replace (N.to_nat (N.of_nat i + lenN needle)) with (i + length needle)%nat by (unfold lenN; lia).
      fold rest. rewrite firstn_occ by exact Ho. f_equal. change size with (@lenN byte); lia.
    + rewrite Nat2N.id. reflexivity.
  - right. split; [apply (memmem_none _ _ E)|].
    unfold find_subsequence_needle. rewrite remaining_in by exact Hp. fold rest. rewrite E. reflexivity.
Qed.
Lemma find_subsequences_spec needles d p : allocatable d -> p <= size d ->
  let rest := skipn (N.to_nat p) d in
  (exists needle i, In needle needles /\ occurs_at needle rest i /\
     (forall other j, In other needles -> occurs_at other rest j ->
        (i + length needle < j + length other)%nat \/
        (i + length needle = j + length other)%nat /\ (length other <= length needle)%nat) /\
     find_subsequences needles d p = Ok (firstn i rest) (p + N.of_nat i + size needle) /\
     find_subsequences_needle needles false d p = Ok (firstn i rest) (p + N.of_nat i) /\
     find_subsequences_needle needles true d p =
       Ok (firstn i rest ++ needle) (p + N.of_nat i + size needle))
  \/ ((forall needle i, In needle needles -> ~ occurs_at needle rest i) /\
      find_subsequences needles d p = Err (mkerr p Fail) p /\
      (forall incl, find_subsequences_needle needles incl d p = Err (mkerr p Fail) p)).
Proof.
  intros Hs Hp rest. destruct (ac_find needles rest) as [[i e]|] eqn:E.
  - left. destruct (ac_find_some _ _ _ _ E) as (Hb & (needle & Hin & Ho & He) & Hl).
    exists needle, i. split; [exact Hin|split; [exact Ho|]]. split.
    { intros other j Hother Hj. specialize (Hl other j Hother Hj). lia. }
    destruct (finds_in needles d p i e Hs Hp E) as [-> _].
    destruct (finds_needle_in needles false d p i e Hs Hp E) as [-> _].
    destruct (finds_needle_in needles true d p i e Hs Hp E) as [-> _].
    unfold sub. rewrite !Nat2N.id. fold rest. subst e. rewrite firstn_occ by exact Ho.
    change size with (@lenN byte). unfold lenN. repeat split; f_equal; lia.
  - right. split; [intros needle i Hin; apply (ac_find_none _ _ E needle i Hin)|].
    unfold find_subsequences, find_subsequences_needle. rewrite remaining_in by exact Hp. fold rest.
    rewrite E. split; reflexivity.
Qed.
Lemma take_bytes_starts_spec m d p : allocatable d -> p <= size d ->
  let rest := skipn (N.to_nat p) d in
  ((exists after, rest = m ++ after) /\ take_bytes_starts m d p = Ok tt (p + size m))
  \/ (size rest < size m /\ take_bytes_starts m d p = Err (mkerr p InvalidByteLength) p)
  \/ (size m <= size rest /\ firstn (length m) rest <> m /\
      take_bytes_starts m d p = Err (mkerr p Fail) p).
Proof.
  intros Hs Hp rest. unfold take_bytes_starts, remaining_len. rewrite remaining_in by exact Hp. fold rest.
  change size with (@lenN byte) in *.
  assert (HL : lenN rest <= lenN d - p) by (subst rest; unfold lenN; rewrite skipn_length; lia).
  destruct (N.ltb_spec (lenN rest) (lenN m)); [right; left; split; [assumption|reflexivity]|].
  destruct (starts_with m rest) eqn:E.
  - left. apply starts_with_iff in E as [r Hr]. split; [exists r; exact Hr|].
    unfold allocatable in Hs. change size with (@lenN byte) in Hs. rewrite wadd_small by lia. reflexivity.
  - right; right. split; [assumption|]. split; [|reflexivity].
    intros HE. enough (starts_with m rest = true) by congruence.
    apply starts_with_iff. exists (skipn (length m) rest).
    rewrite <- (firstn_skipn (length m) rest) at 1. f_equal. exact HE.
Qed.
