(** The two relations between encoding into an implementor and encoding into [Buffer]. *)
From Verif Require Import Base Ints Spec SpecOps Reader Writer BaseLemmas ReaderLemmas ReaderHist WriterLemmas.
From Verif Require Import ReadMut ReadAny WriteMut WriteMutSpec WriteMutLemmas.
From Verif Require Import Schema Utf8 Decode Encode WireSpec CodecBase SafetySpec EncLemmas Counting CheckedSpec CheckedLemmas CheckedEnc.
From Verif Require Import AnyEncode AnyWriteSpec AnyEncLemmas.

(** ** A write of what was written *)
Lemma split_at (c : bytes) n : n <= lenN c -> exists x y, c = x ++ y /\ lenN x = n.
Proof.
  intros H. exists (firstn (N.to_nat n) c), (skipn (N.to_nat n) c). rewrite firstn_skipn. split; [reflexivity|].
  unfold lenN in *. rewrite firstn_length. lia.
Qed.
Lemma overwrite_inside' (x y z v : bytes) p : lenN x = p -> lenN y = lenN v -> overwrite (x ++ y ++ z) p v = x ++ v ++ z.
Proof. intros <-. apply overwrite_inside. Qed.
Lemma overwrite_over (c d v : bytes) p q : q <= lenN d -> p + lenN d <= lenN c -> p + q + lenN v <= lenN c ->
  overwrite (overwrite c p d) (p + q) v = overwrite c p (overwrite d q v).
Proof.
  intros H1 H2 H3. destruct (split_at c p ltac:(lia)) as (x & r & -> & X). rewrite lenN_app in *.
  destruct (split_at r (lenN d) ltac:(lia)) as (y & z & -> & Y). rewrite lenN_app in *.
  destruct (split_at d q H1) as (d1 & d2 & -> & D1). rewrite lenN_app in *.
  rewrite overwrite_inside' by (auto; rewrite lenN_app; lia).
  destruct (N.le_gt_cases (lenN v) (lenN d2)) as [L|L].
  - destruct (split_at d2 (lenN v) L) as (d21 & d22 & -> & D2). rewrite lenN_app in *.
    rewrite (overwrite_inside' d1 d21 d22) by auto. rewrite (overwrite_inside' x y z) by (auto; rewrite !lenN_app; lia).
    rewrite <- !app_assoc. rewrite (app_assoc x d1), (overwrite_inside' (x ++ d1) d21) by (rewrite ?lenN_app; lia).
    rewrite <- !app_assoc. reflexivity.
  - destruct (split_at z (lenN v - lenN d2) ltac:(lia)) as (z1 & z2 & -> & Z). rewrite lenN_app in *.
    rewrite <- (app_nil_r d2) at 2.
    assert (E : overwrite (d1 ++ d2) q v = d1 ++ v).
    { unfold overwrite. subst q. rewrite to_nat_lenN. replace (N.to_nat (lenN d1 - size (d1 ++ d2))) with 0%nat.
      2:{ change size with (@lenN byte). rewrite lenN_app. lia. }
      cbn [repeat]. rewrite app_nil_r, firstn_app, firstn_all, Nat.sub_diag. cbn [firstn]. rewrite app_nil_r.
      rewrite skipn_all2; [rewrite app_nil_r; reflexivity|]. rewrite app_length. unfold lenN in *. lia. }
    rewrite app_nil_r, E. rewrite <- !app_assoc.
    rewrite (app_assoc x d1), (app_assoc d2 z1), (overwrite_inside' (x ++ d1) (d2 ++ z1)) by (rewrite ?lenN_app; lia).
    rewrite (app_assoc y z1), (overwrite_inside' x (y ++ z1)) by (rewrite ?lenN_app; lia).
    rewrite <- !app_assoc. reflexivity.
Qed.
Lemma read_over (c d : bytes) p q n : q + n <= lenN d -> p + lenN d <= lenN c -> sub (overwrite c p d) (p + q) n = sub d q n.
Proof.
  intros H1 H2. destruct (split_at c p ltac:(lia)) as (x & r & -> & X). rewrite lenN_app in *.
  destruct (split_at r (lenN d) ltac:(lia)) as (y & z & -> & Y).
  rewrite overwrite_inside' by auto. unfold sub.
  rewrite skipn_app. rewrite skipn_all2 by (unfold lenN in *; lia). cbn [app].
  replace (N.to_nat (p + q) - length x)%nat with (N.to_nat q) by (unfold lenN in *; lia).
  rewrite skipn_app, firstn_app. rewrite skipn_length. replace (N.to_nat n - (length d - N.to_nat q))%nat with 0%nat by (unfold lenN in *; lia).
  cbn [firstn]. apply app_nil_r.
Qed.

Section Sim.
Context {S : Type}.
Variables (K : sink S) (limit : N).
Hypothesis HK : writes K limit.
Local Notation X := (sk_source K).
Local Notation W := (wimpl_of K).
Local Notation contents := (src_data (sk_source K)).
Local Notation position := (src_position (sk_source K)).

Definition buf_part {A} (lo hi : N) (m : wr A) : Prop := forall b, allocatable (b_data b) -> b_pos b <= size (b_data b) -> lo <= b_pos b ->
  match m b with
  | Ok _ b' => allocatable (b_data b') /\ b_pos b' <= size (b_data b') /\ size (b_data b) <= size (b_data b') /\ hi <= b_pos b'
  | Err e b' => e_kind e <> PushFail -> size (b_data b) <= size (b_data b')
  | _ => True
  end.
Definition sm (A : Type) (lo hi : N) (c : @mrd S A) (m : wr A) : Prop :=
  buf_part lo hi m /\ forall c0 p0 b s, mirrors K c0 p0 b s -> lo <= b_pos b -> as_on_buffer K limit c0 p0 (m b) (c s).
Arguments sm {A}.
Lemma sm_weaken A lo hi lo' hi' (c : @mrd S A) m : lo <= lo' -> hi' <= hi -> sm lo hi c m -> sm lo' hi' c m.
Proof.
  intros L H [Q1 Q2]. split; [|intros; apply Q2; [assumption|lia]].
  intros b A1 A2 A3. specialize (Q1 b A1 A2 ltac:(lia)). destruct (m b); auto. intuition lia.
Qed.
Lemma sm_ret A lo (a : A) : sm lo lo (mret a) (wret a).
Proof.
  split; [intros b A1 A2 A3; cbn; intuition lia|].
  intros c0 p0 b s M P _. left. exists s. split; [reflexivity|exact M].
Qed.
Lemma sm_fail lo hi k : sm lo hi (mw_fail W k) (wfail k).
Proof.
  split; [intros b A1 A2 A3; cbn; lia|].
  intros c0 p0 b s M P _ _. left. exists s. split; [|exact M]. unfold mw_fail. cbn [e_pos e_kind].
  destruct HK as (_ & L & _). rewrite (tells_position _ _ _ _ L). destruct M as (_ & _ & _ & -> & _). reflexivity.
Qed.
Lemma sm_panic A lo hi : @sm A lo hi (fun _ => Panic) (fun _ => Panic).
Proof. split; [intros b A1 A2 A3; exact I|intros c0 p0 b s M P; exact I]. Qed.
Lemma refused_again {A B} c0 p0 b b' (x : res S A) (y : res S B) : refused K limit c0 p0 b x ->
  (forall e s, x = Err e s -> y = Err e s) -> size (b_data b) <= size (b_data b') -> refused K limit c0 p0 b' y.
Proof. intros (L & RF & s & E & R) Hy LE. split; [lia|]. split; [exact RF|]. exists s. split; [exact (Hy _ _ E)|exact R]. Qed.
Lemma sm_bind A B lo mid hi (c : @mrd S A) m (f : A -> @mrd S B) g :
  sm lo mid c m -> (forall a, sm mid hi (f a) (g a)) -> sm lo hi (mbind c f) (wbind m g).
Proof.
  intros [H1 H1'] H2. split.
  - intros b A1 A2 A3. specialize (H1 b A1 A2 A3). unfold wbind. destruct (m b) as [a b1|e b1| |]; auto.
    destruct H1 as (B1 & B2 & B3 & B4). destruct (H2 a) as [G _]. specialize (G b1 B1 B2 B4).
    destruct (g a b1); auto; [intuition lia|]. intros NP. specialize (G NP). lia.
  - intros c0 p0 b s M P. specialize (H1' c0 p0 b s M P). destruct M as (M0 & A1 & A2 & _). specialize (H1 b A1 A2 P).
    unfold wbind, mbind. destruct (m b) as [a b1|e b1| |]; [| |exact I..].
    + destruct H1 as (B1 & B2 & B3 & B4). destruct (H2 a) as [G G']. specialize (G b1 B1 B2 B4). cbn [as_on_buffer] in H1'.
      assert (R : forall b2 (Q : Prop), size (b_data b1) <= size (b_data b2) -> p0 + size (b_data b2) < limit ->
        (forall s1, c s = Ok a s1 -> mirrors K c0 p0 b1 s1 -> Q \/ refused K limit c0 p0 b2 (mbind c f s)) -> Q \/ refused K limit c0 p0 b2 (mbind c f s)).
      { intros b2 Q L2 N2 HQ. destruct (H1' ltac:(lia)) as [(s1 & E & M1)|Y]; [exact (HQ s1 E M1)|right].
        apply (refused_again c0 p0 b1 b2 (c s)); [exact Y| |exact L2]. intros e' s' E. unfold mbind. rewrite E. reflexivity. }
      destruct (g a b1) as [v b2|e b2| |] eqn:Eg; [| |exact I..].
      * cbn [as_on_buffer]. intros B0. apply R; [apply G|exact B0|]. intros s1 E M1. specialize (G' c0 p0 b1 s1 M1 B4). rewrite Eg in G'.
        unfold mbind. rewrite E. exact (G' B0).
      * cbn [as_on_buffer]. intros NP B0. apply R; [apply G, NP|exact B0|]. intros s1 E M1. specialize (G' c0 p0 b1 s1 M1 B4). rewrite Eg in G'.
        unfold mbind. rewrite E. exact (G' NP B0).
    + cbn [as_on_buffer] in *. intros NP B1. specialize (H1' NP B1).
      destruct H1' as [(s1 & -> & M1)|Y]; [left; exists s1; split; [reflexivity|exact M1]|right].
      apply (refused_again c0 p0 b1 b1 (c s)); [exact Y| |lia]. intros e' s' ->. reflexivity.
Qed.

Lemma push_result v b : allocatable (b_data b) -> b_pos b <= size (b_data b) ->
  match push v b with
  | Ok n b' => n = lenN v /\ b_pos b + lenN v < W63 /\ b' = mkbuf (overwrite (b_data b) (b_pos b) v) (b_pos b + lenN v)
  | Err e _ => e_kind e = PushFail
  | _ => True
  end.
Proof.
  change size with (@lenN byte). destruct b as [d p]. cbn [b_data b_pos]. intros A1 A2. destruct (N.ltb_spec (p + lenN v) W63) as [L|L].
  - rewrite push_ok by (auto; lia). auto.
  - assert (A1' : lenN d < W63) by exact A1. unfold push. cbn [b_data b_pos]. rewrite remaining_len_eq.
    destruct (N.ltb_spec (lenN d - p) (lenN v)) as [L1|L1]; [|lia].
    unfold vec_resize. destruct (N.ltb_spec (wadd p (lenN v)) W63) as [L2|L2]; [|exact I].
    destruct (N.eqb_spec (wadd p (lenN v)) 0); [reflexivity|].
    set (d' := if wadd p (lenN v) <=? lenN d then _ else _).
    assert (D : lenN d' < W63).
    { unfold d'. destruct (N.leb_spec (wadd p (lenN v)) (lenN d)).
      - unfold lenN in *. rewrite firstn_length. lia.
      - rewrite lenN_app. unfold zeros. unfold lenN at 2. rewrite repeat_length. lia. }
    unfold write_at, slice_get_from, slice_get_to. destruct (N.leb_spec p (lenN d')); [|exact I].
    destruct (N.leb_spec (lenN v) (lenN (skipn (N.to_nat p) d'))) as [L3|L3]; [|exact I].
    exfalso. unfold lenN in *. rewrite skipn_length in L3. lia.
Qed.
Lemma push_refused v s s' e : position s <= size (contents s) -> position s + size v < limit -> size (contents s) < position s + size v ->
  mw_push W v s = Err e s' -> resize_refuses K limit.
Proof.
  intros H1 H2 H3 E. unfold mw_push in E. unfold resize_refuses. exists s, (size v).
  assert (NE : forall x s'' e', mw_finish W v x <> Err e' s'').
  { intros x s'' e'. unfold mw_finish. destruct (wi_remaining_mut W x); [|discriminate]. destruct (slice_get_to _ _); [|discriminate].
    destruct (im_advance _ _ _); discriminate. }
  destruct (_ <? _); [|exfalso; exact (NE _ _ _ E)].
  destruct (wi_resize W s (lenN v)) as [[k s1]|] eqn:R; [|discriminate]. destruct (N.eqb_spec k 0) as [->|]; [|exfalso; exact (NE _ _ _ E)].
  exists s1. auto.
Qed.
Lemma push_grown v s n s' : position s <= size (contents s) -> position s + size v < limit ->
  mw_push W v s = Ok n s' -> grows_exactly K -> size (contents s') <= N.max (size (contents s)) (position s + size v).
Proof.
  intros I0 M E GE. destruct HK as (_ & LW & _). change size with (@lenN byte) in *. unfold mw_push in E.
  rewrite (rest_to_read _ _ _ _ LW), len_skipn in E by exact I0.
  destruct (N.ltb_spec (lenN (contents s) - position s) (lenN v)) as [B|B].
  - destruct (grows _ _ _ _ LW s (lenN v)) as (k & s1 & added & R & P & C & Z & N0);
      [exact I0|exact M|change size with (@lenN byte); lia|]. change size with (@lenN byte) in *.
    specialize (GE s (lenN v) k s1 ltac:(change size with (@lenN byte); lia) R). change size with (@lenN byte) in *. rewrite R in E.
    destruct (N.eqb_spec k 0); [discriminate|]. specialize (N0 ltac:(assumption)).
    destruct (mw_finish_ok W contents position limit LW v s1) as (s2 & E2 & P2 & C2); [lia|lia|]. rewrite E2 in E. injection E as _ <-.
    rewrite C2, overwrite_size. lia.
  - destruct (mw_finish_ok W contents position limit LW v s) as (s2 & E2 & P2 & C2); [lia|lia|]. rewrite E2 in E. injection E as _ <-.
    rewrite C2, overwrite_size. lia.
Qed.
Lemma push_fixed v s n s' : position s <= size (contents s) -> position s + size v < limit ->
  mw_push W v s = Ok n s' -> never_grows K -> size (contents s') = size (contents s).
Proof.
  intros I0 M E GE. destruct HK as (_ & LW & _). change size with (@lenN byte) in *. unfold mw_push in E.
  rewrite (rest_to_read _ _ _ _ LW), len_skipn in E by exact I0.
  destruct (N.ltb_spec (lenN (contents s) - position s) (lenN v)) as [B|B].
  - destruct (grows _ _ _ _ LW s (lenN v)) as (k & s1 & added & R & P & C & Z & N0);
      [exact I0|exact M|change size with (@lenN byte); lia|]. change size with (@lenN byte) in *.
    specialize (GE s (lenN v) k s1 R). change size with (@lenN byte) in *. rewrite R in E.
    destruct (N.eqb_spec k 0); [discriminate|]. specialize (N0 ltac:(assumption)). lia.
  - destruct (mw_finish_ok W contents position limit LW v s) as (s2 & E2 & P2 & C2); [lia|lia|]. rewrite E2 in E. injection E as _ <-.
    rewrite C2, overwrite_size. lia.
Qed.
Lemma sm_push lo v : sm lo (lo + lenN v) (mw_push W v) (push v).
Proof.
  split.
  - intros b A1 A2 A3. pose proof (push_result v b A1 A2) as R. destruct (push v b) as [n b'|e b'| |]; auto.
    + destruct R as (-> & L & ->). cbn [b_data b_pos]. unfold allocatable in *. change size with (@lenN byte) in *. rewrite overwrite_size. lia.
    + intros NP. contradiction.
  - intros c0 p0 b s (M0 & A1 & A2 & MP & a0 & MC & MS & MA & ME & MF) P. pose proof (push_result v b A1 A2) as R.
    destruct (push v b) as [n b'|e b'| |]; [| |exact I..].
    2:{ intros NP. contradiction. }
    destruct R as (-> & L & ->). cbn [as_on_buffer b_data]. change size with (@lenN byte) in *. rewrite overwrite_size. intros B0.
    assert (CS : lenN (contents s) = lenN (c0 ++ a0)) by (rewrite MC, overwrite_size; lia).
    destruct HK as (_ & LW & _).
    destruct (mw_push_outcome W contents position limit LW v s) as [(s' & a1 & EQ & P' & C' & R' & Z)|(s' & EQ & P' & C' & R')]; try rewrite EQ.
    + change size with (@lenN byte). lia.
    + change size with (@lenN byte). lia.
    + left. exists s'. split; [reflexivity|]. change size with (@lenN byte) in *. rewrite lenN_app, CS in R'. rewrite lenN_app in R', MS.
      split; [exact M0|]. unfold allocatable in *. change size with (@lenN byte) in *. cbn [b_data b_pos]. rewrite overwrite_size.
      split; [lia|]. split; [lia|]. split; [lia|]. exists (a0 ++ a1). split; [|split; [|split; [|split]]].
      * rewrite C', MC, MP. rewrite overwrite_grown by (rewrite lenN_app; lia). rewrite <- app_assoc.
        apply overwrite_over; rewrite ?lenN_app; lia.
      * rewrite !lenN_app. lia.
      * intros F. assert (E : a0 = []) by (apply MA; lia). subst a0. cbn [app]. apply Z. rewrite CS, lenN_app. change (lenN (@nil byte)) with 0. lia.
      * intros GE. specialize (ME GE). rewrite lenN_app in CS.
        pose proof (push_grown v s _ s' ltac:(change size with (@lenN byte); lia) ltac:(change size with (@lenN byte); lia) EQ GE) as PG.
        change size with (@lenN byte) in *. rewrite C' in PG. rewrite overwrite_size in PG. rewrite app_assoc, lenN_app. rewrite lenN_app, CS in PG. rewrite lenN_app in ME |- *. lia.
      * intros NG. specialize (MF NG). rewrite lenN_app in CS. subst a0.
        pose proof (push_fixed v s _ s' ltac:(change size with (@lenN byte); lia) ltac:(change size with (@lenN byte); lia) EQ NG) as PG.
        change size with (@lenN byte) in *. rewrite C' in PG. rewrite overwrite_size in PG. rewrite lenN_app in PG.
        cbn [app]. destruct a1; [reflexivity|]. exfalso. unfold lenN in PG. cbn [length] in PG. lia.
    + right. change size with (@lenN byte) in *. split; [change size with (@lenN byte); cbn [b_data]; rewrite overwrite_size; rewrite lenN_app in CS; lia|].
      split; [apply (push_refused v s s' (mkerr (position s) PushFail)); change size with (@lenN byte); auto; lia|].
      exists s'. rewrite P', C'. split; [reflexivity|]. change size with (@lenN byte). rewrite lenN_app in CS, MS.
      split; [lia|]. split; [lia|]. split; [lia|]. split; [intros NG; rewrite CS, (MF NG); change (lenN (@nil byte)) with 0; lia|].
      rewrite MC. rewrite overwrite_within by (rewrite lenN_app; lia).
      rewrite firstn_app, firstn_length, app_length. unfold lenN in *.
      replace (N.to_nat p0 - Nat.min (N.to_nat p0) (length c0 + length a0))%nat with 0%nat by lia. cbn [firstn]. rewrite app_nil_r, firstn_firstn.
      rewrite Nat.min_id, firstn_app. replace (N.to_nat p0 - length c0)%nat with 0%nat by lia. cbn [firstn]. apply app_nil_r.
Qed.

(** Reading the word back *)
Lemma read_word bo n s : position s + n <= size (contents s) -> position s + n < limit -> n <= 8 ->
  exists s', s_take_uint X (KOrder bo) n s = Ok (from_bytes bo (sub (contents s) (position s) n)) s'
    /\ position s' = position s + n /\ contents s' = contents s.
Proof.
  change size with (@lenN byte). intros H1 H2 H8. destruct HK as (LIM & LW & _).
  destruct (moves _ _ _ _ LW s n) as (s' & E & P & C); [exact H1|exact H2|].
  exists s'. split; [|split; assumption].
  unfold s_take_uint, m_take_n. cbn [order_of]. assert (B8 : (8 <? n) = false) by (apply N.ltb_ge; exact H8).
  assert (T : m_take_bytes (impl_of X) n s = Ok (sub (contents s) (position s) n) s').
  { unfold m_take_bytes. cbn [impl_of im_take_bytes]. unfold default_take_bytes. unfold src_remaining. rewrite rest_of.
    rewrite len_skipn by lia. destruct (N.ltb_spec (lenN (contents s) - position s) n); [lia|].
    change (src_advance X s n) with (im_advance (wi_reader W) s n). rewrite E. cbv zeta. rewrite P, C.
    assert (Q : wsub (position s + n) n = position s) by (rewrite wsub_small by lia; lia). rewrite Q.
    unfold slice_get. destruct (N.leb_spec (position s) (position s + n)); [|lia].
    destruct (N.leb_spec (position s + n) (lenN (contents s))); [|lia]. cbn [andb]. unfold sub. f_equal. f_equal. lia. }
  destruct bo; rewrite B8; unfold mbind; rewrite T; unfold mret; cbn [from_bytes].
  - rewrite be_val_zeros_app. reflexivity.
  - rewrite le_val_app_zeros. reflexivity.
Qed.
Lemma read_wide bo n s : 8 < n -> s_take_uint X (KOrder bo) n s =
  match bo with Be => Err (mkerr (position s) InvalidByteLength) s | Le => Panic end.
Proof. intros H. unfold s_take_uint, m_take_n. cbn [order_of]. destruct bo; destruct (N.ltb_spec 8 n); try lia; reflexivity. Qed.
Lemma read_wide_here bo n d p : 8 < n -> take_uint (KOrder bo) n d p =
  match bo with Be => Err (mkerr p InvalidByteLength) p | Le => Panic end.
Proof. intros H. unfold take_uint, take_n, take_n_be, take_n_le. cbn [order_of]. destruct bo; destruct (N.ltb_spec 8 n); try lia; reflexivity. Qed.
Lemma bits_merge_result lo it bo v : sizeN it <= lo -> forall d p, allocatable d -> p <= size d -> lo <= p -> bits_merge it bo v (mkbuf d p) =
    if sizeN it <=? 8 then Ok (Z.lor v (cast it (Z.of_N (from_bytes bo (sub d (p - sizeN it) (sizeN it)))))) (mkbuf d (p - sizeN it))
    else match bo with Be => Err (mkerr (p - sizeN it) InvalidByteLength) (mkbuf d (p - sizeN it)) | Le => Panic end.
Proof.
    intros Hlo d p A1 A2 A3. unfold allocatable in A1. change size with (@lenN byte) in *.
    unfold bits_merge, wbind, on_reader, get_position, set_position. cbn [b_data b_pos]. rewrite wsub_small by lia.
    destruct (N.leb_spec (sizeN it) 8) as [L|L].
    - unfold take_uint. cbn [order_of]. rewrite take_n_in by (unfold small; lia). cbn [b_data b_pos].
      rewrite wsub_small by lia. unfold wret. f_equal. f_equal. lia.
    - rewrite read_wide_here by exact L. destruct bo; reflexivity.
Qed.
Lemma sm_merge lo it bo v : (true = true -> sizeN it <= lo) -> sm lo (lo - sizeN it) (any_bits_merge K it bo v) (bits_merge it bo v).
Proof.
  assert (S16 : 1 <= sizeN it <= 16) by (destruct it; vm_compute; split; discriminate).
  intros Hlo. specialize (Hlo eq_refl).
  pose proof (bits_merge_result lo it bo v Hlo) as BM.
  split.
  - intros [d p] A1 A2 A3. cbn [b_data b_pos] in *. rewrite BM by assumption. destruct (_ <=? _); [|destruct bo]; cbn [b_data b_pos]; auto.
    + intuition lia.
    + intros _. lia.
  - intros c0 p0 [d p] s (M0 & A1 & A2 & MP & a0 & MC & MS & MA & ME & MF) P. cbn [b_data b_pos] in *. rewrite BM by assumption.
    assert (CS : size (contents s) = size (c0 ++ a0)) by (rewrite MC; change size with (@lenN byte) in *; rewrite overwrite_size; lia).
    unfold any_bits_merge, mbind, s_get_position, s_set_position.
    assert (B0 : p0 + size d < limit -> position s < limit) by lia.
    destruct HK as (LIM & LW & SP).
    destruct (N.leb_spec (sizeN it) 8) as [L|L].
    + intros B. cbn [b_data] in B. left.
      rewrite (wsub_small (position s)) by lia.
      destruct (SP s (position s - sizeN it)) as (s1 & -> & P1 & C1); [lia|]. cbn [effect].
      destruct (read_word bo (sizeN it) s1) as (s2 & -> & P2 & C2); [rewrite C1; lia|lia|exact L|].
      rewrite (wsub_small (position s2)) by lia.
      destruct (SP s2 (position s2 - sizeN it)) as (s3 & -> & P3 & C3); [rewrite C2, C1; lia|]. cbn [effect]. unfold mret.
      exists s3. rewrite C1, P1. split.
      * f_equal. f_equal. f_equal. f_equal. f_equal. rewrite MC, MP. replace (p0 + p - sizeN it) with (p0 + (p - sizeN it)) by lia.
        change size with (@lenN byte) in *. apply read_over; lia.
      * split; [exact M0|]. split; [exact A1|]. cbn [b_data b_pos]. split; [lia|]. split; [lia|]. exists a0. rewrite C3, C2, C1. auto.
    + destruct bo; [|exact I]. cbn [as_on_buffer b_data e_pos e_kind]. intros _ B. left.
      rewrite (wsub_small (position s)) by lia.
      destruct (SP s (position s - sizeN it)) as (s1 & -> & P1 & C1); [lia|]. cbn [effect]. rewrite read_wide by exact L.
      exists s1. split; [do 2 f_equal; lia|]. split; [exact M0|]. split; [exact A1|]. cbn [b_data b_pos]. split; [lia|]. split; [lia|]. exists a0. rewrite C1. auto.
Qed.

(** The position stays at the end. *)
Definition en (A : Type) (lo hi : N) (c : @mrd S A) (m : wr A) : Prop := forall b, allocatable (b_data b) -> b_pos b = size (b_data b) ->
  lo <= b_pos b -> match m b with
  | Ok _ b' => allocatable (b_data b') /\ b_pos b' = size (b_data b') /\ hi <= b_pos b'
  | _ => True end.
Lemma en_push lo v : en N lo (lo + lenN v) (mw_push W v) (push v).
Proof.
  intros b A1 A2 A3. pose proof (push_result v b A1 ltac:(lia)) as R. destruct (push v b) as [n b'|e b'| |]; auto.
  destruct R as (-> & L & ->). cbn [b_data b_pos]. unfold allocatable in *. change size with (@lenN byte) in *. rewrite overwrite_size. lia.
Qed.
Lemma en_uint k v n lo : en N lo 0 (mw_push_uint W k v n) (push_uint k v n).
Proof.
  unfold mw_push_uint, push_uint, mw_push_be_uint, push_be_uint, mw_push_le_uint, push_le_uint.
  assert (P : forall w, en N lo 0 (mw_push W w) (push w)).
  { intros w b A1 A2 A3. pose proof (en_push lo w b A1 A2 A3) as H. destruct (push w b); auto. intuition lia. }
  destruct (order_of k); [destruct (_ <? _)|destruct (slice_get_to _ _)]; try apply P; intros b A1 A2 A3; exact I.
Qed.
Lemma en_int lo it ca fa z : (true = true -> counts_all fa = false -> absent (a_length fa) = true /\ sizeN it <= lo) ->
  en N lo (if absent (a_length fa) then (if counts_all fa then lo + sizeN it else if true then lo else 0) else 0) (any_enc_int K it ca fa z) (enc_int it ca fa z).
Proof.
  intros H. specialize (H eq_refl). intros b A1 A2 A3. unfold enc_int. unfold counts_all in *.
  assert (PU : forall z', match (match a_length fa with
      | Some l => if sizeN it <? l then wfail InvalidByteLength else push_uint (KOrder (get_byteorder ca fa)) (raw_of_int U64 z') l
      | None => push_int (KOrder (get_byteorder ca fa)) it z' end) b with
    | Ok _ b' => allocatable (b_data b') /\ b_pos b' = size (b_data b') /\ (if absent (a_length fa) then lo + sizeN it else 0) <= b_pos b'
    | _ => True end).
  { intros z'. destruct (a_length fa) as [l|]; cbn [absent].
    - destruct (_ <? _); [exact I|]. exact (en_uint (KOrder (get_byteorder ca fa)) (raw_of_int U64 z') l lo b A1 A2 A3).
    - destruct (mw_push_int_word K (KOrder (get_byteorder ca fa)) it z') as (w & L & _ & ->). rewrite <- L. exact (en_push lo w b A1 A2 A3). }
  destruct (absent (a_bits fa) || a_bits_start fa) eqn:CA.
  - unfold wbind. destruct (a_bits fa); [|apply PU]. cbn [absent orb] in CA. rewrite CA. apply PU.
  - destruct (H eq_refl) as [LE LO]. rewrite LE. destruct (a_bits fa) as [mask|]; [|discriminate CA]. cbn [absent orb] in CA. rewrite CA.
    destruct (a_length fa); [discriminate LE|].
    set (zz := bits_place it mask z). unfold wbind. destruct b as [d p]. cbn [b_data b_pos] in *.
    pose proof (fun H => bits_merge_result lo it (get_byteorder ca fa) zz H d p A1 ltac:(lia) A3) as BM. rewrite BM by exact LO. clear BM.
    destruct (_ <=? _); [|destruct (get_byteorder ca fa); exact I].
    match goal with |- context [push_int ?k it ?z0 ?b0] => destruct (mw_push_int_word K k it z0) as (w & L & _ & ->); pose proof (push_result w b0) as R end.
    cbn [b_data b_pos] in R. specialize (R A1 ltac:(lia)).
    match goal with |- context [push w ?b0] => destruct (push w b0) as [n b'|e b'| |]; auto end.
    destruct R as (_ & L1 & ->). cbn [b_data b_pos]. unfold allocatable in *. change size with (@lenN byte) in *. rewrite overwrite_size. lia.
Qed.
Lemma en_bind A B lo mid hi (c : @mrd S A) m (f : A -> @mrd S B) g :
  en A lo mid c m -> (forall a, en B mid hi (f a) (g a)) -> en B lo hi (mbind c f) (wbind m g).
Proof.
  intros H1 H2 b A1 A2 A3. specialize (H1 b A1 A2 A3). unfold wbind. destruct (m b) as [a b1|e b1| |]; auto.
  destruct H1 as (B1 & B2 & B3). exact (H2 a b1 B1 B2 B3).
Qed.
Lemma en_weaken A lo hi lo' hi' (c : @mrd S A) m : lo <= lo' -> hi' <= hi -> en A lo hi c m -> en A lo' hi' c m.
Proof. intros L H Q b A1 A2 A3. specialize (Q b A1 A2 ltac:(lia)). destruct (m b); auto. intuition lia. Qed.
Lemma en_ret A lo (a : A) : en A lo lo (mret a) (wret a).
Proof. intros b A1 A2 A3. cbn. auto. Qed.
Lemma en_fail lo hi k : en N lo hi (mw_fail W k) (wfail k).
Proof. intros b A1 A2 A3. exact I. Qed.
Lemma en_panic A lo hi : en A lo hi (fun _ => Panic) (fun _ => Panic).
Proof. intros b A1 A2 A3. exact I. Qed.

Lemma follows_iff m c : follows K limit m c <-> @sm N 0 0 c m /\ en N 0 0 c m.
Proof.
  split.
  - intros [Q1 Q2]. split; [split; [|intros; apply Q2; assumption]|]; intros b A1 A2 A3.
    + specialize (Q1 b A1 A2). destruct (m b); auto. intuition lia.
    + specialize (Q1 b A1 ltac:(lia)). destruct (m b); auto. intuition lia.
  - intros [[Q1 Q2] Q3]. split; [|intros; apply Q2; [assumption|lia]]. intros b A1 A2.
    specialize (Q1 b A1 A2 ltac:(lia)). specialize (Q3 b A1). destruct (m b); auto.
    destruct Q1 as (R1 & R2 & R3 & _). repeat split; try assumption. intros E. apply Q3; [exact E|lia].
Qed.
Theorem sim_enc U t : grouped t = true -> each_encoder (fun _ _ => True) (fun m => follows K limit m (U m)) t ->
  forall ca fa v, counts_all fa = true -> follows K limit (enc t ca fa v) (any_enc K U t ca fa v).
Proof.
  intros HG HU ca fa v Hf. apply follows_iff. split.
  - apply (t_enc K U true (@sm) sm_weaken sm_ret sm_fail sm_panic sm_push sm_bind (T_enc_int K true (@sm) sm_weaken sm_ret sm_fail sm_push sm_bind sm_merge)); auto.
    revert HU. apply each_encoder_impl. intros m H. apply follows_iff, H.
  - apply (t_enc K U true en en_weaken en_ret en_fail en_panic en_push en_bind en_int); auto.
    revert HU. apply each_encoder_impl. intros m H. apply (proj1 (follows_iff m (U m)) H).
Qed.
Lemma sim_pushes p : follows K limit (by_pushes p) (by_pushes_on K p).
Proof.
  apply follows_iff. split.
  - exact (t_pushes K (@sm) sm_weaken sm_ret sm_fail sm_push sm_bind p).
  - exact (t_pushes K en en_weaken en_ret en_fail en_push en_bind p).
Qed.
End Sim.

(** ** [Buffer] itself *)
Definition eqm (A : Type) (lo hi : N) (c : @mrd buf A) (m : wr A) : Prop := forall b, c b = m b.
Lemma buffer_take_uint k n b : s_take_uint buffer_source k n b = on_reader (take_uint k n) b.
Proof.
  destruct b as [d0 p0]. set (b := mkbuf d0 p0).
  assert (T : m_take_bytes (impl_of buffer_source) n b = on_reader (take_bytes n) b).
  { unfold m_take_bytes, on_reader, take_bytes. cbn [impl_of im_take_bytes]. unfold default_take_bytes, src_remaining.
    cbn [buffer_source src_position src_data src_advance]. change (default_remaining b_pos b_data b) with (remaining (b_data b) (b_pos b)).
    fold (remaining_len (b_data b) (b_pos b)). destruct (_ <? _); [reflexivity|]. unfold bf_advance. cbn [b_data b_pos].
    unfold slice_ok. destruct (slice_get _ _ _); reflexivity. }
  unfold s_take_uint, m_take_n, take_uint, take_n, take_n_be, take_n_le.
  destruct (order_of k); (destruct (8 <? n); [reflexivity|]); unfold mbind, on_reader, bind; rewrite T; unfold on_reader;
    destruct (take_bytes n (b_data b) (b_pos b)); reflexivity.
Qed.
Lemma eqm_weaken A lo hi lo' hi' (c : @mrd buf A) m : lo <= lo' -> hi' <= hi -> eqm A lo hi c m -> eqm A lo' hi' c m.
Proof. intros _ _ H. exact H. Qed.
Lemma eqm_ret A lo (a : A) : eqm A lo lo (mret a) (wret a).
Proof. intros b. reflexivity. Qed.
Lemma eqm_fail lo hi k : eqm N lo hi (mw_fail (wimpl_of buffer_sink) k) (wfail k).
Proof. intros b. reflexivity. Qed.
Lemma eqm_panic A lo hi : eqm A lo hi (fun _ => Panic) (fun _ => Panic).
Proof. intros b. reflexivity. Qed.
Lemma eqm_push lo v : eqm N lo (lo + lenN v) (mw_push (wimpl_of buffer_sink) v) (push v).
Proof. intros b. exact (buffer_push v b). Qed.
Lemma eqm_bind A B lo mid hi (c : @mrd buf A) m (f : A -> @mrd buf B) g :
  eqm A lo mid c m -> (forall a, eqm B mid hi (f a) (g a)) -> eqm B lo hi (mbind c f) (wbind m g).
Proof. intros H1 H2 b. unfold mbind, wbind. rewrite H1. destruct (m b); auto. apply H2. Qed.
Lemma eqm_merge lo it bo v : (false = true -> sizeN it <= lo) -> eqm Z lo (lo - sizeN it) (any_bits_merge buffer_sink it bo v) (bits_merge it bo v).
Proof.
  intros _ b. unfold any_bits_merge, bits_merge. unfold mbind at 1. unfold wbind at 1. unfold s_get_position at 1, on_reader at 1, get_position at 1.
  cbn [buffer_sink sk_source buffer_source src_position]. destruct b as [d p]. cbn [b_data b_pos].
  apply (eqm_bind unit Z 0 0 0); [intros b; reflexivity|]. intros _.
  apply (eqm_bind N Z 0 0 0); [intros b; apply buffer_take_uint|]. intros x.
  apply (eqm_bind N Z 0 0 0); [intros [d' p']; reflexivity|]. intros q.
  apply (eqm_bind unit Z 0 0 0); [intros b; reflexivity|]. intros _ b. reflexivity.
Qed.
Theorem buffer_enc U t : each_encoder (fun _ _ => True) (fun m => forall b, U m b = m b) t ->
  forall ca fa v b, any_enc buffer_sink U t ca fa v b = enc t ca fa v b.
Proof.
  intros HU ca fa v. change (eqm N 0 0 (any_enc buffer_sink U t ca fa v) (enc t ca fa v)).
  apply (t_enc buffer_sink U false eqm eqm_weaken eqm_ret eqm_fail eqm_panic eqm_push eqm_bind
    (T_enc_int buffer_sink false eqm eqm_weaken eqm_ret eqm_fail eqm_push eqm_bind eqm_merge)); [discriminate| |discriminate].
  exact HU.
Qed.
