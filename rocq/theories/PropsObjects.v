(** C81: buffers, clones and views side by side. *)
From Verif Require Import Base Ints Reader Writer BufIo ReadAny BaseLemmas Schema Decode Encode Sugar Examples BufferCalls Objects ObjectsSpec.

(** ** The memory *)
Definition tidy (m : memory) : Prop :=
  (forall i j o o', i <> j -> nth_error (m_objects m) i = Some o -> nth_error (m_objects m) j = Some o' ->
     o_cell o <> o_cell o' /\ (o_view o = false -> o_view o' = false -> o_vec o <> o_vec o')) /\
  (forall i o, nth_error (m_objects m) i = Some o ->
     (o_vec o < length (m_vecs m))%nat /\ (o_cell o < length (m_cells m))%nat /\ (o_view o = false -> o_live o = true)).

Lemma nth_put_same {A} (l : list A) i x : (i < length l)%nat -> nth_error (put l i x) i = Some x.
Proof. intros H. unfold put. rewrite nth_error_app2; rewrite firstn_length_le by lia; [|lia]. rewrite Nat.sub_diag. reflexivity. Qed.
Lemma nth_put_other {A} (l : list A) i j x : (i < length l)%nat -> i <> j -> nth_error (put l i x) j = nth_error l j.
Proof.
  intros H N. rewrite <- (firstn_skipn i l) at 2. unfold put. pose proof (skipn_length i l) as L. destruct (skipn i l) as [|y r] eqn:E; [cbn in L; lia|].
  assert (R : skipn (S i) l = r).
  { clear -E. revert l E. induction i as [|i IH]; intros [|a l] E; cbn in *; try congruence. exact (IH l E). }
  rewrite R. destruct (Nat.lt_ge_cases j i) as [C|C].
  - rewrite !nth_error_app1 by (rewrite firstn_length_le; lia). reflexivity.
  - rewrite !nth_error_app2 by (rewrite firstn_length_le; lia). rewrite firstn_length_le by lia. destruct (j - i)%nat eqn:D; [lia|reflexivity].
Qed.
Lemma put_length {A} (l : list A) i x : (i < length l)%nat -> length (put l i x) = length l.
Proof. intros H. unfold put. rewrite app_length, firstn_length_le by lia. cbn [length]. rewrite skipn_length. lia. Qed.

Lemma nth_snoc {A} (l : list A) x i y : nth_error (l ++ [x]) i = Some y ->
  (nth_error l i = Some y /\ (i < length l)%nat) \/ (i = length l /\ y = x).
Proof.
  intros H. destruct (Nat.lt_ge_cases i (length l)) as [C|C].
  - rewrite nth_error_app1 in H by exact C. now left.
  - rewrite nth_error_app2 in H by exact C. destruct (i - length l)%nat as [|n] eqn:E; cbn in H; [injection H as <-; right; split; [lia|reflexivity]|destruct n; discriminate].
Qed.
Lemma old_snoc {A} (l : list A) x i y : nth_error l i = Some y -> nth_error (l ++ [x]) i = Some y.
Proof. intros H. rewrite nth_error_app1; [exact H|]. apply nth_error_Some. congruence. Qed.
Lemma last_snoc {A} (l : list A) x : nth_error (l ++ [x]) (length l) = Some x.
Proof. rewrite nth_error_app2 by lia. rewrite Nat.sub_diag. reflexivity. Qed.

(** An object more, in cells of its own. *)
Lemma tidy_more m l o : tidy m -> o_cell o = length (m_cells m) -> (o_vec o < length (m_vecs m ++ l))%nat ->
  (o_view o = false -> o_vec o = length (m_vecs m) /\ o_live o = true) -> forall p,
  tidy (mkmemory (m_vecs m ++ l) (m_cells m ++ [p]) (m_objects m ++ [o])).
Proof.
  intros [T1 T2] HC HV HO p. split; cbn [m_vecs m_cells m_objects].
  - intros i j a b N A B. apply nth_snoc in A as [[A LA]|[-> ->]]; apply nth_snoc in B as [[B LB]|[-> ->]]; [| | |lia].
    + exact (T1 i j a b N A B).
    + destruct (T2 i a A) as (H1 & H2 & _). split; [lia|]. intros _ E. destruct (HO E). lia.
    + destruct (T2 j b B) as (H1 & H2 & _). split; [lia|]. intros E _. destruct (HO E). lia.
  - intros i a A. rewrite !app_length in *. cbn [length]. apply nth_snoc in A as [[A LA]|[-> ->]].
    + destruct (T2 i a A) as (H1 & H2 & H3). repeat split; try lia. exact H3.
    + repeat split; [exact HV|lia|]. intros E. exact (proj2 (HO E)).
Qed.

Lemma expired v l i o : nth_error (map (expire v) l) i = Some o ->
  exists o', nth_error l i = Some o' /\ o = expire v o'.
Proof. intros H. rewrite nth_error_map in H. destruct (nth_error l i) as [o'|]; [|discriminate]. injection H as <-. eauto. Qed.

Lemma tidy_step s m a m' : tidy m -> perform s m = Some (a, m') -> tidy m'.
Proof.
  intros T H. destruct s as [l|i|i|i c]; cbn [perform] in H.
  - injection H as <- <-. apply tidy_more; try assumption; [reflexivity|cbn; rewrite app_length; cbn; lia|]. cbn. auto.
  - destruct (nth_error (m_objects m) i) as [o|] eqn:O; [|discriminate]. destruct (o_view o); [discriminate|].
    destruct (nth_error (m_vecs m) _) as [l|]; [|discriminate]. destruct (nth_error (m_cells m) _) as [p|]; [|discriminate]. injection H as <- <-.
    apply tidy_more; try assumption; [reflexivity|cbn; rewrite app_length; cbn; lia|]. cbn. auto.
  - destruct (nth_error (m_objects m) i) as [o|] eqn:O; [|discriminate]. destruct (o_live o); [|discriminate]. injection H as <- <-.
    rewrite <- (app_nil_r (m_vecs m)). apply tidy_more; try assumption; [reflexivity| |discriminate].
    rewrite app_nil_r. exact (proj1 (proj2 T i o O)).
  - destruct (nth_error (m_objects m) i) as [o|] eqn:O; [|discriminate]. destruct (o_live o && _); [|discriminate].
    destruct (nth_error (m_vecs m) _) as [l|]; [|discriminate]. destruct (nth_error (m_cells m) _) as [p|]; [|discriminate].
    destruct (on_buffer_call c _) as [[x b]|]; [|discriminate]. injection H as <- <-. destruct T as [T1 T2].
    destruct (T2 i o O) as (V1 & V2 & _). set (ends := exclusive c && negb (o_view o)).
    assert (B : forall j y, nth_error (if ends then map (expire (o_vec o)) (m_objects m) else m_objects m) j = Some y ->
      exists y', nth_error (m_objects m) j = Some y' /\ o_vec y = o_vec y' /\ o_cell y = o_cell y' /\ o_view y = o_view y' /\
        (o_view y = false -> o_live y' = true -> o_live y = true)).
    { intros j y Hy. destruct ends; [|exists y; auto 6]. apply expired in Hy as (y' & Hy & ->). exists y'. repeat split; try assumption.
      cbn. intros -> ->. reflexivity. }
    split; cbn [m_vecs m_cells m_objects].
    + intros j k y z N Y Z. destruct (B j y Y) as (y' & Y' & E1 & E2 & E3 & _). destruct (B k z Z) as (z' & Z' & F1 & F2 & F3 & _).
      rewrite E1, E2, E3, F1, F2, F3. exact (T1 j k y' z' N Y' Z').
    + intros j y Y. destruct (B j y Y) as (y' & Y' & E1 & E2 & E3 & E4). destruct (T2 j y' Y') as (W1 & W2 & W3).
      rewrite put_length by assumption. rewrite E1, E2. repeat split; [destruct ends; rewrite ?put_length by assumption; assumption|assumption|].
      intros E. apply E4; [exact E|]. apply W3. congruence.
Qed.
Lemma tidy_all ss : forall m l m', tidy m -> perform_all ss m = Some (l, m') -> tidy m'.
Proof.
  induction ss as [|s r IH]; intros m l m' T H; cbn [perform_all] in H; [injection H as _ <-; exact T|].
  destruct (perform s m) as [[a m1]|] eqn:P; [|discriminate]. destruct (perform_all r m1) as [[l1 m2]|] eqn:R; [|discriminate].
  injection H as _ <-. exact (IH m1 l1 m2 (tidy_step s m a m1 T P) R).
Qed.
Lemma arises_tidy m : arises m -> tidy m.
Proof. intros (ss & l & H). apply (tidy_all ss nothing_yet l m); [|exact H]. split; intros i; intros; destruct i; discriminate. Qed.

Lemma shared_data c b a b' : for_bytes c = true -> on_buffer_call c b = Some (a, b') -> b_data b' = b_data b.
Proof.
  intros F H. destruct c as [c|o|o|t v|t]; try discriminate; cbn [on_buffer_call] in H.
  - destruct (on_bytes c _ _) as [[x q]|]; [|discriminate]. injection H as _ <-. reflexivity.
  - destruct (attempt _) as [[x q]|]; [|discriminate]. injection H as _ <-. reflexivity.
Qed.
Lemma not_exclusive c : exclusive c = false -> for_bytes c = true.
Proof. destruct c; try discriminate; reflexivity. Qed.

(** One step: a call on the object itself is a call on what it holds, all else leaves it as it is. *)
Lemma one_step s m x m' i b : tidy m -> perform s m = Some (x, m') -> holds m i b ->
  exists b', match s, x with
             | Do j c, Some a => if Nat.eqb i j then on_buffer_call c b = Some (a, b') else b' = b
             | Do _ _, None => False
             | _, _ => b' = b
             end /\ forall o, nth_error (m_objects m') i = Some o -> o_live o = true -> holds m' i b'.
Proof.
  intros T H (o & O & L & V & C). destruct s as [l|k|k|k c]; cbn [perform] in H.
  - injection H as <- <-. exists b. split; [reflexivity|]. intros _ _ _. exists o. cbn. repeat split; auto using old_snoc.
  - destruct (nth_error (m_objects m) k) as [u|]; [|discriminate]. destruct (o_view u); [discriminate|].
    destruct (nth_error (m_vecs m) (o_vec u)); [|discriminate]. destruct (nth_error (m_cells m) (o_cell u)); [|discriminate]. injection H as <- <-.
    exists b. split; [reflexivity|]. intros _ _ _. exists o. cbn. repeat split; auto using old_snoc.
  - destruct (nth_error (m_objects m) k) as [u|]; [|discriminate]. destruct (o_live u); [|discriminate]. injection H as <- <-.
    exists b. split; [reflexivity|]. intros _ _ _. exists o. cbn. repeat split; auto using old_snoc.
  - destruct (nth_error (m_objects m) k) as [u|] eqn:U; [|discriminate]. destruct (o_live u && _) eqn:G; [|discriminate].
    apply andb_prop in G as [LU G].
    destruct (nth_error (m_vecs m) (o_vec u)) as [l|] eqn:VU; [|discriminate]. destruct (nth_error (m_cells m) (o_cell u)) as [p|] eqn:CU; [|discriminate].
    destruct (on_buffer_call c (mkbuf l p)) as [[a b1]|] eqn:E; [|discriminate]. injection H as <- <-.
    destruct T as [T1 T2]. destruct (T2 k u U) as (V1 & C1 & _). set (ends := exclusive c && negb (o_view u)) in *.
    destruct (Nat.eqb_spec i k) as [->|N].
    + rewrite U in O. injection O as <-. rewrite V in VU. rewrite C in CU. injection VU as <-. injection CU as <-.
      exists b1. split; [rewrite <- E; destruct b; reflexivity|]. intros o' O' L'. unfold holds. cbn [m_vecs m_cells m_objects] in *.
      assert (S : o_vec o' = o_vec u /\ o_cell o' = o_cell u).
      { destruct ends; [apply expired in O' as (y & Y & ->); rewrite U in Y; injection Y as <-; split; reflexivity|].
        rewrite U in O'. injection O' as <-. split; reflexivity. }
      destruct S as [S1 S2]. exists o'. rewrite S1, S2. repeat split; try assumption; [|apply nth_put_same; exact C1].
      destruct ends eqn:EN; [apply nth_put_same; exact V1|]. rewrite V.
      rewrite (shared_data c _ _ _ (ltac:(unfold ends in EN; destruct (o_view u); [cbn in G; exact G|apply not_exclusive; rewrite andb_true_r in EN; exact EN])) E). reflexivity.
    + exists b. split; [reflexivity|]. intros o' O' L'. unfold holds. cbn [m_vecs m_cells m_objects] in *.
      destruct (T1 i k o u N O U) as [N1 N2].
      destruct ends eqn:EN.
      * apply expired in O' as (y & Y & ->). rewrite O in Y. injection Y as <-. cbn in L'.
        exists (expire (o_vec u) o). split; [rewrite nth_error_map, O; reflexivity|]. split; [exact L'|]. cbn [expire o_vec o_cell].
        split; [|rewrite nth_put_other by (auto; congruence); exact C]. rewrite nth_put_other; [exact V|exact V1|].
        unfold ends in EN. apply andb_prop in EN as [_ EN]. intros Q. destruct (o_view o) eqn:VO.
        -- rewrite Q, Nat.eqb_refl in L'. rewrite L in L'. discriminate.
        -- apply N2; [reflexivity|now destruct (o_view u)|congruence].
      * rewrite O in O'. injection O' as <-. exists o. repeat split; try assumption. rewrite nth_put_other by (auto; congruence). exact C.
Qed.
(** What has expired stays so, and is not called. *)
Lemma dead_step s m x m' i o : perform s m = Some (x, m') -> nth_error (m_objects m) i = Some o -> o_live o = false ->
  (forall c, s <> Do i c) /\ exists o', nth_error (m_objects m') i = Some o' /\ o_live o' = false.
Proof.
  intros H O L. destruct s as [l|k|k|k c]; cbn [perform] in H.
  - injection H as <- <-. split; [discriminate|]. exists o. cbn. auto using old_snoc.
  - destruct (nth_error (m_objects m) k) as [u|]; [|discriminate]. destruct (o_view u); [discriminate|].
    destruct (nth_error (m_vecs m) (o_vec u)); [|discriminate]. destruct (nth_error (m_cells m) (o_cell u)); [|discriminate]. injection H as <- <-.
    split; [discriminate|]. exists o. cbn. auto using old_snoc.
  - destruct (nth_error (m_objects m) k) as [u|]; [|discriminate]. destruct (o_live u); [|discriminate]. injection H as <- <-.
    split; [discriminate|]. exists o. cbn. auto using old_snoc.
  - destruct (nth_error (m_objects m) k) as [u|] eqn:U; [|discriminate]. destruct (o_live u && _) eqn:G; [|discriminate].
    destruct (nth_error (m_vecs m) (o_vec u)) as [l|]; [|discriminate]. destruct (nth_error (m_cells m) (o_cell u)) as [p|]; [|discriminate].
    destruct (on_buffer_call c (mkbuf l p)) as [[a b1]|]; [|discriminate]. injection H as <- <-.
    split.
    + intros c' [= -> _]. rewrite O in U. injection U as <-. rewrite L in G. discriminate.
    + cbn [m_objects]. destruct (exclusive c && _); [|eauto]. exists (expire (o_vec u) o). rewrite nth_error_map, O. split; [reflexivity|]. cbn. rewrite L. reflexivity.
Qed.
Lemma dead_all ss : forall m l m' i o, perform_all ss m = Some (l, m') -> nth_error (m_objects m) i = Some o -> o_live o = false ->
  calls_on i ss = [] /\ answers_to i ss l = [] /\ exists o', nth_error (m_objects m') i = Some o' /\ o_live o' = false.
Proof.
  induction ss as [|s r IH]; intros m l m' i o H O L; cbn [perform_all] in H; [injection H as <- <-; repeat split; eauto|].
  destruct (perform s m) as [[a m1]|] eqn:P; [|discriminate]. destruct (perform_all r m1) as [[l1 m2]|] eqn:R; [|discriminate]. injection H as <- <-.
  destruct (dead_step s m a m1 i o P O L) as (N & o1 & O1 & L1). destruct (IH m1 l1 m2 i o1 R O1 L1) as (I1 & I2 & I3).
  cbn [calls_on answers_to]. destruct s as [l|k|k|k c]; auto. destruct (Nat.eqb_spec i k) as [<-|]; [destruct (N c eq_refl)|]. destruct a; auto.
Qed.
Lemma kept_step s m x m' i o : perform s m = Some (x, m') -> nth_error (m_objects m) i = Some o ->
  exists o', nth_error (m_objects m') i = Some o' /\ o_view o' = o_view o.
Proof.
  intros H O. destruct s as [l|k|k|k c]; cbn [perform] in H.
  - injection H as <- <-. exists o. cbn. auto using old_snoc.
  - destruct (nth_error (m_objects m) k) as [u|]; [|discriminate]. destruct (o_view u); [discriminate|].
    destruct (nth_error (m_vecs m) (o_vec u)); [|discriminate]. destruct (nth_error (m_cells m) (o_cell u)); [|discriminate]. injection H as <- <-.
    exists o. cbn. auto using old_snoc.
  - destruct (nth_error (m_objects m) k) as [u|]; [|discriminate]. destruct (o_live u); [|discriminate]. injection H as <- <-. exists o. cbn. auto using old_snoc.
  - destruct (nth_error (m_objects m) k) as [u|] eqn:U; [|discriminate]. destruct (o_live u && _) eqn:G; [|discriminate].
    destruct (nth_error (m_vecs m) (o_vec u)) as [l|]; [|discriminate]. destruct (nth_error (m_cells m) (o_cell u)) as [p|]; [|discriminate].
    destruct (on_buffer_call c (mkbuf l p)) as [[a b1]|]; [|discriminate]. injection H as <- <-.
    cbn [m_objects]. destruct (exclusive c && _); [|eauto]. exists (expire (o_vec u) o). rewrite nth_error_map, O. split; reflexivity.
Qed.

Lemma alone_all ss : forall m l m' i b, tidy m -> perform_all ss m = Some (l, m') -> holds m i b ->
  exists b', alone (calls_on i ss) b = Some (answers_to i ss l, b') /\
    forall o, nth_error (m_objects m') i = Some o -> o_live o = true -> holds m' i b'.
Proof.
  induction ss as [|s r IH]; intros m l m' i b T H B; cbn [perform_all] in H.
  - injection H as <- <-. exists b. split; [reflexivity|]. intros; exact B.
  - destruct (perform s m) as [[a m1]|] eqn:P; [|discriminate]. destruct (perform_all r m1) as [[l1 m2]|] eqn:R; [|discriminate]. injection H as <- <-.
    destruct (one_step s m a m1 i b T P B) as (b1 & E & B1). pose proof (tidy_step s m a m1 T P) as T1.
    assert (X : exists b', alone (calls_on i r) b1 = Some (answers_to i r l1, b') /\ forall o, nth_error (m_objects m2) i = Some o -> o_live o = true -> holds m2 i b').
    { destruct B as (o & O & _). destruct (kept_step s m a m1 i o P O) as (o1 & O1 & _). destruct (o_live o1) eqn:L1; [exact (IH m1 l1 m2 i b1 T1 R (B1 o1 O1 L1))|].
      destruct (dead_all r m1 l1 m2 i o1 R O1 L1) as (-> & -> & o2 & O2 & L2). exists b1. split; [reflexivity|]. intros o3 O3 L3. congruence. }
    destruct X as (b' & A & Z). exists b'. split; [|exact Z]. cbn [calls_on answers_to].
    destruct s as [l|k|k|k c]; try (subst b1; exact A). destruct a as [a|]; [|destruct E]. destruct (i =? k)%nat; [|subst b1; exact A].
    cbn [alone]. rewrite E, A. reflexivity.
Qed.

(** ** The theorems *)

(** Whatever else a program does with other buffers, clones and views, among them views of the same bytes: an object
    answers as if it were alone, and holds in the end what it would hold then. A view may be cut off on the way, by a
    write to its bytes, after which it is not used; a buffer is not. *)
Theorem C81_alone : forall m ss l m' i b, arises m -> perform_all ss m = Some (l, m') -> holds m i b ->
  exists b', alone (calls_on i ss) b = Some (answers_to i ss l, b') /\
    forall o, nth_error (m_objects m') i = Some o -> (o_view o = false \/ o_live o = true) -> holds m' i b'.
Proof.
  intros m ss l m' i b A H B. pose proof (arises_tidy m A) as T. destruct (alone_all ss m l m' i b T H B) as (b' & E & Z).
  exists b'. split; [exact E|]. intros o O [V|L]; apply (Z o O); [|exact L]. exact (proj2 (proj2 (proj2 (tidy_all ss m l m' T H) i o O)) V).
Qed.
(** A buffer that is cloned, and its clone, hold the same; so they answer alike from there on. *)
Theorem C81_clone : forall m i b m' x, arises m -> holds m i b -> perform (Clone i) m = Some (x, m') ->
  x = None /\ holds m' (length (m_objects m)) b /\ holds m' i b.
Proof.
  intros m i b m' x A (o & O & L & V & C) H. cbn [perform] in H. rewrite O, V, C in H. destruct (o_view o); [discriminate|]. injection H as <- <-.
  split; [reflexivity|]. split; [|exists o; cbn; auto using old_snoc]. eexists. cbn [m_objects m_vecs m_cells]. rewrite last_snoc. split; [reflexivity|].
  cbn [o_live o_vec o_cell]. rewrite !last_snoc. auto.
Qed.
(** A view begins at the beginning, wherever the buffer stands, and leaves the buffer where it stands. *)
Theorem C81_view : forall m i b, arises m -> holds m i b ->
  exists m', perform (View i) m = Some (None, m') /\ holds m' (length (m_objects m)) (mkbuf (b_data b) 0) /\ holds m' i b.
Proof.
  intros m i b A (o & O & L & V & C). cbn [perform]. rewrite O, L. eexists. split; [reflexivity|].
  split; [|exists o; cbn; auto using old_snoc]. eexists. cbn [m_objects m_vecs m_cells]. rewrite last_snoc. split; [reflexivity|].
  cbn [o_live o_vec o_cell b_data b_pos]. rewrite last_snoc. auto.
Qed.
Theorem C81_new : forall m l, exists m', perform (New l) m = Some (None, m') /\ holds m' (length (m_objects m)) (mkbuf l 0).
Proof.
  intros m l. eexists. split; [reflexivity|]. eexists. cbn [m_objects m_vecs m_cells]. rewrite last_snoc. split; [reflexivity|].
  cbn [o_live o_vec o_cell b_data b_pos]. rewrite !last_snoc. auto.
Qed.
(** [==] on buffers: equal are those that no sequence of calls can tell apart, and only those. *)
Theorem C81_equal : forall b b', buffer_eq b b' = true <-> forall cs, option_map fst (alone cs b) = option_map fst (alone cs b').
Proof.
  intros [d p] [d' p']. unfold buffer_eq. cbn [b_data b_pos]. split.
  - intros H cs. apply andb_prop in H as [H1 H2]. apply bytes_eqb_eq in H1. apply N.eqb_eq in H2. now subst.
  - intros H. specialize (H [BRead CData; BRead CPosition]). vm_compute in H. injection H as -> ->. rewrite N.eqb_refl, andb_true_r. apply bytes_eqb_eq. reflexivity.
Qed.

(** An object stays where it is. *)
Lemma stays s m a m' i o : perform s m = Some (a, m') -> nth_error (m_objects m) i = Some o ->
  exists o', nth_error (m_objects m') i = Some o' /\ o_vec o' = o_vec o /\ o_cell o' = o_cell o /\ o_view o' = o_view o /\ (o_live o = false -> o_live o' = false).
Proof.
  intros H O. destruct s as [l|j|j|j c]; cbn [perform] in H.
  - injection H as <- <-. exists o. cbn [m_objects]. auto using old_snoc.
  - destruct (nth_error (m_objects m) j) as [p|]; [|discriminate]. destruct (o_view p); [discriminate|].
    destruct (nth_error (m_vecs m) (o_vec p)); [|discriminate]. destruct (nth_error (m_cells m) (o_cell p)); [|discriminate].
    injection H as <- <-. exists o. cbn [m_objects]. auto using old_snoc.
  - destruct (nth_error (m_objects m) j) as [p|]; [|discriminate]. destruct (o_live p); [|discriminate].
    injection H as <- <-. exists o. cbn [m_objects]. auto using old_snoc.
  - destruct (nth_error (m_objects m) j) as [p|]; [|discriminate]. destruct (o_live p && _); [|discriminate].
    destruct (nth_error (m_vecs m) (o_vec p)) as [l|]; [|discriminate]. destruct (nth_error (m_cells m) (o_cell p)) as [q|]; [|discriminate].
    destruct (on_buffer_call c (mkbuf l q)) as [[x b]|]; [|discriminate]. injection H as <- <-. cbn [m_objects].
    destruct (exclusive c && negb (o_view p)); [|exists o; auto].
    exists (expire (o_vec p) o). split; [now rewrite nth_error_map, O|]. cbn. repeat split. intros ->. reflexivity.
Qed.
Lemma stays_all ss : forall m l m' i o, perform_all ss m = Some (l, m') -> nth_error (m_objects m) i = Some o ->
  exists o', nth_error (m_objects m') i = Some o' /\ o_vec o' = o_vec o /\ o_cell o' = o_cell o /\ o_view o' = o_view o /\ (o_live o = false -> o_live o' = false).
Proof.
  induction ss as [|s r IH]; intros m l m' i o H O; cbn [perform_all] in H.
  - injection H as <- <-. exists o. auto.
  - destruct (perform s m) as [[a m1]|] eqn:S; [|discriminate]. destruct (perform_all r m1) as [[l1 m2]|] eqn:R; [|discriminate]. injection H as <- <-.
    destruct (stays s m a m1 i o S O) as (o1 & O1 & A1 & A2 & A3 & A4). destruct (IH m1 l1 m2 i o1 R O1) as (o2 & O2 & B1 & B2 & B3 & B4).
    exists o2. split; [exact O2|]. rewrite B1, B2, B3. repeat split; auto.
Qed.
(** Whatever the program has done since, a new buffer and a clone can do all that a buffer can do: no other
    object stands in the way of a call, and the call does what it does on the buffer alone. *)
Theorem C81_usable : forall m s x m1 ss l m2, arises m -> (exists d, s = New d) \/ (exists i, s = Clone i) ->
  perform s m = Some (x, m1) -> perform_all ss m1 = Some (l, m2) ->
  exists b, holds m2 (length (m_objects m)) b /\
    forall c, match on_buffer_call c b with
              | Some (a, b') => exists m3, perform (Do (length (m_objects m)) c) m2 = Some (Some a, m3) /\ holds m3 (length (m_objects m)) b'
              | None => perform (Do (length (m_objects m)) c) m2 = None
              end.
Proof.
  intros m s x m1 ss l m2 A K S P. set (k := length (m_objects m)).
  assert (N : exists o, nth_error (m_objects m1) k = Some o /\ o_view o = false).
  { destruct K as [(d & ->)|(i & ->)]; cbn [perform] in S.
    - injection S as <- <-. cbn [m_objects]. eexists. split; [apply last_snoc|reflexivity].
    - destruct (nth_error (m_objects m) i) as [p|]; [|discriminate]. destruct (o_view p); [discriminate|].
      destruct (nth_error (m_vecs m) (o_vec p)); [|discriminate]. destruct (nth_error (m_cells m) (o_cell p)); [|discriminate].
      injection S as <- <-. cbn [m_objects]. eexists. split; [apply last_snoc|reflexivity]. }
  destruct N as (o & O & V). pose proof (tidy_step s m x m1 (arises_tidy m A) S) as T1. pose proof (tidy_all ss m1 l m2 T1 P) as T2.
  destruct (stays_all ss m1 l m2 k o P O) as (o2 & O2 & _ & _ & V2 & _). rewrite V in V2.
  destruct (proj2 T2 k o2 O2) as (LV & LC & L). specialize (L V2).
  destruct (nth_error (m_vecs m2) (o_vec o2)) as [d|] eqn:EV; [|apply nth_error_None in EV; lia].
  destruct (nth_error (m_cells m2) (o_cell o2)) as [q|] eqn:EC; [|apply nth_error_None in EC; lia].
  exists (mkbuf d q). split; [exists o2; auto|]. intros c.
  destruct (on_buffer_call c (mkbuf d q)) as [[a b']|] eqn:E.
  - assert (Q : exists m3, perform (Do k c) m2 = Some (Some a, m3)).
    { cbn [perform]. rewrite O2, L, V2. cbn [negb orb andb]. rewrite EV, EC, E. eexists. reflexivity. }
    destruct Q as (m3 & Q). exists m3. split; [exact Q|].
    assert (QA : perform_all [Do k c] m2 = Some ([Some a], m3)) by (cbn [perform_all]; now rewrite Q).
    assert (B : holds m2 k (mkbuf d q)) by (exists o2; auto).
    destruct (alone_all [Do k c] m2 [Some a] m3 k (mkbuf d q) T2 QA B) as (b2 & E2 & Z).
    cbn [calls_on] in E2. rewrite Nat.eqb_refl in E2. cbn [alone] in E2. rewrite E in E2. injection E2 as _ <-.
    destruct (stays _ _ _ _ k o2 Q O2) as (o3 & O3 & _ & _ & V3 & _). rewrite V2 in V3.
    apply (Z o3 O3). exact (proj2 (proj2 (proj2 (tidy_step _ _ _ _ T2 Q) k o3 O3)) V3).
  - cbn [perform]. rewrite O2, L, V2. cbn [negb orb andb]. now rewrite EV, EC, E.
Qed.
(** A view is over with the first call after it that takes its buffer by [&mut]: the compiler accepts no call on the view
    any more, whatever happened in between and happens later. *)
Theorem C81_over : forall m i o x m1 ss l m2 c y m3 ss' l' m4 c', arises m -> nth_error (m_objects m) i = Some o -> o_view o = false ->
  perform (View i) m = Some (x, m1) -> perform_all ss m1 = Some (l, m2) ->
  takes_mut c -> perform (Do i c) m2 = Some (y, m3) -> perform_all ss' m3 = Some (l', m4) ->
  perform (Do (length (m_objects m)) c') m4 = None.
Proof.
  intros m i o x m1 ss l m2 c y m3 ss' l' m4 c' A O V W P M D P'. set (k := length (m_objects m)).
  destruct (stays _ _ _ _ i o W O) as (o1 & O1 & A1 & _ & A3 & _). destruct (stays_all ss m1 l m2 i o1 P O1) as (o2 & O2 & B1 & _ & B3 & _).
  cbn [perform] in W. rewrite O in W. destruct (o_live o); [|discriminate]. injection W as <- <-.
  assert (OK : nth_error (m_objects m ++ [mkobject (o_vec o) (length (m_cells m)) true true]) k = Some (mkobject (o_vec o) (length (m_cells m)) true true)) by apply last_snoc.
  destruct (stays_all ss _ l m2 k _ P OK) as (v2 & W2 & C1 & _ & C3 & _). cbn in C1, C3.
  cbn [perform] in D. rewrite O2 in D. destruct (o_live o2 && _); [|discriminate].
  destruct (nth_error (m_vecs m2) (o_vec o2)) as [d|]; [|discriminate]. destruct (nth_error (m_cells m2) (o_cell o2)) as [q|]; [|discriminate].
  destruct (on_buffer_call c (mkbuf d q)) as [[a b]|]; [|discriminate].
  assert (X : exclusive c && negb (o_view o2) = true) by (rewrite B3, A3, V; destruct M; reflexivity).
  cbv zeta in D. rewrite X in D. injection D as <- <-.
  assert (W3 : nth_error (map (expire (o_vec o2)) (m_objects m2)) k = Some (expire (o_vec o2) v2)) by now rewrite nth_error_map, W2.
  destruct (stays_all ss' _ l' m4 k _ P' W3) as (v4 & W4 & _ & _ & _ & C4).
  cbn [perform]. rewrite W4, C4; [reflexivity|]. unfold expire. cbn [o_live]. rewrite C1, C3, B1, A1, Nat.eqb_refl. cbn. apply andb_false_r.
Qed.
(** The other calls leave the views as they are. *)
Theorem C81_shared : forall m i c y m' k b, arises m -> ~ takes_mut c -> perform (Do i c) m = Some (y, m') -> k <> i -> holds m k b -> holds m' k b.
Proof.
  intros m i c y m' k b A M D K (o & O & L & HV & HC).
  assert (X : exclusive c = false) by (destruct c as [[[] | | | | | | |] | | | |]; try reflexivity; exfalso; apply M; constructor).
  pose proof (proj1 (arises_tidy m A)) as T. pose proof (proj2 (arises_tidy m A)) as T2.
  cbn [perform] in D. destruct (nth_error (m_objects m) i) as [p|] eqn:P; [|discriminate]. destruct (o_live p && _); [|discriminate].
  destruct (nth_error (m_vecs m) (o_vec p)) as [d|]; [|discriminate]. destruct (nth_error (m_cells m) (o_cell p)) as [q|] eqn:Q; [|discriminate].
  destruct (on_buffer_call c (mkbuf d q)) as [[a b']|]; [|discriminate]. cbv zeta in D. rewrite X in D. cbn [andb] in D. injection D as <- <-.
  exists o. cbn [m_objects m_vecs m_cells]. repeat split; try assumption.
  rewrite nth_put_other; [exact HC| |]. { apply nth_error_Some. congruence. }
  intros E. destruct (T k i o p K O P) as (N & _). congruence.
Qed.

(** A buffer read to its second byte, two views of it read in turns with it, a clone, a write that ends the views. *)
Definition turns : list step :=
  [New (hex [1; 2; 3; 4]); Do 0 (BRead (CRead (RTakeBytes 1))); View 0; View 0; Do 1 (BRead (CRead (RTakeBytes 3))); Do 0 (BRead (CRead (RTakeBytes 1)));
   Do 2 (BRead (CRead (RTakeBytes 2))); Do 1 (BRead CPosition); Clone 0; Do 0 (BPush (WPush (hex [9]))); Do 3 (BRead CRemaining); Do 0 (BRead CData)].
Example C81_case : exists l m, perform_all turns nothing_yet = Some (l, m)
  /\ answers_to 0 turns l = [BAnswer (ARead (inl (RvBytes (hex [1])))); BAnswer (ARead (inl (RvBytes (hex [2])))); BWritten (inl 1); BAnswer (ABytes (hex [1; 2; 9; 4]))]
  /\ answers_to 1 turns l = [BAnswer (ARead (inl (RvBytes (hex [1; 2; 3])))); BAnswer (ANumber 3)]
  /\ answers_to 2 turns l = [BAnswer (ARead (inl (RvBytes (hex [1; 2]))))]
  /\ answers_to 3 turns l = [BAnswer (ABytes (hex [3; 4]))]
  /\ arises m /\ holds m 0 (mkbuf (hex [1; 2; 9; 4]) 3) /\ holds m 3 (mkbuf (hex [1; 2; 3; 4]) 2)
  /\ perform (Do 1 (BRead CData)) m = None.
Proof.
  do 2 eexists. split; [vm_compute; reflexivity|]. do 4 (split; [vm_compute; reflexivity|]). split; [eexists turns, _; vm_compute; reflexivity|].
  split; [eexists; vm_compute; auto|]. split; [eexists; vm_compute; auto|]. reflexivity.
Qed.

(** The clone of [turns] is written to afterwards; a view is over once [take_byteorder_array] was called, and not after [take_array]. *)
Example C81_over_case : (forall l m, perform_all turns nothing_yet = Some (l, m) ->
    exists m', perform (Do 3 (BPush (WPush (hex [7; 8])))) m = Some (Some (BWritten (inl 2)), m') /\ holds m' 3 (mkbuf (hex [1; 2; 7; 8]) 4) /\ holds m' 0 (mkbuf (hex [1; 2; 9; 4]) 3))
  /\ (exists l m, perform_all [New (hex [1; 2; 3; 4]); View 0; Do 0 (BRead (CRead (RTakeOrderArray 2 Le)))] nothing_yet = Some (l, m) /\ perform (Do 1 (BRead CData)) m = None)
  /\ (exists l m, perform_all [New (hex [1; 2; 3; 4]); View 0; Do 0 (BRead (CRead (RTakeArray 2)))] nothing_yet = Some (l, m) /\ holds m 1 (mkbuf (hex [1; 2; 3; 4]) 0)).
Proof.
  split; [|split].
  - intros l m H. vm_compute in H. injection H as <- <-. eexists. split; [vm_compute; reflexivity|]. split; eexists; vm_compute; auto.
  - do 2 eexists. split; vm_compute; reflexivity.
  - do 2 eexists. split; [vm_compute; reflexivity|]. eexists; vm_compute; auto.
Qed.

Print Assumptions C81_alone.
Print Assumptions C81_clone.
Print Assumptions C81_view.
Print Assumptions C81_new.
Print Assumptions C81_equal.
Print Assumptions C81_usable.
Print Assumptions C81_over.
Print Assumptions C81_shared.
