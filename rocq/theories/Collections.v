(** Vectors, arrays, tuples, options and maps in terms of their elements. *)
From Coq Require Import Permutation.
From Verif Require Import Base Ints Reader Writer Spec SpecOps.
From Verif Require Import BaseLemmas ReaderLemmas ReaderHist WriterLemmas WriterHist CodecBase BitsLemmas EncLemmas DecLemmas DecWire.
From Verif Require Import Schema Utf8 Sugar Decode Encode WireSpec RunSpec CodecSpec RoundTrip.


(** ** Loops *)
Lemma bind_ok {A B} (m : rd A) (k : A -> rd B) d p b q :
  bind m k d p = Ok b q <-> exists a p', m d p = Ok a p' /\ k a d p' = Ok b q.
Proof.
  unfold bind. destruct (m d p) as [a p'|e p'| |]; split; try discriminate.
  - intros H. exists a, p'. auto.
  - intros (a' & p'' & E & H). injection E as <- <-. exact H.
  - intros (a' & p'' & E & _). discriminate.
  - intros (a' & p'' & E & _). discriminate.
  - intros (a' & p'' & E & _). discriminate.
Qed.
Lemma bind_err {A B} (m : rd A) (k : A -> rd B) d p e q :
  bind m k d p = Err e q <-> m d p = Err e q \/ exists a p', m d p = Ok a p' /\ k a d p' = Err e q.
Proof.
  unfold bind. destruct (m d p) as [a p'|e' p'| |]; split.
  - intros H. right. exists a, p'. auto.
  - intros [H|(a' & p'' & E & H)]; [discriminate|]. injection E as <- <-. exact H.
  - intros H. left. congruence.
  - intros [H|(a' & p'' & E & H)]; [congruence|discriminate].
  - discriminate.
  - intros [H|(a' & p'' & E & H)]; discriminate.
  - discriminate.
  - intros [H|(a' & p'' & E & H)]; discriminate.
Qed.
Lemma map_ok {A B} (m : rd A) (f : A -> B) d p b q :
  (x <- m ;; ret (f x)) d p = Ok b q <-> exists a, m d p = Ok a q /\ b = f a.
Proof.
  rewrite bind_ok. unfold ret. split.
  - intros (a & p' & H & E). injection E as <- <-. eauto.
  - intros (a & H & ->). eauto.
Qed.
Lemma map_err {A B} (m : rd A) (f : A -> B) d p e q :
  (x <- m ;; ret (f x)) d p = Err e q <-> m d p = Err e q.
Proof.
  rewrite bind_err. unfold ret. split.
  - intros [H|(a & p' & _ & E)]; [exact H|discriminate].
  - auto.
Qed.

Lemma dec_n_ok {A} (m : rd A) d n : forall p l q, dec_n n m d p = Ok l q <-> length l = n /\ runs m d p l q.
Proof.
  induction n as [|n IH]; intros p l q; cbn [dec_n].
  - unfold ret. split.
    + intros E. injection E as <- <-. split; reflexivity.
    + intros [Hl Hr]. destruct l; [|discriminate]. cbn in Hr. subst. reflexivity.
  - rewrite bind_ok. split.
    + intros (x & p' & Hx & H). apply map_ok in H as (xs & Hxs & ->). apply IH in Hxs as [Hl Hr].
      split; [cbn; congruence|]. cbn [runs]. eauto.
    + intros [Hl Hr]. destruct l as [|x xs]; [discriminate|]. cbn [runs] in Hr. destruct Hr as (p' & Hx & Hr).
      exists x, p'. split; [exact Hx|]. apply map_ok. exists xs. split; [|reflexivity]. apply IH. split; [cbn in Hl; lia|exact Hr].
Qed.
Lemma dec_n_err {A} (m : rd A) d n : forall p e q, dec_n n m d p = Err e q <->
  exists l p', (length l < n)%nat /\ runs m d p l p' /\ m d p' = Err e q.
Proof.
  induction n as [|n IH]; intros p e q; cbn [dec_n].
  - split; [discriminate|]. intros (l & p' & Hl & _). lia.
  - rewrite bind_err. split.
    + intros [H|(x & p' & Hx & H)].
      * exists [], p. cbn. split; [lia|auto].
      * apply map_err in H. apply IH in H as (l & p'' & Hl & Hr & He).
        exists (x :: l), p''. cbn [length runs]. split; [lia|]. eauto.
    + intros (l & p' & Hl & Hr & He). destruct l as [|x l].
      * left. cbn in Hr. subst. exact He.
      * right. cbn [runs] in Hr. destruct Hr as (p'' & Hx & Hr). exists x, p''. split; [exact Hx|].
        apply map_err. apply IH. exists l, p'. split; [cbn in Hl; lia|auto].
Qed.
Lemma dec_seq_ok {A} (ms : list (rd A)) d : forall p (l : list A) q,
  (fix go (ds : list (rd A)) : rd (list A) := match ds with [] => ret [] | d :: r => x <- d ;; xs <- go r ;; ret (x :: xs) end) ms d p = Ok l q
  <-> runs_each ms d p l q.
Proof.
  induction ms as [|m ms IH]; intros p l q.
  - unfold ret. split.
    + intros E. injection E as <- <-. reflexivity.
    + destruct l; cbn; [intros ->; reflexivity|intros []].
  - rewrite bind_ok. split.
    + intros (x & p' & Hx & H). apply map_ok in H as (xs & Hxs & ->). apply IH in Hxs. cbn [runs_each]. eauto.
    + destruct l as [|x xs]; cbn [runs_each]; [intros []|]. intros (p' & Hx & Hr). exists x, p'. split; [exact Hx|].
      apply map_ok. exists xs. split; [|reflexivity]. apply IH. exact Hr.
Qed.
Lemma dec_try_ok {A} (m : rd A) d n : forall p l q, dec_try n m d p = Ok l q <->
  exists p', runs m d p l p' /\ ((length l = n /\ q = p') \/ ((length l < n)%nat /\ exists e, m d p' = Err e q)).
Proof.
  induction n as [|n IH]; intros p l q; cbn [dec_try].
  - unfold ret. split.
    + intros E. injection E as <- <-. exists p. split; [reflexivity|left; auto].
    + intros (p' & Hr & [[Hl ->]|[Hl _]]); [|lia]. destruct l; [|discriminate]. cbn in Hr. subst. reflexivity.
  - destruct (m d p) as [x p1|e p1| |] eqn:Em.
    + rewrite map_ok. split.
      * intros (xs & Hxs & ->). apply IH in Hxs as (p' & Hr & Ho). exists p'. split; [cbn [runs]; eauto|].
        cbn [length]. destruct Ho as [[Hl ->]|[Hl He]]; [left; split; [congruence|reflexivity]|right; split; [lia|exact He]].
      * intros (p' & Hr & Ho). destruct l as [|x' xs].
        -- cbn in Hr. subst p'. destruct Ho as [[Hl _]|[_ [e He]]]; [discriminate|congruence].
        -- cbn [runs] in Hr. destruct Hr as (p1' & Hx & Hr). rewrite Em in Hx. injection Hx as <- <-.
           exists xs. split; [|reflexivity]. apply IH. exists p'. split; [exact Hr|].
           cbn [length] in Ho. destruct Ho as [[Hl ->]|[Hl He]]; [left; split; [lia|reflexivity]|right; split; [lia|exact He]].
    + split.
      * intros E. injection E as <- <-. exists p. split; [reflexivity|]. right. cbn. split; [lia|]. eauto.
      * intros (p' & Hr & Ho). destruct l as [|x' xs].
        -- cbn in Hr. subst p'. destruct Ho as [[Hl _]|[_ [e' He]]]; [discriminate|]. congruence.
        -- cbn [runs] in Hr. destruct Hr as (p1' & Hx & _). congruence.
    + split; [discriminate|]. intros (p' & Hr & Ho). destruct l as [|x' xs].
      * cbn in Hr. subst p'. destruct Ho as [[Hl _]|[_ [e' He]]]; [discriminate|]. congruence.
      * cbn [runs] in Hr. destruct Hr as (p1' & Hx & _). congruence.
    + split; [discriminate|]. intros (p' & Hr & Ho). destruct l as [|x' xs].
      * cbn in Hr. subst p'. destruct Ho as [[Hl _]|[_ [e' He]]]; [discriminate|]. congruence.
      * cbn [runs] in Hr. destruct Hr as (p1' & Hx & _). congruence.
Qed.
Lemma dec_try_no_err {A} (m : rd A) d n : forall p e q, dec_try n m d p <> Err e q.
Proof.
  induction n as [|n IH]; intros p e q; cbn [dec_try]; [discriminate|].
  destruct (m d p) as [x p1|e1 p1| |]; try discriminate.
  intros H. apply map_err in H. exact (IH _ _ _ H).
Qed.

(** ** Arrays and tuples *)
Lemma array_ok n t ca fa d p v q : dec (TArray n t) ca fa d p = Ok v q <->
  exists l, v = VList l /\ length l = n /\ runs (dec t ca fa) d p l q.
Proof.
  cbn [dec]. rewrite map_ok. split.
  - intros (l & H & ->). apply dec_n_ok in H as [H1 H2]. eauto.
  - intros (l & -> & H1 & H2). exists l. split; [|reflexivity]. apply dec_n_ok. auto.
Qed.
Lemma array_err n t ca fa d p e q : dec (TArray n t) ca fa d p = Err e q <->
  exists l p', (length l < n)%nat /\ runs (dec t ca fa) d p l p' /\ dec t ca fa d p' = Err e q.
Proof. cbn [dec]. rewrite map_err. apply dec_n_err. Qed.
Lemma tuple_ok ts ca fa d p v q : dec (TTuple ts) ca fa d p = Ok v q <->
  exists l, v = VList l /\ runs_each (map (fun t => dec t ca fa) ts) d p l q.
Proof.
  cbn [dec]. rewrite map_ok. split.
  - intros (l & H & ->). apply (dec_seq_ok (map (fun t => dec t ca fa) ts)) in H. eauto.
  - intros (l & -> & H). exists l. split; [|reflexivity]. apply (dec_seq_ok (map (fun t => dec t ca fa) ts)). exact H.
Qed.
Lemma enc_list_concat {A} (e : A -> wr N) l ws : Forall2 (fun x w => writes_as (e x) w) l ws ->
  writes (enc_list e l) (concat ws).
Proof.
  induction 1 as [|x w l ws Hx _ IH]; cbn [enc_list concat]; [apply writes_ret|].
  apply writes_plus; [apply writes_as_writes, Hx|exact IH].
Qed.
Lemma array_writes t ca fa l ws : Forall2 (fun x w => writes_as (enc t ca fa x) w) l ws ->
  writes_as (enc (TArray (length l) t) ca fa (VList l)) (concat ws).
Proof.
  intros H. apply writes_writes_as. cbn [enc]. rewrite Nat.eqb_refl. apply enc_list_concat, H.
Qed.
Lemma tuple_writes ca fa ts : forall l ws,
  Forall2 (fun tx w => writes_as (enc (fst tx) ca fa (snd tx)) w) (combine ts l) ws -> length l = length ts ->
  writes_as (enc (TTuple ts) ca fa (VList l)) (concat ws).
Proof.
  intros l ws H Hl. apply writes_writes_as. cbn [enc]. revert l ws H Hl.
  induction ts as [|t ts IH]; intros [|x l] ws H Hl; try discriminate.
  - inversion H; subst. cbn. apply writes_ret.
  - cbn [combine] in H. inversion H as [|? w ? ws' Hx Hr]; subst. cbn [map enc_seq concat].
    apply writes_plus; [apply writes_as_writes, Hx|]. apply IH; [exact Hr|cbn in Hl; lia].
Qed.

(** ** Vectors *)
Definition elements_as (m : rd val) (l : list val) (ws : list bytes) : Prop :=
  Forall2 (fun x w => forall rest, reads_as m w rest x) l ws.
Lemma runs_concat (m : rd val) l ws : elements_as m l ws -> forall pre rest, allocatable (pre ++ concat ws ++ rest) ->
  runs m (pre ++ concat ws ++ rest) (size pre) l (size pre + size (concat ws)).
Proof.
  induction 1 as [|x w l ws Hx _ IH]; intros pre rest Hs.
  - cbn [concat runs]. unfold size. cbn. lia.
  - cbn [concat] in *. cbn [runs]. exists (size pre + size w).
    rewrite <- app_assoc in *. split; [apply Hx; exact Hs|].
    specialize (IH (pre ++ w) rest). rewrite <- app_assoc in IH. specialize (IH Hs).
    unfold size in *. rewrite !app_length in *. rewrite !Nat2N.inj_add in IH. rewrite Nat2N.inj_add.
    rewrite N.add_assoc. exact IH.
Qed.

Lemma count_ok ca fa d p c q : a_try_count fa = None -> a_count fa <> None \/ p <= size d -> allocatable d ->
  (forall k, a_byte_count_outside fa = Some k -> k <= 8) ->
  (get_count_and_try_count ca fa d p = Ok c q <-> snd c = None /\ announced ca fa d p (fst c) q).
Proof.
  intros Ht Hp Hd Hk. unfold get_count_and_try_count, announced. rewrite Ht.
  destruct (a_count fa) as [n|].
  { unfold ret. split; [intros E; injection E as <- <-; auto|]. destruct c as [c1 c2]. cbn. intros (-> & -> & ->). reflexivity. }
  destruct Hp as [Hp|Hp]; [congruence|].
  destruct (a_byte_count_outside fa) as [k|].
  - specialize (Hk k eq_refl). rewrite map_ok. unfold take_uint, ko. cbn [order_of].
    destruct (N.le_gt_cases (p + k) (lenN d)) as [Hi|Ho].
    + rewrite take_n_in; [|exact Hd|exact Hk|exact Hi]. split.
      * intros (a & E & ->). injection E as <- <-. cbn [fst snd]. split; [reflexivity|]. split; [exact Hi|]. split; [|reflexivity].
        rewrite number_from_bytes. change (window d p k) with (sub d p k).
        replace (order_for ca fa) with (get_byteorder ca fa) by (symmetry; apply order_for_get1). reflexivity.
      * destruct c as [c1 c2]. cbn [fst snd]. intros (-> & _ & -> & ->). eexists. split; [reflexivity|].
        rewrite number_from_bytes. change (window d p k) with (sub d p k).
        replace (order_for ca fa) with (get_byteorder ca fa) by (symmetry; apply order_for_get1). reflexivity.
    + rewrite take_n_out; [|exact Hk|exact Ho|right; exact Hp]. split.
      * intros (a & E & _). discriminate.
      * intros (_ & Hi & _). change (size d) with (lenN d) in Hi. lia.
  - rewrite map_ok. destruct (N.lt_ge_cases p (lenN d)) as [Hi|Ho].
    + assert (Hg : exists b, nth_error d (N.to_nat p) = Some b /\ take_u8 d p = Ok (b2n b) (p + 1)).
      { destruct (nth_error d (N.to_nat p)) as [b|] eqn:Eb.
        - exists b. split; [reflexivity|].
          assert (E : d = firstn (N.to_nat p) d ++ [b] ++ skipn (S (N.to_nat p)) d).
          { rewrite <- (firstn_skipn (N.to_nat p) d) at 1. f_equal. clear -Eb. revert d Eb.
            induction (N.to_nat p) as [|n IH]; intros [|x d] Eb; try discriminate; cbn in *; [congruence|apply IH, Eb]. }
          pose proof (take_u8_reads (b2n b) (skipn (S (N.to_nat p)) d) (firstn (N.to_nat p) d)) as HR.
          assert (Eb' : byte_of (b2n b) = b) by exact (n2b_b2n b).
          rewrite Eb' in HR. rewrite <- E in HR. specialize (HR Hd).
          assert (HL : lenN (firstn (N.to_nat p) d) = p) by (unfold lenN in *; rewrite firstn_length; lia).
          rewrite HL in HR. rewrite HR. f_equal. apply N.mod_small. apply b2n_lt.
        - apply nth_error_None in Eb. unfold lenN in Hi. lia. }
      destruct Hg as (b & Hb & Htk). rewrite Htk. split.
      * intros (a & E & ->). injection E as <- <-. cbn [fst snd]. split; [reflexivity|]. exists b. auto.
      * destruct c as [c1 c2]. cbn [fst snd]. intros (-> & b' & Hb' & -> & ->). rewrite Hb in Hb'. injection Hb' as <-. eauto.
    + split.
      * intros (a & E & _). unfold take_u8 in E. exfalso. revert E.
        assert (Hst : starves take_u8) by apply starves_u8.
        destruct (Hst d Hd) as [e He].
        assert (p = lenN d) by (change (size d) with (lenN d) in Hp; lia). subst p. unfold take_u8 in He. rewrite He. discriminate.
      * intros (_ & b & Hb & _). apply nth_error_None in Ho || (exfalso; assert (nth_error d (N.to_nat p) <> None) as Hx by congruence; apply nth_error_Some in Hx; unfold lenN in Ho; lia).
Qed.

Lemma counted_ok {A} ca fa (m : rd A) d p l q : a_try_count fa = None -> a_count fa <> None \/ p <= size d -> allocatable d ->
  (forall k, a_byte_count_outside fa = Some k -> k <= 8) ->
  (dec_counted ca fa m d p = Ok l q <->
   exists c p0, announced ca fa d p c p0 /\ N.of_nat (length l) = c /\ runs m d p0 l q).
Proof.
  intros Ht Hp Hd Hk. unfold dec_counted. rewrite bind_ok. split.
  - intros ([c1 c2] & p0 & Hc & H). apply (count_ok ca fa d p) in Hc; [|assumption..]. cbn [fst snd] in Hc.
    destruct Hc as [-> Ha]. cbn [snd fst] in H. apply dec_n_ok in H as [Hl Hr]. exists c1, p0. split; [exact Ha|]. split; [lia|exact Hr].
  - intros (c & p0 & Ha & Hl & Hr). exists (c, None), p0. split; [apply count_ok; [assumption..|]; cbn; auto|].
    cbn [fst snd]. apply dec_n_ok. split; [lia|exact Hr].
Qed.
Lemma vec_ok t ca fa d p v q : a_loop fa = None -> a_try_count fa = None -> a_count fa <> None \/ p <= size d -> allocatable d ->
  (forall k, a_byte_count_outside fa = Some k -> k <= 8) ->
  (dec (TVec t) ca fa d p = Ok v q <->
   exists c p0 l, announced ca fa d p c p0 /\ v = VList l /\ N.of_nat (length l) = c /\ runs (dec t ca fa) d p0 l q).
Proof.
  intros Hl Ht Hp Hd Hk. cbn [dec]. rewrite Hl, map_ok. split.
  - intros (l & H & ->). apply counted_ok in H; [|assumption..]. destruct H as (c & p0 & Ha & Hc & Hr). exists c, p0, l. auto.
  - intros (c & p0 & l & Ha & -> & Hc & Hr). exists l. split; [|reflexivity]. apply counted_ok; [assumption..|]. exists c, p0. auto.
Qed.
(** Too few elements: the error of the first that fails. *)
Lemma vec_err t ca fa d p c p0 l p' e q : a_loop fa = None -> a_try_count fa = None -> a_count fa <> None \/ p <= size d ->
  allocatable d -> (forall k, a_byte_count_outside fa = Some k -> k <= 8) ->
  announced ca fa d p c p0 -> N.of_nat (length l) < c -> runs (dec t ca fa) d p0 l p' -> dec t ca fa d p' = Err e q ->
  dec (TVec t) ca fa d p = Err e q.
Proof.
  intros Hl Ht Hp Hd Hk Ha Hc Hr He. cbn [dec]. rewrite Hl, map_err. unfold dec_counted. apply bind_err. right.
  exists (c, None), p0. split; [apply count_ok; [assumption..|]; cbn; auto|]. cbn [fst snd]. apply dec_n_err.
  exists l, p'. split; [lia|]. auto.
Qed.
Lemma vec_writes t ca fa l ws pfx : a_loop fa = None -> count_prefix ca fa (N.of_nat (length l)) = Some pfx ->
  Forall2 (fun x w => writes_as (enc t ca fa x) w) l ws ->
  writes_as (enc (TVec t) ca fa (VList l)) (pfx ++ concat ws).
Proof.
  intros Hl Hp H. apply writes_writes_as. cbn [enc]. rewrite Hl. apply writes_plus; [|apply enc_list_concat, H].
  eapply count_writes with (t := t); [reflexivity|apply same_refl|exact Hp].
Qed.
Lemma elements_sig {A} (m : rd A) l ws : Forall2 (fun x w => forall rest, reads_as m w rest x) l ws ->
  exists bl : list {xw : A * bytes | forall rest, reads m (snd xw) rest (fst xw)},
    map (fun b => fst (proj1_sig b)) bl = l
    /\ all_of (map (fun b => Some (snd (proj1_sig b))) bl) = Some (concat ws).
Proof.
  induction 1 as [|x w l ws Hx _ IH]; [exists []; split; reflexivity|].
  destruct IH as (bl & E1 & E2).
  exists (exist (fun xw : A * bytes => forall rest, reads m (snd xw) rest (fst xw)) (x, w) (fun rest => reads_as_reads _ _ _ _ (Hx rest)) :: bl).
  cbn [map all_of proj1_sig fst snd concat]. rewrite E1, E2. split; reflexivity.
Qed.
Lemma all_fit_true {A} (w : A -> option bytes) l rest : all_fit w (fun _ _ => true) l rest = true.
Proof. induction l as [|x l IH]; [reflexivity|exact IH]. Qed.
Lemma counted_reads_as {A} ca fa (m : rd A) l ws pfx rest : count_prefix ca fa (N.of_nat (length l)) = Some pfx ->
  fits_count fa (N.of_nat (length l)) false = true ->
  Forall2 (fun x w => forall rest, reads_as m w rest x) l ws ->
  reads (dec_counted ca fa m) (pfx ++ concat ws) rest l.
Proof.
  intros Hp Hf H. destruct (elements_sig m l ws H) as (bl & E1 & E2).
  assert (HL : length bl = length l) by (rewrite <- E1, map_length; reflexivity).
  rewrite <- HL in Hp, Hf. rewrite <- E1.
  eapply counted_reads with (w := fun b : {xw : A * bytes | forall rest, reads m (snd xw) rest (fst xw)} => Some (snd (proj1_sig b)))
    (fit := fun _ _ => true) (starved := false); [|discriminate|exact Hp|exact Hf|exact E2|apply all_fit_true].
  intros [[x w] Hr] a r E _. cbn in *. injection E as <-. apply Hr.
Qed.
Lemma vec_reads t ca fa l ws pfx rest : a_loop fa = None -> count_prefix ca fa (N.of_nat (length l)) = Some pfx ->
  fits_count fa (N.of_nat (length l)) false = true ->
  Forall2 (fun x w => forall rest, reads_as (dec t ca fa) w rest x) l ws ->
  reads_as (dec (TVec t) ca fa) (pfx ++ concat ws) rest (VList l).
Proof.
  intros Hl Hp Hf H. apply reads_reads_as. cbn [dec]. rewrite Hl. apply (reads_map _ VList).
  apply counted_reads_as; assumption.
Qed.

(** ** try_count *)
Lemma try_vec t ca fa n d p : a_loop fa = None -> a_count fa = None -> a_try_count fa = Some n ->
  (forall e q, dec (TVec t) ca fa d p <> Err e q) /\
  (forall v q, dec (TVec t) ca fa d p = Ok v q <->
     exists l p', v = VList l /\ runs (dec t ca fa) d p l p' /\
       ((N.of_nat (length l) = n /\ q = p') \/ (N.of_nat (length l) < n /\ exists e, dec t ca fa d p' = Err e q))).
Proof.
  intros Hl Hc Ht. cbn [dec]. rewrite Hl. unfold dec_counted, get_count_and_try_count. rewrite Hc, Ht. split.
  - intros e q H. apply map_err in H. cbn in H. unfold bind, ret in H. cbn [snd] in H. exact (dec_try_no_err _ _ _ _ _ _ H).
  - intros v q. rewrite map_ok. unfold bind at 1, ret at 1. cbn [snd]. split.
    + intros (l & H & ->). apply dec_try_ok in H as (p' & Hr & Ho). exists l, p'. split; [reflexivity|]. split; [exact Hr|].
      destruct Ho as [[H1 ->]|[H1 H2]]; [left; split; [lia|reflexivity]|right; split; [lia|exact H2]].
    + intros (l & p' & -> & Hr & Ho). exists l. split; [|reflexivity]. apply dec_try_ok. exists p'. split; [exact Hr|].
      destruct Ho as [[H1 ->]|[H1 H2]]; [left; split; [lia|reflexivity]|right; split; [lia|exact H2]].
Qed.

(** ** Options *)
Lemma option_dec t ca fa d p : a_length fa <> Some 0 ->
  (forall e q, dec (TOption t) ca fa d p <> Err e q) /\
  (forall v q, dec (TOption t) ca fa d p = Ok v q <->
     (exists x, v = VOpt (Some x) /\ dec t ca fa d p = Ok x q) \/ (v = VOpt None /\ exists e, dec t ca fa d p = Err e q)).
Proof.
  intros Hl.
  assert (E : dec (TOption t) ca fa d p = match dec t ca fa d p with
             | Ok v p' => Ok (VOpt (Some v)) p'
             | Err _ p' => Ok (VOpt None) p'
             | Panic => Panic
             | Hang => Hang
             end).
  { cbn [dec]. destruct (a_length fa) as [[|]|]; congruence. }
  rewrite E. destruct (dec t ca fa d p) as [x p'|e p'| |]; (split; [discriminate|]); intros v q; split; try discriminate.
  - intros H. injection H as <- <-. left. eauto.
  - intros [(x' & -> & H)|(_ & e & H)]; [congruence|discriminate].
  - intros H. injection H as <- <-. right. eauto.
  - intros [(x' & -> & H)|(-> & e' & H)]; [discriminate|congruence].
  - intros [(x' & -> & H)|(-> & e' & H)]; discriminate.
  - intros [(x' & -> & H)|(-> & e' & H)]; discriminate.
Qed.
Lemma option_dec_zero t ca fa d p : a_length fa = Some 0 -> dec (TOption t) ca fa d p = Ok (VOpt None) p.
Proof. intros H. cbn [dec]. rewrite H. reflexivity. Qed.

(** ** Maps *)
Lemma lookup_insert k k' v m : lookup k (map_insert k' v m) = if val_eqb k k' then Some v else lookup k m.
Proof.
  induction m as [|[k2 v2] m IH]; cbn [map_insert lookup]; [reflexivity|].
  destruct (val_eqb k' k2) eqn:E.
  - apply val_eqb_eq in E. subst k2. cbn [lookup]. destruct (val_eqb k k'); reflexivity.
  - cbn [lookup]. rewrite IH. destruct (val_eqb k k2) eqn:E2; [|reflexivity].
    apply val_eqb_eq in E2. subst k2. rewrite val_eqb_sym, E. reflexivity.
Qed.
Lemma lookup_app k l m : lookup k (l ++ m) = match lookup k l with Some v => Some v | None => lookup k m end.
Proof. induction l as [|[k' v'] l IH]; cbn; [reflexivity|]. destruct (val_eqb k k'); [reflexivity|exact IH]. Qed.
Lemma lookup_fold k l : forall m, lookup k (fold_left (fun m kv => map_insert (fst kv) (snd kv) m) l m)
  = match lookup k (rev l) with Some v => Some v | None => lookup k m end.
Proof.
  induction l as [|[k' v'] l IH]; intros m; cbn [fold_left rev]; [reflexivity|].
  rewrite IH, lookup_app. cbn [fst snd lookup]. rewrite lookup_insert.
  destruct (lookup k (rev l)); [reflexivity|]. destruct (val_eqb k k'); reflexivity.
Qed.
Lemma insert_keys k v m : (exists v', lookup k m = Some v') \/ map fst (map_insert k v m) = map fst m ++ [k].
Proof.
  induction m as [|[k' v'] m IH]; cbn [map_insert lookup map fst app]; [right; reflexivity|].
  destruct (val_eqb k k'); [left; eauto|]. cbn [map fst]. destruct IH as [H|H]; [left; exact H|right; rewrite H; reflexivity].
Qed.
Lemma insert_distinct k v m : distinct (map fst m) = true -> distinct (map fst (map_insert k v m)) = true.
Proof.
  induction m as [|[k' v'] m IH]; cbn [map_insert map fst distinct]; [reflexivity|].
  rewrite andb_true_iff. intros [H1 H2]. destruct (val_eqb k k') eqn:E; cbn [map fst distinct].
  - rewrite H1, H2. reflexivity.
  - rewrite (IH H2), andb_true_r. clear IH H2. induction m as [|[k2 v2] m IH]; cbn [map_insert map fst forallb] in *.
    + rewrite val_eqb_sym, E. reflexivity.
    + apply andb_true_iff in H1 as [H1 H2]. destruct (val_eqb k k2); cbn [map fst forallb]; rewrite H1; [exact H2|apply IH, H2].
Qed.
Lemma fold_distinct l : forall m, distinct (map fst m) = true ->
  distinct (map fst (fold_left (fun m kv => map_insert (fst kv) (snd kv) m) l m)) = true.
Proof. induction l as [|[k v] l IH]; intros m H; [exact H|]. cbn [fold_left]. apply IH, insert_distinct, H. Qed.
Lemma distinct_perm l m : Permutation l m -> distinct l = true -> distinct m = true.
Proof.
  assert (HF : forall (f : val -> bool) l m, Permutation l m -> forallb f l = true -> forallb f m = true).
  { intros f l0 m0 HP H. rewrite forallb_forall in *. intros x Hx. apply H. eapply Permutation_in; [apply Permutation_sym, HP|exact Hx]. }
  induction 1 as [|x l m HP IH|x y l|l m n HP1 IH1 HP2 IH2]; cbn [distinct]; auto.
  - rewrite !andb_true_iff. intros [H1 H2]. split; [eapply HF; eassumption|auto].
  - cbn [forallb]. rewrite !andb_true_iff, !negb_true_iff. intros [[H1 H2] [H3 H4]]. rewrite val_eqb_sym. auto.
Qed.
Lemma distinct_not_in k l : forallb (fun y => negb (val_eqb k y)) l = true -> ~ In k l.
Proof.
  rewrite forallb_forall. intros H Hi. specialize (H k Hi). rewrite val_eqb_refl in H. discriminate.
Qed.
Lemma lookup_in k l : distinct (map fst l) = true -> forall v, lookup k l = Some v <-> In (k, v) l.
Proof.
  induction l as [|[k' v'] l IH]; intros Hd v; cbn [lookup map fst distinct In] in *; [split; [discriminate|intros []]|].
  apply andb_true_iff in Hd as [H1 H2]. destruct (val_eqb k k') eqn:E.
  - apply val_eqb_eq in E. subst k'. split; [intros H; left; congruence|]. intros [H|H]; [congruence|].
    exfalso. apply (distinct_not_in _ _ H1). apply (in_map fst) in H. exact H.
  - rewrite (IH H2). split; [auto|]. intros [H|H]; [|exact H].
    injection H as -> ->. rewrite val_eqb_refl in E. discriminate.
Qed.
Lemma perm_same_map l m : Permutation l m -> distinct (map fst l) = true -> same_map l m.
Proof.
  intros HP Hd k. assert (Hd' : distinct (map fst m) = true) by (eapply distinct_perm; [apply Permutation_map, HP|exact Hd]).
  destruct (lookup k m) as [v|] eqn:E.
  - apply (lookup_in k l Hd). apply (lookup_in k m Hd') in E. eapply Permutation_in; [apply Permutation_sym, HP|exact E].
  - destruct (lookup k l) as [v|] eqn:E2; [|reflexivity]. apply (lookup_in k l Hd) in E2.
    assert (lookup k m = Some v) by (apply (lookup_in k m Hd'); eapply Permutation_in; eassumption). congruence.
Qed.

(** Encoding the entries in any order and decoding. *)
Lemma map_writes tk tv ca fa l ws pfx : count_prefix ca fa (N.of_nat (length l)) = Some pfx ->
  Forall2 (fun kv w => writes_as (enc tk ca (for_key fa) (fst kv)) (fst w) /\ writes_as (enc tv ca (for_value fa) (snd kv)) (snd w)) l ws ->
  writes_as (enc (TMap tk tv) ca fa (VMap l)) (pfx ++ concat (map (fun w => fst w ++ snd w) ws)).
Proof.
  intros Hp H. apply writes_writes_as. cbn [enc]. apply writes_plus.
  - eapply count_writes with (t := tk); [reflexivity|apply same_refl|exact Hp].
  - clear Hp. induction H as [|kv w l ws [Hk Hv] _ IH]; cbn [enc_list map concat]; [apply writes_ret|].
    apply writes_plus; [|exact IH]. apply writes_plus; apply writes_as_writes; assumption.
Qed.
Lemma map_reads tk tv ca fa l ws pfx rest : count_prefix ca fa (N.of_nat (length l)) = Some pfx ->
  fits_count fa (N.of_nat (length l)) false = true -> distinct (map fst l) = true ->
  Forall2 (fun kv w => (forall rest, reads_as (dec tk ca (for_key fa)) (fst w) rest (fst kv))
                       /\ (forall rest, reads_as (dec tv ca (for_value fa)) (snd w) rest (snd kv))) l ws ->
  reads_as (dec (TMap tk tv) ca fa) (pfx ++ concat (map (fun w => fst w ++ snd w) ws)) rest (VMap l).
Proof.
  intros Hp Hf Hd H. apply reads_reads_as. cbn [dec].
  pose proof (map_rebuilt l [] Hd) as Hm. cbn [app] in Hm.
  apply (reads_map_eq _ (fun l => VMap (fold_left (fun m kv => map_insert (fst kv) (snd kv) m) l []))) with l;
    [|rewrite Hm; reflexivity].
  apply counted_reads_as; [exact Hp|exact Hf|].
  clear -H. induction H as [|kv w l ws [Hk Hv] _ IH]; cbn [map]; constructor; [|exact IH].
  intros rest. apply reads_reads_as. destruct kv as [k v]. eapply reads_bind; [apply reads_as_reads, Hk|].
  apply (reads_map _ (pair k)). apply reads_as_reads, Hv.
Qed.
Lemma Forall2_perm {A B} (R : A -> B -> Prop) l l' : Permutation l l' -> forall ws, Forall2 R l ws -> exists ws', Permutation ws ws' /\ Forall2 R l' ws'.
Proof.
  induction 1 as [|x l m HP IH|x y l|l m n HP1 IH1 HP2 IH2]; intros ws H.
  - exists ws. split; [apply Permutation_refl|exact H].
  - inversion H as [|? w ? ws1 Hx Hr]; subst. destruct (IH _ Hr) as (ws' & HPw & Hr').
    exists (w :: ws'). split; [constructor; exact HPw|constructor; assumption].
  - inversion H as [|? w ? ws1 Hx Hr]; subst. inversion Hr as [|? w' ? ws2 Hy Hr']; subst.
    exists (w' :: w :: ws2). split; [constructor|]. repeat constructor; assumption.
  - destruct (IH1 _ H) as (ws1 & HPw1 & H1). destruct (IH2 _ H1) as (ws2 & HPw2 & H2). exists ws2. split; [eapply Permutation_trans; eassumption|exact H2].
Qed.
Lemma Forall2_weaken {A B} (R S : A -> B -> Prop) l m : (forall a b, R a b -> S a b) -> Forall2 R l m -> Forall2 S l m.
Proof. intros HI. induction 1; constructor; auto. Qed.
Lemma map_any_order tk tv ca fa l l' ws pfx : Permutation l l' ->
  count_prefix ca fa (N.of_nat (length l)) = Some pfx -> fits_count fa (N.of_nat (length l)) false = true ->
  distinct (map fst l) = true ->
  Forall2 (fun kv w => (writes_as (enc tk ca (for_key fa) (fst kv)) (fst w) /\ writes_as (enc tv ca (for_value fa) (snd kv)) (snd w))
                       /\ (forall rest, reads_as (dec tk ca (for_key fa)) (fst w) rest (fst kv))
                       /\ (forall rest, reads_as (dec tv ca (for_value fa)) (snd w) rest (snd kv))) l ws ->
  exists ws', Permutation ws ws' /\
    let w := pfx ++ concat (map (fun w => fst w ++ snd w) ws') in
    writes_as (enc (TMap tk tv) ca fa (VMap l')) w
    /\ (forall rest, reads_as (dec (TMap tk tv) ca fa) w rest (VMap l'))
    /\ same_map l l'.
Proof.
  intros HP Hp Hf Hd H. destruct (Forall2_perm _ _ _ HP _ H) as (ws' & HPw & H'). exists ws'. split; [exact HPw|].
  rewrite (Permutation_length HP) in Hp, Hf. cbv zeta. split; [|split].
  - apply map_writes; [exact Hp|]. eapply Forall2_weaken; [|exact H']. cbn. intros kv w [H1 _]. exact H1.
  - intros rest. apply map_reads; [exact Hp|exact Hf| |].
    + eapply distinct_perm; [apply Permutation_map, HP|exact Hd].
    + eapply Forall2_weaken; [|exact H']. cbn. intros kv w [_ H1]. exact H1.
  - apply perm_same_map; assumption.
Qed.
(** What a decoded map holds. *)
Lemma map_last_wins tk tv ca fa d p v q : a_try_count fa = None -> a_count fa <> None \/ p <= size d -> allocatable d ->
  (forall k, a_byte_count_outside fa = Some k -> k <= 8) ->
  dec (TMap tk tv) ca fa d p = Ok v q ->
  exists c p0 l m, announced ca fa d p c p0 /\ N.of_nat (length l) = c
    /\ runs (k <- dec tk ca (for_key fa) ;; x <- dec tv ca (for_value fa) ;; ret (k, x)) d p0 l q
    /\ v = VMap m /\ distinct (map fst m) = true /\ forall k, lookup k m = lookup k (rev l).
Proof.
  intros Ht Hp Hd Hk H. cbn [dec] in H. apply map_ok in H as (l & H & ->).
  apply counted_ok in H; [|assumption..]. destruct H as (c & p0 & Ha & Hc & Hr).
  exists c, p0, l. eexists. split; [exact Ha|]. split; [exact Hc|]. split; [exact Hr|]. split; [reflexivity|]. split.
  - apply fold_distinct. reflexivity.
  - intros k. rewrite lookup_fold. cbn [lookup]. destruct (lookup k (rev l)); reflexivity.
Qed.
