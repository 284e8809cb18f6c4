(** Hostile, truncated and extended input: the statements of C33-C35. *)
From Verif Require Import Base Ints Spec SpecOps Reader BaseLemmas ReaderLemmas.
From Verif Require Import Schema Utf8 Decode Encode WireSpec SafetySpec CodecBase DecLemmas RunSpec CodecSpec RoundTrip Bounds Locality.

Lemma total_tame (m : rd val) : total_inside m -> tame true m.
Proof. intros H d p Hd Hp. specialize (H d p Hd Hp). destruct (m d p); try contradiction H; exact H. Qed.
Lemma delimiting_delim (m : rd val) : self_delimiting m -> delim m.
Proof.
  intros [H1 H2]. split.
  - intros d p Hd Hp. specialize (H1 d p Hd Hp). destruct (m d p); try reflexivity; exact H1.
  - intros pre w rest a Hs E. split; [lia|]. intros rest'. apply reads_as_reads. exact (H2 pre w rest a Hs E rest').
Qed.
Lemma decodes_safely t ca fa d p : offset_free t = true -> each_decoder total_inside t -> safe t -> moderate t ca fa ->
  allocatable d -> p <= size d ->
  (exists v q, dec t ca fa d p = Ok v q /\ p <= q <= size d) \/
  (exists e q, dec t ca fa d p = Err e q /\ p <= q <= size d).
Proof.
  intros HO HU HS HM Hd Hp. pose proof (dec_tame true t HO (each_decoder_impl _ _ total_tame t HU) (fun _ => HS) ca fa (fun _ => HM) d p Hd Hp) as H.
  destruct (dec t ca fa d p); try discriminate H; eauto.
Qed.
Lemma moderate_top t ca : moderate t ca no_fattr.
Proof. split; [discriminate|]. right. cbn. auto. Qed.
Lemma decode_safely t d p : offset_free t = true -> each_decoder total_inside t -> safe t -> allocatable d -> p <= size d ->
  (exists v q, decode t d p = Ok v q /\ p <= q <= size d) \/
  (exists e q, decode t d p = Err e q /\ p <= q <= size d).
Proof. intros HO HU HS. exact (decodes_safely t _ _ d p HO HU HS (moderate_top _ _)). Qed.

Lemma cut_window (d : bytes) p q : p <= q <= size d ->
  d = firstn (N.to_nat p) d ++ window d p (q - p) ++ skipn (N.to_nat q) d /\
  size (firstn (N.to_nat p) d) = p /\ size (window d p (q - p)) = q - p.
Proof.
  intros H. unfold size in *. split; [|split].
  - unfold window. rewrite <- (firstn_skipn (N.to_nat p) d) at 1. f_equal.
    rewrite <- (firstn_skipn (N.to_nat (q - p)) (skipn (N.to_nat p) d)) at 1. f_equal.
    rewrite <- skipn_add. f_equal. lia.
  - rewrite firstn_length. lia.
  - unfold window. rewrite firstn_length, skipn_length. lia.
Qed.
Lemma decodes_locally t ca fa d p v q : delimited t = true -> each_decoder self_delimiting t -> delimits fa = true -> allocatable d -> p <= size d ->
  dec t ca fa d p = Ok v q ->
  p <= q <= size d /\
  forall d' p', allocatable d' -> p' + (q - p) <= size d' -> window d' p' (q - p) = window d p (q - p) ->
  dec t ca fa d' p' = Ok v (p' + (q - p)).
Proof.
  intros HD HU HF Hd Hp H. destruct (dec_delim t HD (each_decoder_impl _ _ delimiting_delim t HU) ca fa HF) as [Ht Hc].
  pose proof (Ht d p Hd Hp) as B. rewrite H in B. change (p <= q <= size d) in B. split; [exact B|].
  intros d' p' Hd' Hp' Hw. destruct (cut_window d p q B) as (E & E1 & E2).
  assert (B' : p' <= p' + (q - p) <= size d') by lia. destruct (cut_window d' p' _ B') as (F & F1 & F2).
  replace (p' + (q - p) - p') with (q - p) in * by lia. rewrite Hw in F, F2.
  set (w := window d p (q - p)) in *.
  set (pre := firstn (N.to_nat p) d) in *. set (rest := skipn (N.to_nat q) d) in *.
  set (pre' := firstn (N.to_nat p') d') in *. set (rest' := skipn (N.to_nat (p' + (q - p))) d') in *.
  clearbody w pre rest pre' rest'. subst d d'.
  assert (H' : dec t ca fa (pre ++ w ++ rest) (lenN pre) = Ok v (lenN pre + lenN w)).
  { change (lenN pre) with (size pre). change (lenN w) with (size w). rewrite E1, E2.
    replace (p + (q - p)) with q by lia. exact H. }
  destruct (Hc _ _ _ _ Hd H') as [_ R]. specialize (R rest' pre' Hd').
  change (lenN pre') with (size pre') in R. change (lenN w) with (size w) in R. rewrite F1, E2 in R. exact R.
Qed.
Lemma delimited_no_offset t : delimited t = true -> offset_free t = true.
Proof. apply delimited_offset_free. Qed.

Lemma truncated t ca fa d p v q k : delimited t = true -> each_decoder self_delimiting t -> each_decoder total_inside t -> safe t -> moderate t ca fa -> delimits fa = true ->
  allocatable d -> p <= size d -> dec t ca fa d p = Ok v q -> p <= k < q ->
  exists e q', dec t ca fa (firstn (N.to_nat k) d) p = Err e q' /\ p <= q' <= k.
Proof.
  intros HD HU HU2 HS HM HF Hd Hp H Hk.
  destruct (decodes_locally t ca fa d p v q HD HU HF Hd Hp H) as [B _].
  assert (Hk' : size (firstn (N.to_nat k) d) = k) by (unfold size in *; rewrite firstn_length; lia).
  assert (Hd' : allocatable (firstn (N.to_nat k) d)) by (unfold allocatable in *; lia).
  destruct (decodes_safely t ca fa (firstn (N.to_nat k) d) p (delimited_no_offset _ HD) HU2 HS HM Hd') as [(v' & q' & E & Bq)|(e & q' & E & Bq)];
    [lia| |exists e, q'; split; [exact E|lia]].
  exfalso. assert (Hp2 : p <= size (firstn (N.to_nat k) d)) by lia.
  destruct (decodes_locally t ca fa _ p v' q' HD HU HF Hd' Hp2 E) as [B' L].
  assert (Hw : window d p (q' - p) = window (firstn (N.to_nat k) d) p (q' - p)).
  { unfold window. rewrite skipn_firstn_comm, firstn_firstn. f_equal. unfold size in *. lia. }
  specialize (L d p Hd ltac:(lia) Hw). rewrite H in L. injection L as _ L. lia.
Qed.
Lemma truncated_encoding t v w k : well_formed t -> delimited t = true -> each_decoder self_delimiting t -> each_decoder total_inside t -> safe t ->
  wire t no_cattr no_fattr v = Some w -> fits t no_cattr no_fattr v [] = true -> allocatable w -> k < size w ->
  encode t v = Ok w tt /\ exists e q, decode t (firstn (N.to_nat k) w) 0 = Err e q /\ q <= k.
Proof.
  intros HW HD HU HU2 HS Hw Hf Ha Hk.
  assert (Ha' : allocatable (w ++ [])) by (rewrite app_nil_r; exact Ha).
  destruct (round_trip t v w [] HW Hw Hf Ha') as [E D]. split; [exact E|]. rewrite app_nil_r in D.
  destruct (truncated t _ _ w 0 v _ k HD HU HU2 HS (moderate_top _ _) eq_refl Ha ltac:(lia) D ltac:(lia)) as (e & q & X & B).
  exists e, q. split; [exact X|lia].
Qed.
