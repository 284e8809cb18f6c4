(** C80: vectors read with a marker before each element. *)
From Verif Require Import Base Ints Spec SpecOps Reader BaseLemmas ReaderLemmas Schema Decode Sugar Examples LoopSpec PropsRobust.
From Verif Require CheckedDecode.

Section Loop.
Context {A : Type}.
Variables (m : bytes) (d : rd A) (dt : bytes).
Hypothesis HD : allocatable dt.
Hypothesis HM : m <> [].

Lemma at_room p : occurs_at m dt (N.to_nat p) -> p + size m <= size dt /\ p < size dt.
Proof.
  intros (a & b & E & L). assert (0 < length m)%nat by (destruct m; [congruence|cbn; lia]).
  unfold size. rewrite E, !app_length. lia.
Qed.
(** The two ways a test for the marker goes. *)
Lemma starts_at p : occurs_at m dt (N.to_nat p) -> take_bytes_starts m dt p = Ok tt (p + size m).
Proof.
  intros O. pose proof (at_room p O) as [R1 R2]. destruct O as (a & b & E & L). unfold take_bytes_starts.
  rewrite remaining_len_eq. unfold allocatable in HD. change size with (@lenN byte) in *. destruct (N.ltb_spec (lenN dt - p) (lenN m)); [lia|].
  assert (X : remaining dt p = m ++ b).
  { unfold remaining, slice_get_from. destruct (N.leb_spec p (lenN dt)); [|lia]. rewrite E, <- L, skipn_app, skipn_all, Nat.sub_diag. reflexivity. }
  rewrite X, starts_with_app, wadd_small by lia. reflexivity.
Qed.
Lemma starts_not p : ~ occurs_at m dt (N.to_nat p) -> exists e, take_bytes_starts m dt p = Err e p.
Proof.
  intros O. unfold take_bytes_starts. rewrite remaining_len_eq. destruct (N.ltb_spec (lenN dt - p) (lenN m)) as [|L]; [eauto|].
  destruct (starts_with m (remaining dt p)) eqn:S; [|eauto]. destruct O. apply starts_with_iff in S as [r S].
  assert (0 < lenN m) by (destruct m; [congruence|rewrite lenN_cons; lia]).
  unfold remaining, slice_get_from in S. destruct (N.leb_spec p (lenN dt)) as [L'|]; [|lia].
  exists (firstn (N.to_nat p) dt), r. split; [rewrite <- S; symmetry; apply firstn_skipn|]. rewrite firstn_length. unfold lenN in *. lia.
Qed.
Lemma at_dec p : occurs_at m dt (N.to_nat p) \/ ~ occurs_at m dt (N.to_nat p).
Proof.
  destruct (take_bytes_starts m dt p) as [[] q|e q| |] eqn:E.
  - left. unfold take_bytes_starts in E. rewrite remaining_len_eq in E. destruct (N.ltb_spec (lenN dt - p) (lenN m)) as [|L]; [discriminate|].
    destruct (starts_with m (remaining dt p)) eqn:S; [|discriminate]. apply starts_with_iff in S as [r S].
    assert (0 < lenN m) by (destruct m; [congruence|rewrite lenN_cons; lia]).
    unfold remaining, slice_get_from in S. destruct (N.leb_spec p (lenN dt)) as [L'|]; [|lia].
    exists (firstn (N.to_nat p) dt), r. split; [rewrite <- S; symmetry; apply firstn_skipn|]. rewrite firstn_length. unfold lenN in *. lia.
  - right. intros O. rewrite (starts_at p O) in E. discriminate.
  - right. intros O. rewrite (starts_at p O) in E. discriminate.
  - right. intros O. rewrite (starts_at p O) in E. discriminate.
Qed.

(** A loop that is cut off after [fuel] rounds. *)
Lemma cut_ends fuel : forall p r, dec_loop fuel m d dt p = r -> r <> Hang -> loop_ends m d dt p r.
Proof.
  induction fuel as [|fuel IH]; intros p r E NH; [cbn in E; congruence|]. cbn [dec_loop] in E.
  destruct (at_dec p) as [O|O]; [rewrite (starts_at p O) in E|destruct (starts_not p O) as [e S]; rewrite S in E; subst; constructor; exact O].
  unfold bind in E. destruct (d dt (p + size m)) as [x q|e q| |] eqn:D; try (subst; econstructor; eassumption); [|congruence].
  destruct (dec_loop fuel m d dt q) as [l z|e z| |] eqn:R; unfold ret in E; subst.
  - eapply element_read; [exact O|exact D|]. apply IH; [exact R|discriminate].
  - eapply later_fails; [exact O|exact D|]. apply IH; [exact R|discriminate].
  - eapply later_panics; [exact O|exact D|]. apply IH; [exact R|discriminate].
  - congruence.
Qed.
(** What has been cut off was in the middle, or hung in an element. *)
Lemma cut_hangs fuel : forall p, dec_loop fuel m d dt p = Hang ->
  (exists q, rounds m d dt fuel p q) \/
  (exists n q, rounds m d dt n p q /\ occurs_at m dt (N.to_nat q) /\ d dt (q + size m) = Hang).
Proof.
  induction fuel as [|fuel IH]; intros p E; [left; exists p; constructor|]. cbn [dec_loop] in E.
  destruct (at_dec p) as [O|O]; [rewrite (starts_at p O) in E|destruct (starts_not p O) as [e S]; rewrite S in E; discriminate].
  unfold bind in E. destruct (d dt (p + size m)) as [x q|e q| |] eqn:D; try discriminate.
  - destruct (dec_loop fuel m d dt q) as [l z|e z| |] eqn:R; unfold ret in E; try discriminate.
    destruct (IH q R) as [[z H]|(n & z & H & H2)].
    + left. exists z. econstructor; eassumption.
    + right. exists (S n), z. split; [econstructor; eassumption|exact H2].
  - right. exists 0%nat, p. repeat split; try assumption. constructor.
Qed.
(** More rounds than there are places for a marker: one of them comes twice. *)
Lemma rounds_split n k : forall p q, rounds m d dt (n + k) p q -> exists x, rounds m d dt n p x /\ rounds m d dt k x q.
Proof.
  induction n as [|n IH]; intros p q H; [exists p; split; [constructor|exact H]|]. cbn in H. inversion_clear H as [|? ? x q' ? O D R].
  destruct (IH _ _ R) as (y & H1 & H2). exists y. split; [econstructor; eassumption|exact H2].
Qed.
Lemma rounds_at n p q : rounds m d dt (S n) p q -> occurs_at m dt (N.to_nat p).
Proof. intros H. inversion_clear H. assumption. Qed.
Lemma rounds_same n : forall p q q', rounds m d dt n p q -> rounds m d dt n p q' -> q = q'.
Proof.
  induction n as [|n IH]; intros p q q' H H'; inversion H; inversion H'; subst; [reflexivity|].
  match goal with E1 : d _ _ = Ok _ _, E2 : d _ _ = Ok _ _ |- _ => rewrite E1 in E2; injection E2 as <- <- end. eauto.
Qed.
Lemma visited n : forall p q, rounds m d dt n p q ->
  exists l : list N, length l = n /\ (forall i x, nth_error l i = Some x -> occurs_at m dt (N.to_nat x) /\ rounds m d dt i p x).
Proof.
  induction n as [|n IH]; intros p q H; [exists []; split; [reflexivity|]; intros [|i] x E; discriminate|].
  inversion_clear H as [|? ? x q' ? O D R]. destruct (IH _ _ R) as (l & L & V). exists (p :: l). split; [cbn; lia|].
  intros [|i] y E; cbn in E; [injection E as <-; split; [exact O|constructor]|]. destruct (V i y E) as [V1 V2]. split; [exact V1|]. econstructor; eassumption.
Qed.
Lemma twice p q : rounds m d dt (S (length dt)) p q -> exists i j x, (0 < j)%nat /\ rounds m d dt i p x /\ rounds m d dt j x x.
Proof.
  intros H. destruct (visited _ _ _ H) as (l & L & V).
  assert (ND : ~ NoDup (map N.to_nat l)).
  { intros ND. assert (incl (map N.to_nat l) (seq 0 (length dt))).
    { intros y Hy. apply in_map_iff in Hy as (x & <- & Hx). apply In_nth_error in Hx as [i Hi]. destruct (V i x Hi) as [O _].
      apply at_room in O as [_ O]. unfold size in O. apply in_seq. lia. }
    pose proof (NoDup_incl_length ND H0) as Q. rewrite map_length, seq_length, L in Q. lia. }
  assert (X : exists i k x, nth_error l i = Some x /\ nth_error l (i + S k) = Some x).
  { clear -ND. induction l as [|a l IH]; [destruct ND; constructor|].
    destruct (in_dec N.eq_dec a l) as [I|I].
    - apply In_nth_error in I as [k I]. exists 0%nat, k, a. split; [reflexivity|exact I].
    - destruct IH as (i & k & x & H1 & H2); [|exists (S i), k, x; split; assumption].
      intros ND'. apply ND. cbn. constructor; [|exact ND']. intros C. apply in_map_iff in C as (y & E & C). apply N2Nat.inj in E. congruence. }
  destruct X as (i & k & x & H1 & H2). exists i, (S k), x. split; [lia|]. destruct (V i x H1) as [_ R1]. destruct (V _ x H2) as [_ R2]. split; [exact R1|].
  apply rounds_split in R2 as (y & R2 & R3). rewrite (rounds_same _ _ _ _ R1 R2). rewrite <- (rounds_same _ _ _ _ R1 R2). rewrite (rounds_same _ _ _ _ R1 R2) at 1. exact R3.
Qed.

(** A loop that comes back, or hangs in an element, does not end. *)
Inductive height : nat -> N -> Prop :=
| h_stop p : ~ (exists x q, occurs_at m dt (N.to_nat p) /\ d dt (p + size m) = Ok x q) ->
    ~ (occurs_at m dt (N.to_nat p) /\ d dt (p + size m) = Hang) -> height 0 p
| h_more n p x q : occurs_at m dt (N.to_nat p) -> d dt (p + size m) = Ok x q -> height n q -> height (S n) p.
Lemma ends_height p r : loop_ends m d dt p r -> exists n, height n p.
Proof.
  induction 1 as [p O|p e q O D|p O D|p x q l z O D H [n IH]|p x q e z O D H [n IH]|p x q O D H [n IH]].
  - exists 0%nat. constructor; [intros (x & q & O' & _)|intros [O' _]]; contradiction.
  - exists 0%nat. constructor; [intros (x & q' & _ & D')|intros [_ D']]; congruence.
  - exists 0%nat. constructor; [intros (x & q' & _ & D')|intros [_ D']]; congruence.
  - exists (S n). econstructor; eassumption.
  - exists (S n). econstructor; eassumption.
  - exists (S n). econstructor; eassumption.
Qed.
Lemma height_rounds k : forall n p q, height n p -> rounds m d dt k p q -> exists n', height n' q /\ (n = n' + k)%nat.
Proof.
  induction k as [|k IH]; intros n p q H R; inversion R as [|? ? x q1 ? O D R']; subst; [exists n; split; [exact H|lia]|].
  inversion H as [? N1 N2|n0 ? x' q2 O' D' H']; subst.
  - destruct N1. eauto.
  - rewrite D in D'. injection D' as <- <-. destruct (IH _ _ _ H' R') as (n' & H2 & ->). exists n'. split; [exact H2|lia].
Qed.
Lemma no_height k q : (0 < k)%nat -> rounds m d dt k q q -> forall n, ~ height n q.
Proof.
  intros K R n. induction n as [n IH] using lt_wf_ind. intros H. destruct (height_rounds k n q q H R) as (n' & H' & E). exact (IH n' ltac:(lia) H').
Qed.
Lemma comes_back_no_end i j p q r : (0 < j)%nat -> rounds m d dt i p q -> rounds m d dt j q q -> ~ loop_ends m d dt p r.
Proof.
  intros J R1 R2 E. destruct (ends_height _ _ E) as [n H]. destruct (height_rounds i n p q H R1) as (n' & H' & _). exact (no_height j q J R2 n' H').
Qed.
Lemma hangs_no_end i p q r : rounds m d dt i p q -> occurs_at m dt (N.to_nat q) -> d dt (q + size m) = Hang -> ~ loop_ends m d dt p r.
Proof.
  intros R O D E. destruct (ends_height _ _ E) as [n H]. destruct (height_rounds i n p q H R) as (n' & H' & _).
  inversion H' as [? N1 N2|? ? x z _ D' _]; subst; [destruct N2; auto|congruence].
Qed.
Lemma ends_once p r : loop_ends m d dt p r -> forall r', loop_ends m d dt p r' -> r = r'.
Proof.
  induction 1 as [p O|p e q O D|p O D|p x q l z O D H IH|p x q e z O D H IH|p x q O D H IH]; intros r' H'; inversion H'; subst; try contradiction; try congruence.
  all: match goal with E1 : d _ _ = Ok _ _, E2 : d _ _ = Ok _ _ |- _ => rewrite E1 in E2; injection E2; intros; subst end.
  all: repeat match goal with K : loop_ends _ _ _ _ _ |- _ => apply IH in K end; congruence.
Qed.
Lemma ends_not_hang p r : loop_ends m d dt p r -> r <> Hang.
Proof. destruct 1; discriminate. Qed.
End Loop.

Lemma vector_loop t ca fa m d p r : a_loop fa = Some m -> m <> [] -> allocatable d -> loop_ends m (dec t ca fa) d p r ->
  dec (TVec t) ca fa d p = match r with Ok l q => Ok (VList l) q | Err e q => Err e q | Panic => Panic | Hang => Hang end.
Proof.
  intros HL HM HD E. cbn [dec]. rewrite HL. unfold bind.
  destruct (dec_loop (S (length d)) m (dec t ca fa) d p) as [l q|e q| |] eqn:R.
  1-3: rewrite <- (ends_once m (dec t ca fa) d p _ (cut_ends m (dec t ca fa) d HD HM _ p _ R ltac:(discriminate)) r E); reflexivity.
  exfalso. destruct (cut_hangs m (dec t ca fa) d HD HM _ p R) as [[q H]|(n & q & H1 & H2 & H3)].
  - destruct (twice m (dec t ca fa) d HM p q H) as (i & j & x & J & R1 & R2). exact (comes_back_no_end m (dec t ca fa) d i j p x r J R1 R2 E).
  - exact (hangs_no_end m (dec t ca fa) d n p q r H1 H2 H3 E).
Qed.
Lemma loop_vector t ca fa m d p : a_loop fa = Some m -> m <> [] -> allocatable d -> dec (TVec t) ca fa d p <> Hang ->
  exists r, loop_ends m (dec t ca fa) d p r.
Proof.
  intros HL HM HD N. cbn [dec] in N. rewrite HL in N. unfold bind in N.
  destruct (dec_loop (S (length d)) m (dec t ca fa) d p) as [l q|e q| |] eqn:R; [..|congruence].
  all: eexists; apply (cut_ends m (dec t ca fa) d HD HM _ p _ R); discriminate.
Qed.

(** The decoder of a vector ends as the loop ends, and in no other way. Any type of elements. *)
Theorem C80_ends : forall t ca fa marker d p, a_loop fa = Some marker -> marker <> [] -> allocatable d ->
  (forall v q, dec (TVec t) ca fa d p = Ok v q <-> exists l, v = VList l /\ loop_ends marker (dec t ca fa) d p (Ok l q)) /\
  (forall e q, dec (TVec t) ca fa d p = Err e q <-> loop_ends marker (dec t ca fa) d p (Err e q)) /\
  (dec (TVec t) ca fa d p = Panic <-> loop_ends marker (dec t ca fa) d p Panic).
Proof.
  intros t ca fa m d p HL HM HD.
  assert (A : forall r, loop_ends m (dec t ca fa) d p r -> dec (TVec t) ca fa d p = match r with Ok l q => Ok (VList l) q | Err e q => Err e q | Panic => Panic | Hang => Hang end)
    by (intros r; apply vector_loop; assumption).
  assert (B : dec (TVec t) ca fa d p <> Hang -> exists r, loop_ends m (dec t ca fa) d p r) by (apply loop_vector; assumption).
  repeat split.
  - intros H. destruct B as [r B]; [congruence|]. pose proof (A r B) as C. rewrite H in C. destruct r; try discriminate. injection C as -> ->. eauto.
  - intros (l & -> & H). exact (A _ H).
  - intros H. destruct B as [r B]; [congruence|]. pose proof (A r B) as C. rewrite H in C. destruct r; try discriminate. injection C as -> ->. exact B.
  - intros H. exact (A _ H).
  - intros H. destruct B as [r B]; [congruence|]. pose proof (A r B) as C. rewrite H in C. destruct r; try discriminate. exact B.
  - intros H. exact (A _ H).
Qed.
(** It hangs when the loop does not end, and then only. *)
Theorem C80_hangs : forall t ca fa marker d p, a_loop fa = Some marker -> marker <> [] -> allocatable d ->
  dec (TVec t) ca fa d p = Hang <-> ~ exists r, loop_ends marker (dec t ca fa) d p r.
Proof.
  intros t ca fa m d p HL HM HD. split.
  - intros H [r E]. pose proof (ends_not_hang m _ d p r E). rewrite (vector_loop t ca fa m d p r HL HM HD E) in H. destruct r; try discriminate. congruence.
  - intros N. destruct (dec (TVec t) ca fa d p) eqn:R; [..|reflexivity].
    all: exfalso; apply N; apply loop_vector; try assumption; congruence.
Qed.
(** It does not end only if an element does not, or if the loop comes back to a position where it has
    been before. *)
Theorem C80_why : forall t ca fa marker d p, a_loop fa = Some marker -> marker <> [] -> allocatable d ->
  dec (TVec t) ca fa d p = Hang ->
  exists n q, rounds marker (dec t ca fa) d n p q /\
    ((occurs_at marker d (N.to_nat q) /\ dec t ca fa d (q + size marker) = Hang) \/
     exists k, (0 < k)%nat /\ rounds marker (dec t ca fa) d k q q).
Proof.
  intros t ca fa m d p HL HM HD H. cbn [dec] in H. rewrite HL in H. unfold bind in H.
  destruct (dec_loop (S (length d)) m (dec t ca fa) d p) as [l q|e q| |] eqn:R; try discriminate.
  destruct (cut_hangs m (dec t ca fa) d HD HM _ p R) as [[q K]|(n & q & H1 & H2 & H3)].
  - destruct (twice m (dec t ca fa) d HM p q K) as (i & j & x & J & R1 & R2). exists i, x. split; [exact R1|]. right. exists j. auto.
  - exists n, q. auto.
Qed.
(** So a loop whose elements end and do not seek backwards ends, however long the input is. *)
Theorem C80_forward : forall t ca fa marker d p, a_loop fa = Some marker -> marker <> [] -> allocatable d ->
  (forall q, q <= size d -> dec t ca fa d q <> Hang) -> (forall q x q', q <= size d -> dec t ca fa d q = Ok x q' -> q <= q') ->
  dec (TVec t) ca fa d p <> Hang.
Proof.
  intros t ca fa m d p HL HM HD NH UP H. destruct (C80_why t ca fa m d p HL HM HD H) as (n & q & _ & [[O K]|(k & K & R)]);
    [exact (NH _ (proj1 (at_room m d HM q O)) K)|].
  assert (Z : forall k p q, rounds m (dec t ca fa) d k p q -> p + N.of_nat k <= q).
  { clear -UP HM. induction 1 as [p|n p x q z O D R IH]; [lia|]. pose proof (UP _ _ _ (proj1 (at_room m d HM p O)) D).
    assert (1 <= size m) by (unfold size; destruct m; [congruence|cbn; lia]). lia. }
  pose proof (Z _ _ _ R). lia.
Qed.
(** The loop consumes what it has read and nothing else: it stops where no marker follows. *)
Theorem C80_stops : forall t ca fa marker d p l q, a_loop fa = Some marker -> marker <> [] -> allocatable d ->
  dec (TVec t) ca fa d p = Ok (VList l) q -> rounds marker (dec t ca fa) d (length l) p q /\ ~ occurs_at marker d (N.to_nat q).
Proof.
  intros t ca fa m d p l q HL HM HD H. destruct (C80_ends t ca fa m d p HL HM HD) as [A _]. apply A in H as (l' & E & H). injection E as <-. clear -H.
  remember (Ok l q) as r eqn:E. revert l q E. induction H as [p O|p e z O D|p O D|p x y l z O D H IH|p x y e z O D H IH|p x y O D H IH]; intros l' q' E; try discriminate.
  - injection E as <- <-. split; [constructor|exact O].
  - injection E as <- <-. destruct (IH _ _ eq_refl) as [I1 I2]. split; [cbn [length]; econstructor; eassumption|exact I2].
Qed.

(** Two records with a marker, then bytes that are no marker. *)
Definition looped (m : bytes) : fattr := mkfattr None None false None None false None false None None None None None None (Some m).
Example C80_case : let m := hex [13; 10] in let d := hex [13; 10; 0; 7; 13; 10; 1; 0; 13; 9] in
  m <> [] /\ allocatable d /\ loop_ends m (dec u16 no_cattr (looped m)) d 0 (Ok [vi 7; vi 256] 8)
  /\ dec (TVec u16) no_cattr (looped m) d 0 = Ok (VList [vi 7; vi 256]) 8
  /\ decode (struct [(at_loop m plain, TVec u16); (plain, u8)]) d 0 = Ok (VList [VList [vi 7; vi 256]; vi 13]) 9.
Proof.
  cbv zeta. split; [discriminate|]. split; [vm_compute; reflexivity|]. split; [|split; vm_compute; reflexivity].
  eapply element_read; [exists [], (hex [0; 7; 13; 10; 1; 0; 13; 9]); split; reflexivity|vm_compute; reflexivity|].
  eapply element_read; [exists (hex [13; 10; 0; 7]), (hex [1; 0; 13; 9]); split; reflexivity|vm_compute; reflexivity|].
  apply no_marker. intros (a & b & E & L). do 8 (destruct a as [|? a]; [discriminate L|]). destruct a; [|discriminate L]. vm_compute in E. congruence.
Qed.
Example C80_forward_case : forall m d, m <> [] -> allocatable d ->
  (forall q, q <= size d -> dec u16 no_cattr (looped m) d q <> Hang) /\
  (forall q x q', q <= size d -> dec u16 no_cattr (looped m) d q = Ok x q' -> q <= q') /\ dec (TVec u16) no_cattr (looped m) d 0 <> Hang.
Proof.
  intros m d M D.
  assert (T : forall q, q <= size d -> (exists v z, dec u16 no_cattr (looped m) d q = Ok v z /\ q <= z <= size d) \/
    (exists e z, dec u16 no_cattr (looped m) d q = Err e z /\ q <= z <= size d)).
  { intros q Q. apply C34_total_in_context; try assumption; try exact Logic.I; [reflexivity|]. split; [cbn; congruence|left; reflexivity]. }
  assert (A : forall q, q <= size d -> dec u16 no_cattr (looped m) d q <> Hang) by (intros q Q; destruct (T q Q) as [(v & z & E & _)|(v & z & E & _)]; congruence).
  assert (B : forall q x q', q <= size d -> dec u16 no_cattr (looped m) d q = Ok x q' -> q <= q').
  { intros q x q' Q E. destruct (T q Q) as [(v & z & E' & L)|(v & z & E' & L)]; [|congruence]. assert (z = q') by congruence. lia. }
  split; [exact A|]. split; [exact B|]. apply (C80_forward u16 no_cattr (looped m) m d 0 eq_refl M D A B).
Qed.
(** A marker that is not empty does not make every loop end: with an [offset] taken from a signed field the input
    can send the loop back to the marker, for ever. *)
Theorem C80_seek_back_refuted : exists m t d, t = struct [(plain, TInt I8); (at_offset (field_ref 0) plain, TArray 0 u8)]
  /\ m = hex [13] /\ d = hex [13; 254] /\ allocatable d /\ (forall n, rounds m (dec t no_cattr (looped m)) d n 0 0)
  /\ dec (TVec t) no_cattr (looped m) d 0 = Hang /\ decode (struct [(at_loop m plain, TVec t)]) d 0 = Hang
  /\ CheckedDecode.decode (struct [(at_loop m plain, TVec t)]) d 0 = Panic.
Proof.
  do 3 eexists. do 3 (split; [reflexivity|]). split; [vm_compute; reflexivity|]. split; [|repeat split; vm_compute; reflexivity].
  induction n as [|n IH]; [constructor|]. eapply one_more; [exists [], (hex [254]); split; reflexivity|vm_compute; reflexivity|exact IH].
Qed.

Print Assumptions C80_ends.
Print Assumptions C80_hangs.
Print Assumptions C80_why.
Print Assumptions C80_forward.
Print Assumptions C80_stops.
Print Assumptions C80_seek_back_refuted.
