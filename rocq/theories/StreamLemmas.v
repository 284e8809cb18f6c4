(** Decoding what has arrived so far. *)
From Verif Require Import Base Ints Reader Spec SpecOps RunSpec BaseLemmas ReaderLemmas.
From Verif Require Import Utf8 Decode Schema WireSpec CodecBase SafetySpec Bounds Locality Robust StreamSpec.

Lemma set_ret {A} (a : A) : settled (ret a).
Proof. intros d p more. reflexivity. Qed.
Lemma set_fail {A} k : settled (@fail A k).
Proof. intros d p more. right. reflexivity. Qed.
Lemma set_panic {A} : settled (@panic A).
Proof. intros d p more. exact Logic.I. Qed.
Lemma set_bind {A B} (m : rd A) (k : A -> rd B) : settled m -> (forall a, settled (k a)) -> settled (bind m k).
Proof.
  intros Hm Hk d p more. unfold bind. specialize (Hm d p more). destruct (m d p) as [a q|e q| |]; try exact Hm.
  - rewrite Hm. apply Hk.
  - destruct Hm as [Hm|Hm]; [left; exact Hm|right]. rewrite Hm. reflexivity.
Qed.
Lemma set_map {A B} (m : rd A) (f : A -> B) : settled m -> settled (x <- m ;; ret (f x)).
Proof. intros H. apply set_bind; [exact H|intros; apply set_ret]. Qed.
Lemma set_dec_n {A} n (d : rd A) : settled d -> settled (dec_n n d).
Proof.
  intros H. induction n as [|n IH]; [apply set_ret|]. cbn [dec_n].
  apply set_bind; [exact H|]. intros x. apply set_map, IH.
Qed.
Lemma set_dec_seq ds : Forall settled ds -> settled (dec_seq ds).
Proof.
  induction 1 as [|d r Hd Hr IH]; [apply set_ret|]. cbn [dec_seq].
  apply set_bind; [exact Hd|]. intros x. apply set_map, IH.
Qed.

Lemma slice_get_app {A} (d more : list A) a b v : slice_get d a b = Some v -> slice_get (d ++ more) a b = Some v.
Proof.
  unfold slice_get. destruct (a <=? b) eqn:E1; [|discriminate]. destruct (b <=? lenN d) eqn:E2; [|discriminate].
  cbn [andb]. apply N.leb_le in E1, E2. rewrite lenN_app, (proj2 (N.leb_le b (lenN d + lenN more))) by lia. cbn [andb].
  intros <-. f_equal. unfold lenN in *. rewrite skipn_app, firstn_app, skipn_length.
  replace (N.to_nat (b - a) - (length d - N.to_nat a))%nat with O by lia.
  cbn [firstn]. apply app_nil_r.
Qed.
Lemma remaining_len_app d more p n : n <= remaining_len d p -> n <= remaining_len (d ++ more) p.
Proof.
  unfold remaining_len, remaining, slice_get_from. rewrite lenN_app. unfold lenN.
  destruct (N.leb_spec p (N.of_nat (length d))) as [H|H].
  - rewrite (proj2 (N.leb_le p _)) by lia. rewrite !skipn_length, app_length. lia.
  - cbn [length]. lia.
Qed.
Lemma set_bytes n : settled (take_bytes n).
Proof.
  intros d p more. unfold take_bytes. destruct (N.ltb_spec (remaining_len d p) n) as [H|H]; [left; reflexivity|].
  rewrite (proj2 (N.ltb_ge _ _) (remaining_len_app d more p n H)).
  destruct (slice_get d _ _) as [v|] eqn:E; [|exact Logic.I]. rewrite (slice_get_app _ _ _ _ _ E). reflexivity.
Qed.
Lemma set_idx0 l : settled (idx0 l).
Proof. intros d p more. destruct l; [exact Logic.I|reflexivity]. Qed.
Lemma set_one {A} (f : byte -> A) : settled (l <- take_bytes 1 ;; b <- idx0 l ;; ret (f b)).
Proof. apply set_bind; [apply set_bytes|]. intros l. apply set_map, set_idx0. Qed.
Lemma set_n bo s n : settled (take_n bo s n).
Proof.
  destruct bo; cbn [take_n]; [unfold take_n_be|unfold take_n_le]; destruct (s <? n);
    auto using (@set_fail N), (@set_panic N); apply set_map, set_bytes.
Qed.
Lemma set_fixed bo n : settled (take_fixed bo n).
Proof. apply set_map, set_bytes. Qed.
Lemma set_int k t : settled (take_int k t).
Proof. destruct t; apply set_map; first [apply set_one|apply set_fixed]. Qed.
Lemma set_dec_int it ca fa : settled (dec_int it ca fa).
Proof.
  unfold dec_int. apply set_map. destruct (a_length fa) as [l|]; [|apply set_int].
  destruct (_ <? _); [apply set_fail|apply set_map, set_n].
Qed.

Lemma absent_none {A} (o : option A) : absent o = true -> o = None.
Proof. destruct o; [discriminate|reflexivity]. Qed.
Ltac under H := unfold streams_under in H; repeat (apply andb_prop in H; let H' := fresh H in destruct H as [H H']);
  repeat match goal with
  | A : absent _ = true |- _ => apply absent_none in A
  | A : negb _ = true |- _ => apply negb_true_iff in A
  end.
Lemma set_raw ca fa : streams_under fa = true -> settled (dec_raw ca fa).
Proof.
  intros H. under H. unfold dec_raw. rewrite H, H5, H4, H3, H2. unfold skip_to.
  apply set_bind; [apply set_ret|intros _]. apply set_bind; [apply set_ret|intros _].
  destruct (a_length fa); [apply set_bytes|].
  destruct (a_byte_count fa); [apply set_bind; [apply set_n|intros; apply set_bytes]|].
  apply set_bind; [apply set_one|intros; apply set_bytes].
Qed.
Lemma set_string ca fa : streams_under fa = true -> settled (dec_string ca fa).
Proof.
  intros H. unfold dec_string. apply set_bind; [apply set_raw, H|]. intros l.
  destruct (utf8_ok l); [apply set_ret|apply set_fail].
Qed.
Lemma set_ipv4 ca fa : settled (dec_ipv4 ca fa).
Proof. apply set_map, set_int. Qed.
Lemma set_ipv6 ca fa : settled (dec_ipv6 ca fa).
Proof. apply set_map, set_int. Qed.
Lemma set_mac ca fa : settled (dec_mac ca fa).
Proof. apply set_map, set_n. Qed.
Lemma set_ipaddr ca fa : settled (dec_ipaddr ca fa).
Proof.
  unfold dec_ipaddr. destruct (a_length fa) as [l|]; [|apply set_fail].
  destruct (l =? 16); [apply set_map, set_ipv6|]. destruct (l =? 4); [apply set_map, set_ipv4|apply set_fail].
Qed.
Lemma set_netaddr ca fa : settled (dec_netaddr ca fa).
Proof.
  unfold dec_netaddr. destruct (a_length fa) as [l|]; [|apply set_fail].
  destruct (l =? 0); [apply set_fail|]. destruct (l =? 4); [apply set_map, set_ipv4|].
  destruct (l =? 6); [apply set_map, set_mac|]. destruct (l =? 16); [apply set_map, set_ipv6|].
  apply set_map, set_dec_int.
Qed.
Lemma set_counted {A} ca fa (d : rd A) : streams_under fa = true -> settled d -> settled (dec_counted ca fa d).
Proof.
  intros H Hd. under H. unfold dec_counted, get_count_and_try_count. rewrite H0.
  assert (Q : forall m : rd N, settled m -> settled (ct <- (v <- m ;; ret (v, @None N)) ;;
    match snd ct with Some n => dec_try (N.to_nat n) d | None => dec_n (N.to_nat (fst ct)) d end)).
  { intros m Hm d0 p more. pose proof (set_bind m (fun v => dec_n (N.to_nat v) d) Hm (fun v => set_dec_n _ d Hd) d0 p more) as Q.
    unfold bind, ret in *. destruct (m d0 p) eqn:E; cbn [snd fst]; try exact Q.
    - destruct (dec_n (N.to_nat a) d d0 s) eqn:E2; destruct (m (d0 ++ more) p); cbn [snd fst]; exact Q.
    - destruct (m (d0 ++ more) p); cbn [snd fst]; exact Q. }
  destruct (a_count fa).
  - intros d0 p more. apply (set_dec_n (N.to_nat n) d Hd).
  - destruct (a_byte_count_outside fa); apply Q; [apply set_n|apply set_one].
Qed.

(** Derived types *)
Lemma streams_modifiers f en fa : streams f = true -> modifiers f en = Some fa -> streams_under fa = true.
Proof.
  unfold streams, modifiers. intros H. repeat (apply andb_prop in H; let H' := fresh H in destruct H as [H H']).
  repeat match goal with
  | A : absent _ = true |- _ => apply absent_none in A
  | A : negb _ = true |- _ => apply negb_true_iff in A
  end.
  destruct (f_use f); [|intros E; injection E as <-; reflexivity].
  destruct (match f_order f with None => _ | Some _ => _ end); [|discriminate]. intros E. injection E as <-.
  unfold streams_under. cbn. rewrite H, H4, H3, H2, H1, H0. reflexivity.
Qed.
Lemma set_field (d : cattr -> fattr -> rd val) f ca fa en :
  (forall g, f_with_decode f = Some g -> forall en ca fa, settled (g en ca fa)) ->
  streams_under fa = true -> settled (d ca fa) -> settled (dec_field d f ca fa en).
Proof.
  intros Hw Hf Hd. unfold dec_field, dec_offset. apply set_bind.
  { destruct (eval_opt _ _); [intros ? ? ?; reflexivity|apply set_ret]. }
  intros _. destruct (f_with_decode f) as [g|]; [apply Hw; reflexivity|].
  destruct (f_skip_decode f); [apply set_ret|]. destruct (f_from_str f) as [[parse show]|].
  { apply set_bind; [apply set_string, Hf|]. intros l. destruct (parse l); [apply set_ret|apply set_fail]. }
  apply set_bind; [intros ? ? ?; reflexivity|]. intros p0. apply set_bind.
  { destruct (f_if f) as [c|]; [destruct (c en); [apply Hd|apply set_ret]|apply Hd]. }
  intros v. apply set_bind; [destruct (f_untake f); [intros ? ? ?; reflexivity|apply set_ret]|].
  intros _. destruct (f_check f) as [c|]; [|apply set_ret].
  destruct (val_eqb _ _); [apply set_ret|apply set_fail].
Qed.
Definition sets (t : ty) : Prop := streamed t = true -> each_decoder settled t ->
  forall ca fa, streams_under fa = true -> settled (dec t ca fa).
Definition flows (ft : fspec * ty) : bool := let (f, t1) := ft in streams f && streamed t1.
Lemma set_fields fs inherit vars : Forall (fun ft => sets (snd ft)) fs -> Forall (with_fine settled) fs ->
  forallb flows fs = true ->
  forall ca prev done, streams_under prev = true -> settled (dec_fields dec inherit vars fs ca prev done).
Proof.
  induction fs as [|[f t] r IH]; intros HN HU HC ca prev done Hp; [apply set_ret|].
  inversion HN as [|? ? Ht HN']; subst. inversion HU as [|? ? [Hw Hu] HU']; subst. cbn [fst snd] in *.
  cbn [forallb flows] in HC. apply andb_prop in HC as [HC1 HC2]. apply andb_prop in HC1 as [HC0 HC1].
  cbn [dec_fields]. destruct (modifiers f (mkenv done vars)) as [own|] eqn:M; [|apply set_panic].
  assert (Hf : streams_under (if inherit && negb (f_use f) then prev else own) = true).
  { destruct (inherit && negb (f_use f)); [exact Hp|exact (streams_modifiers _ _ _ HC0 M)]. }
  apply set_bind; [|intros v; apply IH; assumption]. apply set_field; [exact Hw|exact Hf|]. apply Ht; assumption.
Qed.
Lemma set_arms hit eat nomatch ca vars vs :
  Forall (fun vf => Forall (fun ft => sets (snd ft)) (snd vf)) vs ->
  Forall (fun vf : vspec * list (fspec * ty) => Forall (with_fine settled) (snd vf)) vs ->
  forallb (fun vf : vspec * list (fspec * ty) => streams (v_attr (fst vf)) && forallb flows (snd vf)) vs = true ->
  forall i next, settled (dec_arms dec hit eat nomatch ca vars vs i next).
Proof.
  induction vs as [|[v fs] r IH]; intros HN HU HC i next; [apply set_fail|].
  inversion HN as [|? ? Ht HN']; subst. inversion HU as [|? ? Hu HU']; subst. cbn [fst snd] in *.
  cbn [forallb fst snd] in HC. apply andb_prop in HC as [HC1 HC2]. apply andb_prop in HC1 as [HC0 HC1].
  cbn [dec_arms]. destruct (hit v _); [|apply IH; assumption].
  apply set_bind; [intros ? ? ?; reflexivity|intros _].
  destruct (modifiers (v_attr v) _) as [prev|] eqn:M; [|apply set_panic].
  apply set_bind; [unfold dec_offset; destruct (eval_opt _ _); [intros ? ? ?; reflexivity|apply set_ret]|intros _].
  apply set_map. apply set_fields; try assumption. exact (streams_modifiers _ _ _ HC0 M).
Qed.
Lemma with_fine_variants (ok : rd val -> Prop) vs : every (fun vf : vspec * list (fspec * ty) => every (fun ft : fspec * ty => let (f, t1) := ft in
    (forall d, f_with_decode f = Some d -> forall en ca fa, ok (d en ca fa)) /\ each_decoder ok t1) (snd vf)) vs ->
  Forall (fun vf : vspec * list (fspec * ty) => Forall (with_fine ok) (snd vf)) vs.
Proof. induction vs as [|[v fs] r IH]; intros H; constructor; [exact (with_fine_all _ _ (proj1 H))|exact (IH (proj2 H))]. Qed.
Lemma key_streams fa : streams_under fa = true -> key_fattr fa = fa /\ value_fattr fa = fa.
Proof. intros H. under H. unfold key_fattr, value_fattr. rewrite H5, H4, H3. auto. Qed.

Theorem dec_settled t : sets t.
Proof.
  induction t as [t Hl|n t IH|ts IH|t IH|t IH|k v IHk IHv|t IH|named c fs IH|e vs IH] using ty_nested_ind;
    intros HS HU ca fa HF.
  - destruct t; try discriminate Hl; cbn [dec]; try apply set_map; try apply set_ret.
    + apply set_dec_int.
    + apply set_one.
    + apply set_one.
    + apply set_fixed.
    + apply set_fixed.
    + apply set_raw, HF.
    + apply set_string, HF.
    + apply set_mac.
    + apply set_ipv4.
    + apply set_ipv6.
    + apply set_ipaddr.
    + apply set_netaddr.
    + apply HU.
  - cbn [dec]. apply set_map, set_dec_n, IH; assumption.
  - cbn [dec]. apply set_map, set_dec_seq. cbn [each_decoder streamed] in *. apply Forall_map.
    induction IH as [|t0 r Ht _ IHr]; constructor; cbn [forallb] in HS; apply andb_prop in HS as [HS1 HS2].
    + apply Ht; [exact HS1|exact (proj1 HU)|exact HF].
    + apply IHr; [exact HS2|exact (proj2 HU)].
  - cbn [dec]. assert (L : a_loop fa = None) by (under HF; assumption). rewrite L.
    apply set_map, set_counted; [exact HF|]. apply IH; assumption.
  - cbn [dec]. apply set_map, set_counted; [exact HF|]. apply IH; assumption.
  - cbn [dec]. apply set_map, set_counted; [exact HF|]. cbn [streamed] in HS. apply andb_prop in HS as [S1 S2].
    destruct (key_streams fa HF) as [-> ->].
    apply set_bind; [apply IHk; [exact S1|exact (proj1 HU)|exact HF]|].
    intros x. apply set_map, IHv; [exact S2|exact (proj2 HU)|exact HF].
  - discriminate HS.
  - cbn [dec]. apply set_map. apply set_fields; [exact IH|exact (with_fine_all _ _ HU)|exact HS|reflexivity].
  - cbn [dec]. destruct vs as [|vf vs']; [apply set_ret|]. remember (vf :: vs') as vs eqn:Evs. clear Evs vf vs'.
    pose proof (with_fine_variants _ _ HU) as HW. cbn [streamed] in HS. apply andb_prop in HS as [S1 S2].
    assert (HA : forall hit eat nomatch ca vars i next, settled (dec_arms dec hit eat nomatch ca vars vs i next)).
    { intros. apply set_arms; assumption. }
    destruct (e_branching e); try discriminate S1.
    + apply set_bind; [|intros; apply HA]. unfold enum_tag. destruct (a_branch fa); [apply set_ret|].
      destruct (a_byte_count fa); [apply set_n|]. destruct (c_byte_count (e_c e)); [apply set_n|apply set_one].
    + apply set_bind; [apply set_bytes|intros; apply HA].
Qed.

(** ** The receiver *)
Lemma no_modifiers_stream : streams_under no_fattr = true.
Proof. reflexivity. Qed.
Definition judged (t : ty) (d : bytes) : verdict :=
  match decode t d 0 with
  | Ok v q => Accepted v q
  | Err e _ => if on_length (e_kind e) then Waiting else Rejected e
  | Panic | Hang => Crashed
  end.
Definition answers_for (t : ty) : Prop := offset_free t = true /\ each_decoder total_inside t /\ safe t.
Lemma answers_decode t d : answers_for t -> allocatable d ->
  match decode t d 0 with Ok _ q | Err _ q => q <= size d | Panic | Hang => False end.
Proof.
  intros (HO & HU & HS) Hd. destruct (decode_safely t d 0 HO HU HS Hd ltac:(lia)) as [(v & q & -> & B)|(e & q & -> & B)]; lia.
Qed.
Lemma allocatable_front a b : allocatable (a ++ b) -> allocatable a.
Proof. unfold allocatable, size. rewrite app_length. lia. Qed.
Lemma receive_judged t : streamed t = true -> each_decoder settled t -> answers_for t ->
  forall pieces have, allocatable (have ++ concat pieces) ->
  receive t on_length have pieces = judged t (have ++ concat pieces).
Proof.
  intros HS HU HA pieces. induction pieces as [|c r IH]; intros have HP.
  - cbn [receive concat]. rewrite app_nil_r. unfold judged. destruct (decode t have 0); reflexivity.
  - cbn [receive concat] in *. specialize (IH (have ++ c)). rewrite <- app_assoc in IH. specialize (IH HP).
    pose proof (dec_settled t HS HU no_cattr no_fattr no_modifiers_stream have 0 (c ++ concat r)) as Q.
    change (dec t no_cattr no_fattr) with (decode t) in Q. unfold judged in *.
    pose proof (answers_decode t have HA (allocatable_front _ _ HP)) as P.
    destruct (decode t have 0) as [v q|e q| |] eqn:E; try contradiction.
    + rewrite Q. reflexivity.
    + destruct (on_length (e_kind e)) eqn:W; [exact IH|]. destruct Q as [Q|Q]; [rewrite Q in W; discriminate|].
      rewrite Q, W. reflexivity.
Qed.
Lemma short_waits t d more v q : streamed t = true -> each_decoder settled t -> answers_for t ->
  allocatable (d ++ more) -> decode t (d ++ more) 0 = Ok v q -> size d < q ->
  exists e q', decode t d 0 = Err e q' /\ e_kind e = InvalidByteLength.
Proof.
  intros HS HU HA Hd E Hq.
  pose proof (dec_settled t HS HU no_cattr no_fattr no_modifiers_stream d 0 more) as Q.
  change (dec t no_cattr no_fattr) with (decode t) in Q.
  pose proof (answers_decode t d HA (allocatable_front _ _ Hd)) as P.
  destruct (decode t d 0) as [v' q'|e q'| |] eqn:E'; try contradiction.
  - rewrite Q in E. injection E as -> ->. lia.
  - exists e, q'. split; [reflexivity|]. destruct Q as [Q|Q]; [exact Q|]. congruence.
Qed.
Lemma patient t v q : delimited t = true -> each_decoder self_delimiting t -> each_decoder total_inside t -> safe t ->
  forall pieces have, allocatable (have ++ concat pieces) -> decode t (have ++ concat pieces) 0 = Ok v q ->
  receive t on_any have pieces = Accepted v q.
Proof.
  intros HD HU HT HS pieces. induction pieces as [|c r IH]; intros have HP E.
  - cbn [receive concat] in *. rewrite app_nil_r in E. rewrite E. reflexivity.
  - cbn [receive concat] in *. specialize (IH (have ++ c)). rewrite <- app_assoc in IH. specialize (IH HP E).
    pose proof (answers_decode t have (conj (delimited_no_offset _ HD) (conj HT HS)) (allocatable_front _ _ HP)) as P.
    destruct (decode t have 0) as [v' q'|e q'| |] eqn:E'; try contradiction; [|exact IH].
    destruct (decodes_locally t no_cattr no_fattr have 0 v' q' HD HU eq_refl (allocatable_front _ _ HP) ltac:(lia) E') as [B L].
    rewrite N.sub_0_r in L. specialize (L (have ++ c ++ concat r) 0 HP).
    change (dec t no_cattr no_fattr) with (decode t) in L. rewrite L in E; [injection E as E1 E2; subst; reflexivity| |].
    + unfold size in *. rewrite app_length. lia.
    + unfold window, size in *. change (N.to_nat 0) with 0%nat. cbn [skipn]. rewrite firstn_app.
      replace (N.to_nat q' - length have)%nat with O by lia. cbn [firstn]. apply app_nil_r.
Qed.
