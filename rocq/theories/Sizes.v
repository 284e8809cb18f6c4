(** Decoded collections are no larger than the input. *)
From Verif Require Import Base Ints Spec SpecOps Reader BaseLemmas ReaderLemmas ReaderHist.
From Verif Require Import Schema RunSpec Utf8 Decode Encode WireSpec CodecBase EncLemmas DecLemmas DecWire Collections SafetySpec Bounds Locality Canonical SizeSpec.

(** What [m] returns stands in relation [R] to the number of bytes it consumes. *)
Definition spends {A} (R : A -> N -> Prop) (m : rd A) : Prop :=
  forall d p a q, small d -> p <= lenN d -> m d p = Ok a q -> p <= q /\ q <= lenN d /\ R a (q - p).
Definition eats {A} (m : rd A) : Prop := spends (fun _ n => 1 <= n) m.

Lemma spends_weak {A} (R S : A -> N -> Prop) m : (forall a n, R a n -> S a n) -> spends R m -> spends S m.
Proof. intros H Hm d p a q Hs Hp E. destruct (Hm _ _ _ _ Hs Hp E) as (H1 & H2 & H3). auto. Qed.
Lemma spends_ret {A} (R : A -> N -> Prop) a : R a 0 -> spends R (ret a).
Proof. intros H d p b q _ Hp E. injection E as <- <-. rewrite N.sub_diag. repeat split; [lia|exact Hp|exact H]. Qed.
Lemma spends_fail {A} (R : A -> N -> Prop) k : spends R (fail k).
Proof. intros d p b q _ Hp E. discriminate. Qed.
Lemma spends_panic {A} (R : A -> N -> Prop) : spends R panic.
Proof. intros d p b q _ Hp E. discriminate. Qed.
Lemma spends_bind {A B} (R : A -> N -> Prop) (S : B -> N -> Prop) m k :
  spends R m -> (forall a n, R a n -> spends (fun b n' => S b (n + n')) (k a)) -> spends S (bind m k).
Proof.
  intros Hm Hk d p b q Hs Hp E. apply bind_ok in E as (a & q' & E1 & E2).
  destruct (Hm _ _ _ _ Hs Hp E1) as (H1 & H2 & H3). destruct (Hk a _ H3 _ _ _ _ Hs H2 E2) as (H4 & H5 & H6).
  split; [lia|]. split; [exact H5|]. replace (q - p) with ((q' - p) + (q - q')) by lia. exact H6.
Qed.
Lemma spends_map {A B} (R : A -> N -> Prop) (S : B -> N -> Prop) m (f : A -> B) :
  spends R m -> (forall a n, R a n -> S (f a) n) -> spends S (a <- m ;; ret (f a)).
Proof. intros Hm H. eapply spends_bind; [exact Hm|]. intros a n Hn. apply spends_ret. rewrite N.add_0_r. auto. Qed.
Lemma tame_spends {A} (m : rd A) (R : A -> N -> Prop) : tame false m -> (forall a n, R a n) -> spends R m.
Proof.
  intros Hm H d p a q Hs Hp E. specialize (Hm d p Hs Hp). rewrite E in Hm. split; [lia|]. split; [lia|apply H].
Qed.
Lemma eats_first {A B} (m : rd A) (k : A -> rd B) : eats m -> (forall a, tame false (k a)) -> eats (bind m k).
Proof.
  intros Hm Hk. eapply spends_bind; [exact Hm|]. intros a n Hn. apply tame_spends; [apply Hk|]. intros. cbv beta in Hn. lia.
Qed.
Lemma eats_later {A B} (m : rd A) (k : A -> rd B) : tame false m -> (forall a, eats (k a)) -> eats (bind m k).
Proof.
  intros Hm Hk. eapply spends_bind; [apply (tame_spends m (fun _ _ => True)); auto|]. intros a n _.
  eapply spends_weak; [|apply Hk]. intros. cbv beta in *. lia.
Qed.
Lemma eats_map {A B} (m : rd A) (f : A -> B) : eats m -> eats (a <- m ;; ret (f a)).
Proof. intros H. apply eats_first; [exact H|]. intros. apply tame_ret. Qed.
Lemma consumes_eats {A} (R : A -> bytes -> Prop) m : consumes R m -> (forall a w, R a w -> 1 <= lenN w) -> eats m.
Proof.
  intros Hm H d p a q Hs Hp E. destruct (Hm _ _ _ _ Hs Hp E) as (H1 & H2 & H3). split; [exact H1|]. split; [exact H2|].
  apply H in H3. rewrite lenN_sub in H3 by lia. exact H3.
Qed.

(** ** Leaves *)
Lemma eats_bytes n : n <> 0 -> eats (take_bytes n).
Proof. intros H. eapply consumes_eats; [apply consumes_bytes|]. intros l w [_ E]. lia. Qed.
Lemma eats_u8 : eats take_u8.
Proof. eapply consumes_eats; [apply consumes_u8|]. intros l w [-> E]. rewrite lenN_cons, lenN_nil. lia. Qed.
Lemma eats_fixed bo n : n <> 0 -> eats (take_fixed bo n).
Proof. intros H. eapply consumes_eats; [apply consumes_fixed|]. intros l w [E _]. lia. Qed.
Lemma eats_int k t : eats (take_int k t).
Proof. eapply consumes_eats; [apply consumes_int|]. intros l w [E _]. pose proof (sizeN_pos t). lia. Qed.
Lemma eats_uint bo n : n <> 0 -> eats (take_uint (KOrder bo) n).
Proof. intros H. eapply consumes_eats; [apply consumes_uint|]. intros l w [E _]. lia. Qed.
Lemma eats_dec_int it ca fa : positive (a_length fa) -> eats (dec_int it ca fa).
Proof.
  intros H. unfold dec_int. apply eats_map. destruct (a_length fa) as [l|].
  - destruct (sizeN it <? l); [apply spends_fail|]. apply eats_map, eats_uint. intros ->. apply H. reflexivity.
  - apply eats_int.
Qed.
Lemma eats_needle s : non_empty s = true -> eats (find_subsequence_needle s true).
Proof.
  intros Hn d p l q Hs Hp E. unfold find_subsequence_needle in E.
  destruct (memmem_find s (remaining d p)) as [i|] eqn:Em; [|discriminate].
  apply memmem_some in Em as [Ho _]. apply occurs_len in Ho.
  rewrite remaining_in in Ho by exact Hp. rewrite skipn_length in Ho. unfold small, lenN in *.
  apply slice_ok_inv in E as [-> _]. cbv zeta. rewrite !wadd_small by (rewrite ?wadd_small by lia; lia).
  destruct s as [|b s]; [discriminate Hn|]. cbn [length] in *. lia.
Qed.
Lemma eats_skip_to o : some_text o = true -> eats (skip_to o).
Proof. destruct o as [s|]; [|discriminate]. intros H. apply eats_map, eats_needle, H. Qed.
Lemma eats_find s : non_empty s = true -> eats (find_subsequence s).
Proof.
  intros H. eapply consumes_eats; [apply consumes_find|]. intros l w ->. rewrite lenN_app.
  destruct s; [discriminate H|]. rewrite lenN_cons. lia.
Qed.
Lemma fine_false t ca fa : fine false t ca fa.
Proof. discriminate. Qed.
Lemma eats_lines : eats (find_subsequences line_ends).
Proof.
  intros d p l q Hs Hp E. pose proof (tame_wb false _ (wb_finds line_ends) d p Hs Hp) as Ht. rewrite E in Ht.
  split; [lia|]. split; [lia|]. unfold find_subsequences in E.
  destruct (ac_find line_ends (remaining d p)) as [[s e]|] eqn:Em; [|discriminate].
  apply ac_find_some in Em as (Hle & (x & Hx & _ & Hlen) & _). apply slice_ok_inv in E as [-> _].
  rewrite remaining_in in Hle by exact Hp. rewrite skipn_length in Hle. unfold small, lenN in *.
  rewrite wadd_small in * by lia.
  assert (1 <= length x)%nat by (destruct Hx as [<-|[<-|[<-|[]]]]; cbn; lia). lia.
Qed.
Lemma eats_bind_bytes (m : rd N) : eats m -> eats (l <- m ;; take_bytes l).
Proof. intros H. apply eats_first; [exact H|]. intros. apply tame_bytes. Qed.
Lemma eats_raw ca fa : takes_frame fa -> eats (dec_raw ca fa).
Proof.
  intros H. unfold dec_raw.
  set (body := match a_length fa with Some l => take_bytes l | None => _ end).
  assert (Tb : tame false body).
  { unfold body. destruct (a_length fa); [apply tame_bytes|].
    destruct (a_byte_count fa); [apply tame_bind; [apply tame_uint; discriminate|intros; apply tame_bytes]|].
    destruct (a_linend fa); [apply tame_wb, wb_finds|]. destruct (a_linend_value fa); [apply tame_wb, wb_find|].
    destruct (a_remaining fa); [intros d p Hs Hp; apply tame_bytes; assumption|].
    apply tame_bind; [apply tame_u8|intros; apply tame_bytes]. }
  destruct H as [H|[H|H]].
  - apply eats_first; [apply eats_skip_to, H|]. intros _. apply tame_bind; [apply tame_skip_to|intros _; exact Tb].
  - apply eats_later; [apply tame_skip_to|intros _]. apply eats_first; [apply eats_skip_to, H|intros _; exact Tb].
  - apply eats_later; [apply tame_skip_to|intros _]. apply eats_later; [apply tame_skip_to|intros _].
    unfold body. destruct (a_length fa) as [n|]; [apply eats_bytes, H|].
    destruct (a_byte_count fa) as [n|]; [apply eats_bind_bytes, eats_uint, H|].
    destruct (a_linend fa); [apply eats_lines|]. destruct H as [H|H]; [discriminate|].
    destruct (a_linend_value fa) as [s|]; [apply eats_find, H|]. rewrite H. apply eats_bind_bytes, eats_u8.
Qed.
Lemma eats_ipv4 ca fa : eats (dec_ipv4 ca fa). Proof. apply eats_map, eats_int. Qed.
Lemma eats_ipv6 ca fa : eats (dec_ipv6 ca fa). Proof. apply eats_map, eats_int. Qed.
Lemma eats_mac ca fa : eats (dec_mac ca fa). Proof. apply eats_map, eats_uint. discriminate. Qed.
Lemma eats_count ca fa : takes_count fa -> eats (get_count_and_try_count ca fa).
Proof.
  intros (H1 & H2 & H3). unfold get_count_and_try_count. rewrite H1, H2.
  destruct (a_byte_count_outside fa) as [n|]; apply eats_map; [|apply eats_u8].
  apply eats_uint. intros ->. apply H3. reflexivity.
Qed.
Lemma eats_counted {A} ca fa (d : rd A) : takes_count fa -> tame false d -> eats (dec_counted ca fa d).
Proof.
  intros H Hd. apply eats_first; [apply eats_count, H|]. intros [c o]. cbn.
  destruct o; [apply tame_dec_try, Hd|apply tame_dec_n, Hd].
Qed.

(** ** Fields *)
Lemma every_In {A} (P : A -> Prop) l x : every P l -> In x l -> P x.
Proof. induction l as [|y l IH]; [intros _ []|]. intros [H1 H2] [->|Hi]; auto. Qed.
Lemma tm t ca fa : offset_free t = true -> each_decoder (tame false) t -> tame false (dec t ca fa).
Proof. intros H HU. apply dec_tame; [exact H|exact HU|discriminate|discriminate]. Qed.
Lemma fields_tm inherit vars fs ca prev done : offset_free_fields offset_free fs = true -> Forall (with_fine (tame false)) fs ->
  tame false (dec_fields dec inherit vars fs ca prev done).
Proof.
  intros H HU. destruct (offset_free_fields_inv _ _ H) as [O1 O2].
  apply (fields_tame false fs inherit vars ca) with (earlier := []); try discriminate; auto.
  - rewrite Forall_forall in *. intros ft Hin c fa _. apply tm; [apply O2, Hin|apply HU, Hin].
  - eapply Forall_impl; [|exact HU]. intros ft Hft. exact (proj1 Hft).
Qed.

(** The modifiers a field sees are its own. *)
Lemma own_modifiers inherit clear f r prev en own :
  (inherit = true -> nothing_left_over clear (f :: r) = true /\ (clear = true -> prev = no_fattr)) ->
  modifiers f en = Some own ->
  (if inherit && negb (f_use f) then prev else own) = own /\
  (inherit = true -> nothing_left_over (if f_use f then bare f else clear) r = true
     /\ ((if f_use f then bare f else clear) = true -> own = no_fattr)).
Proof.
  intros Hin Em. split.
  - destruct inherit; [|reflexivity]. destruct (f_use f) eqn:Eu; [reflexivity|]. cbn [negb andb].
    destruct (Hin eq_refl) as [Hn Hpv]. cbn [nothing_left_over] in Hn. rewrite Eu in Hn.
    apply andb_true_iff in Hn as [Hcl _]. rewrite (Hpv Hcl). unfold modifiers in Em. rewrite Eu in Em. congruence.
  - intros Hi. destruct (Hin Hi) as [Hn Hpv]. cbn [nothing_left_over] in Hn. destruct (f_use f) eqn:Eu.
    + split; [exact Hn|]. intros Hb. pose proof (bare_modifiers f en Hb). congruence.
    + apply andb_true_iff in Hn as [_ Hn]. split; [exact Hn|]. intros _. unfold modifiers in Em. rewrite Eu in Em. congruence.
Qed.

Lemma spends_plain (R : val -> N -> Prop) (d : cattr -> fattr -> rd val) f ca fa en : no_offset f = true -> plain_field f ->
  (f_if f = None \/ R (VOpt None) 0) -> spends R (d ca fa) -> spends R (dec_field d f ca fa en).
Proof.
  intros Ho (H1 & H2 & H3 & H4 & H5) Hif Hd. unfold dec_field, dec_offset, no_offset in *. rewrite H1, H2, H3, H4, H5.
  destruct (f_offset f); [discriminate|]. cbn [eval_opt option_map]. intros dt p v q Hs Hp E.
  unfold bind at 1, ret at 1 in E. apply bind_ok in E as (p0 & q0 & E0 & E). unfold get_position in E0. injection E0 as <- <-.
  apply bind_ok in E as (v0 & q1 & E0 & E). unfold bind at 1, ret at 1 in E. cbv zeta in E.
  assert (v = v0 /\ q = q1) as [-> ->].
  { destruct (f_check f); [destruct (val_eqb _ _)|]; unfold ret, fail in E; try discriminate; injection E as <- <-; auto. }
  destruct (f_if f) as [c|]; [|exact (Hd _ _ _ _ Hs Hp E0)].
  destruct (c en); [exact (Hd _ _ _ _ Hs Hp E0)|]. destruct Hif as [Hif|Hif]; [discriminate|].
  exact (spends_ret R _ Hif _ _ _ _ Hs Hp E0).
Qed.

Definition M (t : ty) : Prop := offset_free t = true -> each_decoder (tame false) t -> forall ca fa, takes_a_byte t fa -> eats (dec t ca fa).

Lemma fields_eat inherit vars fs : Forall (fun ft => M (snd ft)) fs -> offset_free_fields offset_free fs = true -> Forall (with_fine (tame false)) fs ->
  forall clear ca prev done,
  (inherit = true -> nothing_left_over clear (map fst fs) = true /\ (clear = true -> prev = no_fattr)) ->
  some_field takes_a_byte fs -> eats (dec_fields dec inherit vars fs ca prev done).
Proof.
  induction 1 as [|[f t] fs Ht _ IH]; intros Ho HU clear ca prev done Hin Hsome; [destruct Hsome|].
  inversion HU as [|? ? [Hu1 Hu2] HU']; subst. cbn [fst snd] in Hu1, Hu2.
  unfold offset_free_fields in Ho. cbn [forallb fst snd] in Ho. apply andb_true_iff in Ho as [Ho1 Ho].
  apply andb_true_iff in Ho1 as [Ho0 Ho1]. cbn [dec_fields].
  destruct (modifiers f (mkenv done vars)) as [own|] eqn:Em; [|apply spends_panic]. cbv zeta.
  destruct (own_modifiers inherit clear f (map fst fs) prev _ own Hin Em) as [-> Hin'].
  cbn [some_field] in Hsome. destruct Hsome as [(Hp & Hif & Hok)|Hsome].
  - apply eats_first; [|intros; apply fields_tm; assumption].
    apply spends_plain; [exact Ho0|exact Hp|left; exact Hif|]. apply Ht; [exact Ho1|exact Hu2|exact (Hok _ _ Em)].
  - apply eats_later; [|intros v; exact (IH Ho HU' _ _ _ _ Hin' Hsome)].
    apply (tame_field false) with (t := t); [unfold no_offset in Ho0; destruct (f_offset f); [discriminate|reflexivity]|exact Hu1|discriminate|].
    apply tm; assumption.
Qed.


(** What an arm reads is spent by the fields of its variant. *)
Lemma arms_spend (R : val -> N -> Prop) hit eat nomatch c vars vs d p :
  small d -> p <= lenN d ->
  forallb (fun vf : vspec * list (fspec * ty) =>
                 no_offset (v_attr (fst vf)) && offset_free_fields offset_free (snd vf)) vs = true ->
  (forall v n, hit v n = true -> p + eat v <= lenN d) ->
  (forall j v fs n prev, nth_error vs j = Some (v, fs) -> hit v n = true ->
     modifiers (v_attr v) (mkenv [] vars) = Some prev ->
     spends (fun xs n => R (VVariant j xs) (eat v + n)) (dec_fields dec (negb (v_named v)) vars fs (own_cattr c) prev [])) ->
  forall x q, dec_arms dec hit eat nomatch (own_cattr c) vars vs 0 0 d p = Ok x q -> p <= q /\ q <= lenN d /\ R x (q - p).
Proof.
  intros Hs Hp Ho Heat Hf x q E.
  apply dec_arms_ok in E as (j & v & fs & n & prev & xs & H1 & H2 & H3 & H4 & -> & E).
  rewrite forallb_forall in Ho. specialize (Ho _ (nth_error_In _ _ H1)). cbn [fst snd] in Ho.
  apply andb_true_iff in Ho as [Ho _]. unfold no_offset in Ho. destruct (f_offset (v_attr v)); [discriminate|].
  unfold advance, dec_offset in E. cbn [eval_opt option_map] in E. unfold bind, ret in E.
  pose proof (Heat _ _ H3) as Hle. unfold small in Hs. rewrite wadd_small in E by lia. cbn [Nat.add].
  destruct (Hf j v fs n prev H1 H3 H4 _ _ _ _ Hs Hle E) as (G1 & G2 & G3).
  split; [lia|]. split; [exact G2|]. replace (q - p) with (eat v + (q - (p + eat v))) by lia. exact G3.
Qed.
Lemma bare_prev f en prev : bare f = true -> modifiers f en = Some prev -> prev = no_fattr.
Proof. intros Hb Hm. pose proof (bare_modifiers f en Hb). congruence. Qed.

Lemma eats_tag e ca fa : a_branch fa = None -> positive (a_byte_count fa) -> positive (c_byte_count (e_c e)) ->
  eats (enum_tag e ca fa).
Proof.
  intros H1 H2 H3. unfold enum_tag. rewrite H1. destruct (a_byte_count fa); [apply eats_uint; intros ->; apply H2; reflexivity|].
  destruct (c_byte_count (e_c e)); [apply eats_uint; intros ->; apply H3; reflexivity|apply eats_u8].
Qed.
Lemma tame_tag e ca fa : tame false (enum_tag e ca fa).
Proof.
  unfold enum_tag. destruct (a_branch fa); [apply tame_ret|]. destruct (a_byte_count fa); [apply tame_uint; discriminate|].
  destruct (c_byte_count (e_c e)); [apply tame_uint; discriminate|apply tame_u8].
Qed.
Lemma arms_tm hit c k vars vs : forallb (fun vf : vspec * list (fspec * ty) =>
                 no_offset (v_attr (fst vf)) && offset_free_fields offset_free (snd vf)) vs = true ->
  every (fun vf : vspec * list (fspec * ty) => Forall (with_fine (tame false)) (snd vf)) vs ->
  tame false (dec_arms dec hit (fun _ => 0) k (own_cattr c) vars vs 0 0).
Proof.
  intros H HU d p Hs Hp. apply arms_tame; try assumption; try discriminate; [|intros; lia].
  apply Forall_forall. intros vf _. apply Forall_forall. intros ft _. apply dec_tame.
Qed.
Lemma variant_eats (vs : list (vspec * list (fspec * ty))) j v fs c vars prev :
  Forall (fun vf => Forall (fun ft => M (snd ft)) (snd vf)) vs ->
  forallb (fun vf : vspec * list (fspec * ty) =>
                 no_offset (v_attr (fst vf)) && offset_free_fields offset_free (snd vf)) vs = true ->
  every (fun vf : vspec * list (fspec * ty) => Forall (with_fine (tame false)) (snd vf)) vs ->
  nth_error vs j = Some (v, fs) -> some_variant_field takes_a_byte (v, fs) ->
  modifiers (v_attr v) (mkenv [] vars) = Some prev ->
  eats (dec_fields dec (negb (v_named v)) vars fs (own_cattr c) prev []).
Proof.
  intros HM Ho HU Hn (Hb & Hl & Hs) Hm. cbn [fst snd] in *. pose proof (bare_prev _ _ _ Hb Hm) as ->.
  apply nth_error_In in Hn. pose proof (every_In _ _ _ HU Hn) as Hu. cbn [snd] in Hu. rewrite Forall_forall in HM. rewrite forallb_forall in Ho.
  specialize (Ho _ Hn). cbn [fst snd] in Ho. apply andb_true_iff in Ho as [_ Ho].
  exact (fields_eat _ vars fs (HM _ Hn) Ho Hu true _ _ _ (fun _ => conj Hl (fun _ => eq_refl)) Hs).
Qed.

Lemma each_variant ok e (vs : list (vspec * list (fspec * ty))) : each_decoder ok (TEnum e vs) ->
  every (fun vf : vspec * list (fspec * ty) => Forall (with_fine ok) (snd vf)) vs.
Proof.
  cbn [each_decoder]. induction vs as [|[v fs] r IH]; [exact (fun H => H)|]. intros H.
  split; [exact (with_fine_all _ _ (proj1 H))|exact (IH (proj2 H))].
Qed.
Theorem dec_eats t : M t.
Proof.
  induction t as [t Hl|n t IH|ts IH|t IH|t IH|k v IHk IHv|t IH|named c fs IH|e vs IH] using ty_nested_ind;
    intros HO HU ca fa HF.
  - destruct t; try discriminate Hl; cbn [dec takes_a_byte] in *; try contradiction; try apply eats_map.
    + apply eats_dec_int, HF.
    + eapply consumes_eats; [apply (consumes_byte (fun b => negb (b2n b =? 0)))|]. intros a w (b & -> & _). rewrite lenN_cons, lenN_nil. lia.
    + apply eats_u8.
    + apply eats_fixed. discriminate.
    + apply eats_fixed. discriminate.
    + apply eats_raw, HF.
    + unfold dec_string. apply eats_first; [apply eats_raw, HF|]. intros l. destruct (utf8_ok l); [apply tame_ret|apply tame_fail].
    + apply eats_mac.
    + apply eats_ipv4.
    + apply eats_ipv6.
    + unfold dec_ipaddr. destruct (a_length fa) as [l|]; [|apply spends_fail].
      destruct (l =? 16); [apply eats_map, eats_ipv6|]. destruct (l =? 4); [apply eats_map, eats_ipv4|apply spends_fail].
    + unfold dec_netaddr. destruct (a_length fa) as [l|] eqn:El; [|apply spends_fail].
      destruct (l =? 0) eqn:E0; [apply spends_fail|]. destruct (l =? 4); [apply eats_map, eats_ipv4|].
      destruct (l =? 6); [apply eats_map, eats_mac|]. destruct (l =? 16); [apply eats_map, eats_ipv6|].
      apply eats_map, eats_dec_int. rewrite El. intros H. injection H as ->. discriminate E0.
    + intros d p v q Hs Hp E. pose proof (HU ca fa d p Hs Hp) as H1. rewrite E in H1. pose proof (HF ca fa d p v q Hs Hp E).
      cbv beta. lia.
  - cbn [dec takes_a_byte offset_free] in *. destruct HF as [Hn HF]. apply eats_map. destruct n as [|n]; [contradiction|].
    cbn [dec_n]. apply eats_first; [apply IH; assumption|]. intros x. apply tame_map, tame_dec_n, tm; assumption.
  - cbn [dec takes_a_byte offset_free] in *. apply eats_map. induction IH as [|t ts Ht _ IHts]; [destruct HF|].
    cbn [map fold_right dec_seq forallb] in *. apply andb_true_iff in HO as [HO1 HO]. destruct HU as [HU1 HU]. destruct HF as [HF|HF].
    + apply eats_first; [apply Ht; assumption|]. intros x. apply tame_map, tame_dec_seq. apply Forall_forall. intros m Hm.
      apply in_map_iff in Hm as (t' & <- & Hin). apply tm; [|exact (each_decoder_in _ _ _ HU Hin)]. rewrite forallb_forall in HO. exact (HO _ Hin).
    + apply eats_later; [apply tm; assumption|]. intros x. apply eats_map, IHts; assumption.
  - cbn [dec takes_a_byte offset_free] in *. destruct HF as [-> HF]. apply eats_map, eats_counted; [exact HF|apply tm; assumption].
  - cbn [dec takes_a_byte offset_free] in *. apply eats_map, eats_counted; [exact HF|apply tm; assumption].
  - cbn [dec takes_a_byte offset_free] in *. apply andb_true_iff in HO as [O1 O2]. destruct HU as [U1 U2]. apply eats_map, eats_counted; [exact HF|].
    apply tame_bind; [apply tm; assumption|]. intros x. apply tame_map, tm; assumption.
  - destruct HF.
  - cbn [dec takes_a_byte offset_free] in *. destruct HF as [Hn HF]. apply eats_map.
    apply (fields_eat _ _ _ IH HO (with_fine_all _ _ HU) true); [|exact HF]. intros Hi. split; [|reflexivity]. apply Hn. destruct named; [discriminate|reflexivity].
  - apply each_variant in HU. cbn [takes_a_byte offset_free] in *. destruct HF as [Hne HF]. rewrite dec_enum_eq by exact Hne.
    destruct (e_branching e).
    + destruct HF as [(H1 & H2 & H3)|HF].
      * apply eats_first; [apply eats_tag; assumption|]. intros tag. apply arms_tm; assumption.
      * apply eats_later; [apply tame_tag|]. intros tag d p x q Hs Hp E. revert x q E.
        apply (arms_spend (fun _ n => 1 <= n)); try assumption; [intros; lia|].
        intros j w fs n prev Hn _ Hm. pose proof (every_In _ _ _ HF (nth_error_In _ _ Hn)) as Hv. cbv beta in Hv.
        eapply spends_weak; [|exact (variant_eats vs j w fs (e_c e) (k_vars ca) prev IH HO HU Hn Hv Hm)]. intros; cbv beta in *; lia.
    + intros d p x q Hs Hp E. revert x q E.
      apply (arms_spend (fun _ n => 1 <= n)); try assumption.
      { intros v n Hh. cbv beta in Hh. destruct (v_default v); [lia|]. apply starts_remaining; assumption. }
      intros j w fs n prev Hn _ Hm. pose proof (every_In _ _ _ HF (nth_error_In _ _ Hn)) as Hv. cbv beta in Hv.
      destruct Hv as [[Hd Hv]|Hv].
      * cbn [fst] in *. rewrite Hd. change (literal w) with (variant_bytes w) in Hv. destruct (variant_bytes w) as [|b l]; [congruence|].
        apply tame_spends; [|intros; rewrite lenN_cons; lia]. apply fields_tm; [|exact (every_In _ _ _ HU (nth_error_In _ _ Hn))]. rewrite forallb_forall in HO.
        specialize (HO _ (nth_error_In _ _ Hn)). apply andb_true_iff in HO as [_ HO]. exact HO.
      * eapply spends_weak; [|exact (variant_eats vs j w fs (e_c e) (k_vars ca) prev IH HO HU Hn Hv Hm)]. intros; cbv beta in *; lia.
    + intros d p x q Hs Hp E. revert x q E.
      apply (arms_spend (fun _ n => 1 <= n)); try assumption; [intros; lia|].
      intros j w fs n prev Hn _ Hm. pose proof (every_In _ _ _ HF (nth_error_In _ _ Hn)) as Hv. cbv beta in Hv.
      eapply spends_weak; [|exact (variant_eats vs j w fs (e_c e) (k_vars ca) prev IH HO HU Hn Hv Hm)]. intros; cbv beta in *; lia.
    + apply eats_first; [apply eats_bytes, HF|]. intros x. apply arms_tm; assumption.
Qed.

(** ** Elements *)
Lemma largest_in l x : In x l -> x <= largest l.
Proof. induction l as [|y l IH]; [intros []|]. unfold largest in *. cbn [fold_right]. intros [->|H]; [lia|specialize (IH H); lia]. Qed.
Lemma total_cons x l : total (x :: l) = x + total l. Proof. reflexivity. Qed.
Lemma total_zero {A} (f : A -> N) l : (forall x, f x = 0) -> total (map f l) = 0.
Proof. intros H. induction l as [|x l IH]; [reflexivity|]. cbn [map]. rewrite total_cons, H, IH. reflexivity. Qed.
Lemma zip_zero {A} (fs : list (A -> N)) l : Forall (fun f => forall x, f x = 0) fs -> zip_total fs l = 0.
Proof. intros H. revert l. induction H as [|f fs Hf _ IH]; intros [|x l]; try reflexivity. cbn. rewrite Hf, IH. reflexivity. Qed.

Definition Z0 (t : ty) : Prop := depth t = 0 -> forall v, elements t v = 0.
Lemma zero_fields fs l : Forall (fun ft => Z0 (snd ft)) fs -> largest (map (fun ft : fspec * ty => depth (snd ft)) fs) = 0 ->
  zip_total (map (fun ft : fspec * ty => elements (snd ft)) fs) l = 0.
Proof.
  intros IH H. apply zip_zero. apply Forall_forall. intros f Hf. apply in_map_iff in Hf as (ft & <- & Hin).
  rewrite Forall_forall in IH. apply IH; [exact Hin|]. pose proof (largest_in _ _ (in_map (fun ft : fspec * ty => depth (snd ft)) _ _ Hin)).
  cbv beta in *. lia.
Qed.
Lemma no_depth t : Z0 t.
Proof.
  induction t as [t Hl|n t IH|ts IH|t IH|t IH|k v IHk IHv|t IH|named c fs IH|e vs IH] using ty_nested_ind; intros HD x.
  - destruct t; try discriminate Hl; try discriminate HD; reflexivity.
  - cbn [elements]. destruct x; try reflexivity. apply total_zero, IH, HD.
  - cbn [elements depth] in *. destruct x; try reflexivity. apply zip_zero. apply Forall_forall. intros f Hf.
    apply in_map_iff in Hf as (t & <- & Hin). rewrite Forall_forall in IH. apply IH; [exact Hin|].
    pose proof (largest_in _ _ (in_map depth _ _ Hin)). lia.
  - cbn [depth] in HD. lia.
  - cbn [depth] in HD. lia.
  - cbn [depth] in HD. lia.
  - cbn [elements]. destruct x as [| | | | | | |[x|]| | |]; try reflexivity. apply IH, HD.
  - cbn [elements depth] in *. destruct x; try reflexivity. apply zero_fields; assumption.
  - cbn [elements depth] in *. destruct x as [| | | | | | | | | |i xs]; try reflexivity. rewrite nth_error_map.
    destruct (nth_error vs i) as [[w fs]|] eqn:En; [|reflexivity]. cbn [option_map snd]. apply nth_error_In in En.
    rewrite Forall_forall in IH. apply zero_fields; [exact (IH _ En)|].
    pose proof (largest_in _ _ (in_map (fun vf : vspec * list (fspec * ty) => largest (map (fun ft => depth (snd ft)) (snd vf))) _ _ En)) as H.
    cbv beta in H. cbn [snd] in H. lia.
Qed.

Lemma spends_n {A} (g : A -> N) k n (d : rd A) : spends (fun x n => g x <= k * n) d ->
  spends (fun l n => total (map g l) <= k * n) (dec_n n d).
Proof.
  intros H. induction n as [|n IH]; [apply spends_ret; cbn; lia|]. cbn [dec_n]. eapply spends_bind; [exact H|].
  intros a m Ha. eapply spends_map; [exact IH|]. intros l m' Hl. cbn [map]. rewrite total_cons. cbv beta in *. lia.
Qed.
Lemma spends_try {A} (g : A -> N) k n (d : rd A) : tame false d -> spends (fun x n => g x <= k * n) d ->
  spends (fun l n => total (map g l) <= k * n) (dec_try n d).
Proof.
  intros Ht H. induction n as [|n IH]; [apply spends_ret; cbn; lia|]. intros dt p l q Hs Hp E. cbn [dec_try] in E.
  destruct (d dt p) as [a q1|e q1| |] eqn:Ed; try discriminate.
  - destruct (H _ _ _ _ Hs Hp Ed) as (H1 & H2 & H3).
    apply bind_ok in E as (l' & q2 & E1 & E2). unfold ret in E2. injection E2 as <- <-.
    destruct (IH _ _ _ _ Hs H2 E1) as (H4 & H5 & H6). split; [lia|]. split; [exact H5|]. cbn [map]. rewrite total_cons.
    replace (q2 - p) with ((q1 - p) + (q2 - q1)) by lia. rewrite N.mul_add_distr_l. cbv beta in *. lia.
  - injection E as <- <-. specialize (Ht dt p Hs Hp). rewrite Ed in Ht. split; [lia|]. split; [lia|]. apply N.le_0_l.
Qed.
Lemma spends_loop {A} (g : A -> N) k m (d : rd A) : spends (fun x n => g x <= k * (n + N.min 1 (lenN m))) d ->
  forall fuel, spends (fun l n => total (map g l) <= k * n) (dec_loop fuel m d).
Proof.
  intros H. induction fuel as [|fuel IH]; [discriminate|]. intros dt p l q Hs Hp E. cbn [dec_loop] in E.
  assert (W : match take_bytes_starts m dt p with Ok _ q => p + N.min 1 (lenN m) <= q <= lenN dt | Err _ q => q = p | _ => False end).
  { destruct m as [|b m].
    - destruct (wb_starts [] dt p Hs Hp) as [(v & q0 & -> & Hq)|(e & -> & _)]; [change (lenN (@nil byte)) with 0; lia|reflexivity].
    - pose proof (starts_moves (b :: m) dt p Hs Hp ltac:(discriminate)) as W. destruct (take_bytes_starts (b :: m) dt p); auto. lia. }
  destruct (take_bytes_starts m dt p) as [u q0|e q0| |]; try discriminate.
  - apply bind_ok in E as (a & q1 & E0 & E). destruct (H _ _ _ _ Hs (proj2 W) E0) as (H1 & H2 & H3).
    apply bind_ok in E as (l' & q2 & E1 & E2). unfold ret in E2. injection E2 as <- <-.
    destruct (IH _ _ _ _ Hs H2 E1) as (H4 & H5 & H6). split; [lia|]. split; [exact H5|]. cbn [map]. rewrite total_cons.
    cbv beta in *. assert (k * (q1 - q0 + N.min 1 (lenN m)) <= k * (q1 - p)) by (apply N.mul_le_mono_l; lia).
    replace (q2 - p) with ((q1 - p) + (q2 - q1)) by lia. rewrite N.mul_add_distr_l. lia.
  - injection E as <- <-. subst q0. split; [lia|]. split; [lia|]. apply N.le_0_l.
Qed.
Lemma spends_counted {A} (g : A -> N) k ca fa (d : rd A) : tame false d -> spends (fun x n => g x <= k * n) d ->
  spends (fun l n => total (map g l) <= k * n) (dec_counted ca fa d).
Proof.
  intros Ht H. unfold dec_counted. eapply spends_bind.
  - apply (tame_spends _ (fun _ _ => True)); [|auto]. unfold get_count_and_try_count.
    destruct (a_count fa); [apply tame_ret|]. destruct (a_try_count fa); [apply tame_ret|].
    destruct (a_byte_count_outside fa); apply tame_map; [apply tame_uint; discriminate|apply tame_u8].
  - intros [c o] n _. cbn [fst snd]. apply spends_weak with (R := fun l n => total (map g l) <= k * n); [intros; cbv beta in *; lia|].
    destruct o; [apply spends_try; assumption|apply spends_n; assumption].
Qed.
Lemma total_succ {A} (g : A -> N) l : total (map (fun x => 1 + g x) l) = N.of_nat (length l) + total (map g l).
Proof. induction l as [|x l IH]; [reflexivity|]. cbn [map length]. rewrite !total_cons, IH. lia. Qed.
(** Both that [n] bytes are spent and that at least one is. *)
Lemma spends_and {A} (R S : A -> N -> Prop) m : spends R m -> spends S m -> spends (fun a n => R a n /\ S a n) m.
Proof. intros H1 H2 d p a q Hs Hp E. destruct (H1 _ _ _ _ Hs Hp E) as (? & ? & ?). destruct (H2 _ _ _ _ Hs Hp E) as (? & ? & ?). auto. Qed.
Lemma spends_one {A} (g : A -> N) k (d : rd A) : eats d -> spends (fun x n => g x <= k * n) d ->
  spends (fun x n => 1 + g x <= (1 + k) * n) d.
Proof. intros H1 H2. eapply spends_weak; [|exact (spends_and _ _ _ H1 H2)]. intros a n [Ha Hb]. cbv beta in *. lia. Qed.

Lemma set_total (g : val -> N) l : forall s, total (map g (fold_left (fun s x => set_insert x s) l s)) <= total (map g s) + total (map g l).
Proof.
  assert (I1 : forall x s, total (map g (set_insert x s)) <= total (map g s) + g x).
  { intros x s. induction s as [|y s IH]; [cbn; lia|]. cbn [set_insert]. destruct (val_eqb x y); cbn [map]; rewrite ?total_cons; lia. }
  induction l as [|x l IH]; intros s; cbn [fold_left]; [cbn; lia|]. specialize (IH (set_insert x s)). specialize (I1 x s).
  cbn [map]. rewrite total_cons. lia.
Qed.
Lemma map_total (g : val * val -> N) l : forall s,
  total (map g (fold_left (fun m kv => map_insert (fst kv) (snd kv) m) l s)) <= total (map g s) + total (map g l).
Proof.
  assert (I1 : forall k v s, total (map g (map_insert k v s)) <= total (map g s) + g (k, v)).
  { intros k v s. induction s as [|[k' v'] s IH]; [cbn; lia|]. cbn [map_insert]. destruct (val_eqb k k') eqn:E; cbn [map]; rewrite ?total_cons; [|lia].
    apply val_eqb_eq in E as <-. lia. }
  induction l as [|[k v] l IH]; intros s; cbn [fold_left fst snd]; [cbn; lia|]. specialize (IH (map_insert k v s)). specialize (I1 k v s).
  cbn [map]. rewrite total_cons. lia.
Qed.

Lemma consumes_spends {A} (R : A -> bytes -> Prop) (S : A -> N -> Prop) m : consumes R m -> (forall a w, R a w -> S a (lenN w)) -> spends S m.
Proof.
  intros Hm H d p a q Hs Hp E. destruct (Hm _ _ _ _ Hs Hp E) as (H1 & H2 & H3). split; [exact H1|]. split; [exact H2|].
  apply H in H3. rewrite lenN_sub in H3 by lia. exact H3.
Qed.
Lemma spends_bytes n : spends (fun l n => lenN l <= n) (take_bytes n).
Proof. eapply consumes_spends; [apply consumes_bytes|]. intros l w [-> _]. lia. Qed.
Lemma spends_after {A C} (m : rd A) (k : A -> rd C) (g : C -> N) : tame false m -> (forall a, spends (fun x n => g x <= n) (k a)) ->
  spends (fun x n => g x <= n) (bind m k).
Proof.
  intros Hm Hk. eapply spends_bind; [apply (tame_spends m (fun _ _ => True)); auto|]. intros a n _.
  eapply spends_weak; [|apply Hk]. intros; cbv beta in *; lia.
Qed.
Lemma spends_lines : spends (fun l n => lenN l <= n) (find_subsequences line_ends).
Proof.
  intros d p l q Hs Hp E. pose proof (tame_wb false _ (wb_finds line_ends) d p Hs Hp) as Ht. rewrite E in Ht.
  split; [lia|]. split; [lia|]. unfold find_subsequences in E.
  destruct (ac_find line_ends (remaining d p)) as [[s e]|] eqn:Em; [|discriminate].
  apply ac_find_some in Em as (Hle & (x & Hx & _ & Hlen) & _).
  rewrite remaining_in in Hle by exact Hp. rewrite skipn_length in Hle. unfold small, lenN in *.
  apply slice_ok_inv in E as [-> E]. rewrite !wadd_small in * by lia.
  rewrite slice_get_ok in E by (unfold lenN; lia). injection E as <-.
  match goal with |- N.of_nat (length ?x) <= _ => change (N.of_nat (length x)) with (lenN x) end.
  rewrite lenN_sub by (unfold lenN; lia). lia.
Qed.
Lemma spends_raw ca fa : spends (fun l n => lenN l <= n) (dec_raw ca fa).
Proof.
  unfold dec_raw. apply spends_after; [apply tame_skip_to|intros _]. apply spends_after; [apply tame_skip_to|intros _].
  destruct (a_length fa); [apply spends_bytes|].
  destruct (a_byte_count fa); [apply spends_after; [apply tame_uint; discriminate|intros; apply spends_bytes]|].
  destruct (a_linend fa); [apply spends_lines|].
  destruct (a_linend_value fa).
  { eapply consumes_spends; [apply consumes_find|]. intros l w ->. rewrite lenN_app. lia. }
  destruct (a_remaining fa); [intros d p l q Hs Hp E; exact (spends_bytes _ _ _ _ _ Hs Hp E)|].
  apply spends_after; [apply tame_u8|intros; apply spends_bytes].
Qed.
Lemma spends_string ca fa : spends (fun l n => lenN l <= n) (dec_string ca fa).
Proof.
  unfold dec_string. eapply spends_bind; [apply spends_raw|]. intros l n Hl.
  destruct (utf8_ok l); [apply spends_ret|apply spends_fail]. cbv beta in *. lia.
Qed.

Definition B (t : ty) : Prop := offset_free t = true -> each_decoder (tame false) t -> forall ca fa, bounded t fa ->
  spends (fun v n => elements t v <= depth t * n) (dec t ca fa).

Lemma none_zero t : elements t (VOpt None) = 0.
Proof. destruct t; reflexivity. Qed.

Lemma fields_spend inherit vars k fs : Forall (fun ft => B (snd ft)) fs -> offset_free_fields offset_free fs = true -> Forall (with_fine (tame false)) fs ->
  Forall (fun ft => depth (snd ft) <= k) fs ->
  forall clear ca prev done,
  (inherit = true -> nothing_left_over clear (map fst fs) = true /\ (clear = true -> prev = no_fattr)) ->
  every (fun ft : fspec * ty => let (f, t) := ft in
    depth t = 0 \/ (plain_field f /\ forall en fa, modifiers f en = Some fa -> bounded t fa)) fs ->
  spends (fun xs n => exists vs, xs = done ++ vs /\ zip_total (map (fun ft => elements (snd ft)) fs) vs <= k * n)
         (dec_fields dec inherit vars fs ca prev done).
Proof.
  induction 1 as [|[f t] fs Ht _ IH]; intros Ho HU Hk clear ca prev done Hin Hev.
  - cbn [dec_fields]. apply spends_ret. exists []. rewrite app_nil_r. split; [reflexivity|]. cbn. lia.
  - unfold offset_free_fields in Ho. cbn [forallb fst snd] in Ho. apply andb_true_iff in Ho as [Ho1 Ho].
    apply andb_true_iff in Ho1 as [Ho0 Ho1]. cbn [dec_fields]. cbn [every] in Hev. destruct Hev as [Hv Hev].
    inversion HU as [|? ? [Hu1 Hu2] HU']; subst. cbn [fst snd] in Hu1, Hu2.
    inversion Hk as [|? ? Hk1 Hk2]; subst. cbn [snd] in Hk1, Ht.
    destruct (modifiers f (mkenv done vars)) as [own|] eqn:Em; [|apply spends_panic]. cbv zeta.
    destruct (own_modifiers inherit clear f (map fst fs) prev _ own Hin Em) as [-> Hin'].
    assert (Hf : spends (fun v n => elements t v <= k * n) (dec_field (dec t) f ca own (mkenv done vars))).
    { destruct Hv as [Hv|[Hp Hok]].
      - apply tame_spends; [|intros a n; rewrite no_depth by exact Hv; lia].
        apply (tame_field false) with (t := t); [unfold no_offset in Ho0; destruct (f_offset f); [discriminate|reflexivity]|exact Hu1|discriminate|].
        apply tm; assumption.
      - apply spends_plain; [exact Ho0|exact Hp|right; rewrite none_zero; lia|].
        eapply spends_weak; [|apply Ht; [exact Ho1|exact Hu2|exact (Hok _ _ Em)]]. intros a n H. cbv beta in *.
        etransitivity; [exact H|]. apply N.mul_le_mono_r, Hk1. }
    eapply spends_bind; [exact Hf|]. intros v n Hn. cbv beta in Hn.
    eapply spends_weak; [|exact (IH Ho HU' Hk2 _ _ _ (done ++ [v]) Hin' Hev)].
    intros xs n' (vs & -> & H). exists (v :: vs). rewrite <- app_assoc. split; [reflexivity|]. cbn [map zip_total snd]. lia.
Qed.
Lemma depth_fields (fs : list (fspec * ty)) k : largest (map (fun ft : fspec * ty => depth (snd ft)) fs) <= k ->
  Forall (fun ft => depth (snd ft) <= k) fs.
Proof.
  intros H. apply Forall_forall. intros ft Hin. pose proof (largest_in _ _ (in_map (fun ft : fspec * ty => depth (snd ft)) _ _ Hin)).
  cbv beta in *. lia.
Qed.

Lemma key_eq fa : key_fattr fa = for_key fa. Proof. reflexivity. Qed.
Lemma value_eq fa : value_fattr fa = for_value fa. Proof. reflexivity. Qed.

Theorem dec_bounded t : B t.
Proof.
  induction t as [t Hl|n t IH|ts IH|t IH|t IH|k v IHk IHv|t IH|named c fs IH|e vs IH] using ty_nested_ind;
    intros HO HU ca fa HB.
  - destruct t; try discriminate Hl;
      try (apply tame_spends; [apply tm; assumption|]; intros a n; rewrite no_depth by reflexivity; lia);
      cbn [dec depth]; (eapply spends_map; [first [apply spends_raw|apply spends_string]|]; intros l n H;
        cbn [elements]; change (@size) with (@lenN byte); cbv beta in H; lia).
  - cbn [dec depth bounded offset_free] in *. eapply spends_map; [apply spends_n, IH; assumption|]. intros l m H. exact H.
  - cbn [dec depth bounded offset_free] in *.
    assert (G : forall K, largest (map depth ts) <= K ->
      spends (fun l n => zip_total (map elements ts) l <= K * n) (dec_seq (map (fun t1 => dec t1 ca fa) ts))).
    { intros K HK. induction IH as [|t ts Ht _ IHts]; [apply spends_ret; cbn; lia|].
      cbn [map dec_seq every forallb] in *. unfold largest in *. cbn [fold_right] in HK. apply andb_true_iff in HO as [HO1 HO]. destruct HU as [HU1 HU].
      destruct HB as [HB1 HB]. eapply spends_bind; [apply Ht; assumption|]. intros a m Ha.
      eapply spends_map; [apply IHts; try assumption; lia|]. intros l m' Hl. cbn [zip_total]. cbv beta in *.
      assert (depth t * m <= K * m) by (apply N.mul_le_mono_r; lia). lia. }
    eapply spends_map; [apply G; reflexivity|]. intros l m H. exact H.
  - cbn [dec depth bounded offset_free] in *. destruct HB as [HB1 HB2].
    assert (Htwo : takes_a_byte t fa -> spends (fun x n => 1 + elements t x <= (1 + depth t) * n) (dec t ca fa)).
    { intros H. apply spends_one; [apply dec_eats; assumption|apply IH; assumption]. }
    destruct (a_loop fa) as [m|] eqn:El.
    + assert (Hloop : spends (fun l n => total (map (fun x => 1 + elements t x) l) <= (1 + depth t) * n)
                             (fun dt p => dec_loop (S (length dt)) m (dec t ca fa) dt p)).
      { intros d p l q Hs Hp E. revert E. apply spends_loop; [|exact Hs|exact Hp].
        destruct HB2 as [HB2|HB2].
        - eapply spends_weak; [|exact (IH HO HU ca fa HB1)]. intros a n H. cbv beta in *. cbn [some_text] in HB2.
          destruct m as [|b m]; [discriminate|]. rewrite lenN_cons. replace (N.min 1 _) with 1 by lia. lia.
        - eapply spends_weak; [|exact (Htwo HB2)]. intros a n H. cbv beta in *. rewrite N.mul_add_distr_l. lia. }
      eapply spends_map; [exact Hloop|]. intros l n H. cbv beta in H. rewrite (total_succ (elements t)) in H. exact H.
    + destruct HB2 as [HB2|HB2]; [discriminate|].
      eapply spends_map; [exact (spends_counted (fun x => 1 + elements t x) (1 + depth t) _ _ _ (tm t ca fa HO HU) (Htwo HB2))|]. intros l n H. cbv beta in H. rewrite (total_succ (elements t)) in H. exact H.
  - cbn [dec depth bounded offset_free] in *. destruct HB as [HB1 HB2].
    eapply spends_map; [exact (spends_counted (fun x => 1 + elements t x) (1 + depth t) _ _ _ (tm t ca fa HO HU) (spends_one _ _ _ (dec_eats t HO HU ca fa HB2) (IH HO HU ca fa HB1)))|].
    intros l n H. cbn [elements]. rewrite <- (total_succ (elements t)). pose proof (set_total (fun x => 1 + elements t x) l []) as HS. cbn [map total fold_right] in HS.
    cbv beta in *. lia.
  - cbn [dec depth bounded offset_free] in *. apply andb_true_iff in HO as [O1 O2]. destruct HU as [U1 U2]. destruct HB as (HB1 & HB2 & HB3).
    rewrite key_eq, value_eq.
    assert (Htm : tame false (x <- dec k ca (for_key fa) ;; y <- dec v ca (for_value fa) ;; ret (x, y))).
    { apply tame_bind; [apply tm; assumption|]. intros x. apply tame_map, tm; assumption. }
    assert (Hp : spends (fun kv n => elements k (fst kv) + elements v (snd kv) <= N.max (depth k) (depth v) * n)
                        (x <- dec k ca (for_key fa) ;; y <- dec v ca (for_value fa) ;; ret (x, y))).
    { eapply spends_bind; [exact (IHk O1 U1 ca _ HB1)|]. intros x n Hx. eapply spends_map; [exact (IHv O2 U2 ca _ HB2)|].
      intros y n' Hy. cbn [fst snd]. cbv beta in *.
      assert (depth k * n <= N.max (depth k) (depth v) * n) by (apply N.mul_le_mono_r; lia).
      assert (depth v * n' <= N.max (depth k) (depth v) * n') by (apply N.mul_le_mono_r; lia). lia. }
    assert (He : eats (x <- dec k ca (for_key fa) ;; y <- dec v ca (for_value fa) ;; ret (x, y))).
    { destruct HB3 as [H|H].
      - apply eats_first; [exact (dec_eats k O1 U1 ca _ H)|]. intros x. apply tame_map, tm; assumption.
      - apply eats_later; [apply tm; assumption|]. intros x. apply eats_map. exact (dec_eats v O2 U2 ca _ H). }
    eapply spends_map; [exact (spends_counted (fun kv => 1 + (elements k (fst kv) + elements v (snd kv))) (1 + N.max (depth k) (depth v)) _ _ _ Htm (spends_one _ _ _ He Hp))|].
    intros l n H. cbn [elements]. rewrite <- (total_succ (fun kv => elements k (fst kv) + elements v (snd kv))).
    pose proof (map_total (fun kv => 1 + (elements k (fst kv) + elements v (snd kv))) l []) as HS. cbn [map total fold_right] in HS.
    cbv beta in *. lia.
  - cbn [dec depth bounded offset_free] in *. intros d p x q Hs Hp E. pose proof (IH HO HU ca fa HB d p) as G.
    assert (E' : x = VOpt None /\ q = p \/ match dec t ca fa d p with Ok v p' => x = VOpt (Some v) /\ q = p' | Err _ p' => x = VOpt None /\ q = p' | _ => False end).
    { destruct (a_length fa) as [[|l]|]; [injection E as <- <-; auto| |]; right; destruct (dec t ca fa d p); try discriminate; injection E as <- <-; auto. }
    destruct E' as [[-> ->]|E']; [cbn [elements]; lia|].
    pose proof (tm t ca fa HO HU d p Hs Hp) as Ht. destruct (dec t ca fa d p) as [y q'|er q'| |]; try contradiction; destruct E' as [-> ->]; cbn [elements].
    + exact (G _ _ Hs Hp eq_refl).
    + lia.
  - cbn [dec depth bounded offset_free] in *. destruct HB as [HB1 HB2].
    eapply spends_map; [apply (fields_spend _ _ _ fs IH HO (with_fine_all _ _ HU) (depth_fields fs _ (N.le_refl _)) true); [|exact HB2]|].
    + intros Hi. split; [exact (HB1 Hi)|reflexivity].
    + intros l n (vs & -> & H). cbn [app]. exact H.
  - destruct vs as [|vf vs'].
    { cbn [dec]. apply spends_ret. cbn. lia. }
    rewrite dec_enum_eq by discriminate. remember (vf :: vs') as vs. clear Heqvs vf vs'. apply each_variant in HU. cbn [bounded offset_free] in *.
    assert (Hf : forall j v fs prev, nth_error vs j = Some (v, fs) -> modifiers (v_attr v) (mkenv [] (k_vars ca)) = Some prev ->
      spends (fun xs n => elements (TEnum e vs) (VVariant j xs) <= depth (TEnum e vs) * n)
             (dec_fields dec (negb (v_named v)) (k_vars ca) fs (own_cattr (e_c e)) prev [])).
    { intros j v fs prev Hn Hm. pose proof (nth_error_In _ _ Hn) as Hi. destruct (every_In _ _ _ HB Hi) as [Hb [Hl He]].
      cbn [fst snd] in *. pose proof (bare_prev _ _ _ Hb Hm) as ->. rewrite Forall_forall in IH. rewrite forallb_forall in HO.
      specialize (HO _ Hi). cbn [fst snd] in HO. apply andb_true_iff in HO as [_ HO].
      assert (Hd : largest (map (fun ft : fspec * ty => depth (snd ft)) fs) <= depth (TEnum e vs)).
      { cbn [depth]. exact (largest_in _ _ (in_map (fun vf : vspec * list (fspec * ty) => largest (map (fun ft => depth (snd ft)) (snd vf))) _ _ Hi)). }
      eapply spends_weak; [|apply (fields_spend _ _ _ fs (IH _ Hi) HO (every_In _ _ _ HU Hi) (depth_fields fs _ Hd) true)].
      - intros xs n (vl & -> & H). cbn [elements app]. rewrite nth_error_map, Hn. cbn [option_map snd]. exact H.
      - intros _. split; [exact (Hl eq_refl)|reflexivity].
      - exact He. }
    assert (G : forall hit eat k d p, small d -> p <= lenN d -> (forall v n, hit v n = true -> p + eat v <= lenN d) ->
      forall x q, dec_arms dec hit eat k (own_cattr (e_c e)) (k_vars ca) vs 0 0 d p = Ok x q ->
      p <= q /\ q <= lenN d /\ elements (TEnum e vs) x <= depth (TEnum e vs) * (q - p)).
    { intros hit eat k d p Hs Hp He. apply (arms_spend (fun x n => elements (TEnum e vs) x <= depth (TEnum e vs) * n)); try assumption.
      intros j v fs n prev Hn _ Hm. eapply spends_weak; [|exact (Hf j v fs prev Hn Hm)]. intros; cbv beta in *; lia. }
    assert (G2 : forall hit k, spends (fun x n => elements (TEnum e vs) x <= depth (TEnum e vs) * n)
        (dec_arms dec hit (fun _ => 0) k (own_cattr (e_c e)) (k_vars ca) vs 0 0)).
    { intros hit k d p x q Hs Hp. apply G; try assumption. intros; lia. }
    destruct (e_branching e).
    + eapply spends_bind; [apply (tame_spends _ (fun _ _ => True)); [apply tame_tag|auto]|]. intros tag m _.
      eapply spends_weak; [|apply G2]. intros; cbv beta in *; lia.
    + intros d p x q Hs Hp. apply G; try assumption.
      intros v n Hh. cbv beta in *. destruct (v_default v); [lia|]. apply starts_remaining; assumption.
    + intros d p x q Hs Hp. apply G; try assumption. intros; lia.
    + eapply spends_bind; [apply (tame_spends _ (fun _ _ => True)); [apply tame_bytes|auto]|]. intros tag m _.
      eapply spends_weak; [|apply G2]. intros; cbv beta in *; lia.
Qed.

Lemma inside_tame t : each_decoder stays_inside t -> each_decoder (tame false) t.
Proof.
  apply each_decoder_impl. intros m H d p Hs Hp. pose proof (H d p Hs Hp) as Hm. destruct (m d p); auto.
Qed.
