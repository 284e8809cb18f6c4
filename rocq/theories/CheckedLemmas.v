(** Builds with and without overflow checks. *)
From Verif Require Import Base Ints Spec SpecOps Reader BaseLemmas ReaderLemmas ReaderHist.
From Verif Require Import Schema Utf8 Decode Encode WireSpec CodecBase SafetySpec Bounds CheckedSpec.
From Verif Require CheckedReader CheckedDecode.

(** The checked [c] does what [m] does, or panics (not if [s]); the position stays a [usize]. *)
Definition ag (s : bool) {A} (c m : rd A) : Prop := forall d p, small d -> p < W64 ->
  (c d p = m d p \/ s = false /\ c d p = Panic) /\ match m d p with Ok _ q | Err _ q => q < W64 | _ => True end.

Section Ag.
Variable s : bool.
Lemma ag_same {A} (m : rd A) : (forall d p, p < W64 -> match m d p with Ok _ q | Err _ q => q < W64 | _ => True end) -> ag s m m.
Proof. intros H d p Hs Hp. split; [left; reflexivity|apply H; exact Hp]. Qed.
Lemma ag_ret {A} (a : A) : ag s (ret a) (ret a).
Proof. apply ag_same. auto. Qed.
Lemma ag_fail {A} k : ag s (@fail A k) (fail k).
Proof. apply ag_same. auto. Qed.
Lemma ag_panic {A} : ag s (@panic A) panic.
Proof. apply ag_same. intros; exact I. Qed.
Lemma ag_bind {A B} (c m : rd A) (f g : A -> rd B) : ag s c m -> (forall a, ag s (f a) (g a)) -> ag s (bind c f) (bind m g).
Proof.
  intros H K d p Hs Hp. unfold bind. destruct (H d p Hs Hp) as [[E|[S E]] Q]; rewrite E.
  - destruct (m d p) as [a q|e q| |]; [exact (K a d q Hs Q)|auto..].
  - split; [right; auto|]. destruct (m d p) as [a q|e q| |]; auto. apply (K a d q Hs Q).
Qed.
Lemma ag_map {A B} (c m : rd A) (f : A -> B) : ag s c m -> ag s (x <- c ;; ret (f x)) (x <- m ;; ret (f x)).
Proof. intros H. apply ag_bind; [exact H|intros; apply ag_ret]. Qed.

Lemma add_ok {T A} a b (k : N -> res T A) : a + b < W64 -> CheckedReader.adding a b k = k (a + b).
Proof. intros H. unfold CheckedReader.adding. destruct (N.ltb_spec (a + b) W64); [reflexivity|lia]. Qed.
Lemma sub_ok {T A} a b (k : N -> res T A) : b <= a -> CheckedReader.subtracting a b k = k (a - b).
Proof. intros H. unfold CheckedReader.subtracting. destruct (N.leb_spec b a); [reflexivity|lia]. Qed.

Lemma rem_bound d p n : small d -> p < W64 -> n <= remaining_len d p -> p + n < W64.
Proof. unfold small. intros Hs Hp H. rewrite remaining_len_eq in H. lia. Qed.

Lemma ag_take_array n : ag s (CheckedReader.take_array n) (take_array n).
Proof.
  intros d p Hs Hp. unfold CheckedReader.take_array, take_array. destruct (slice_get_to (remaining d p) n) as [v|] eqn:E; [|auto].
  unfold slice_get_to in E. destruct (N.leb_spec n (lenN (remaining d p))) as [L|]; [|discriminate].
  pose proof (rem_bound d p n Hs Hp L). rewrite add_ok, wadd_small by assumption. auto.
Qed.
Lemma ag_take_bytes n : ag s (CheckedReader.take_bytes n) (take_bytes n).
Proof.
  intros d p Hs Hp. unfold CheckedReader.take_bytes, take_bytes. destruct (N.ltb_spec (remaining_len d p) n) as [|L]; [auto|].
  pose proof (rem_bound d p n Hs Hp L). rewrite add_ok, sub_ok, wadd_small, wsub_small by lia.
  destruct (slice_get d (p + n - n) (p + n)); auto.
Qed.
Lemma ag_untake_bytes n : ag s (CheckedReader.untake_bytes n) (untake_bytes n).
Proof.
  intros d p Hs Hp. unfold CheckedReader.untake_bytes, untake_bytes. destruct (N.ltb_spec (remaining_len d p) n) as [|L]; [auto|].
  pose proof (rem_bound d p n Hs Hp L). rewrite add_ok, wadd_small by lia. unfold slice_ok.
  destruct (slice_get d p (p + n)); auto.
Qed.
Lemma ag_starts m : ag s (CheckedReader.take_bytes_starts m) (take_bytes_starts m).
Proof.
  intros d p Hs Hp. unfold CheckedReader.take_bytes_starts, take_bytes_starts. destruct (N.ltb_spec (remaining_len d p) (lenN m)) as [|L]; [auto|].
  pose proof (rem_bound d p _ Hs Hp L). destruct (starts_with m (remaining d p)); [|auto]. rewrite add_ok, wadd_small by lia. auto.
Qed.
Lemma slice_ok_range d a b q : q < W64 -> match slice_ok d a b q with Ok _ x | Err _ x => x < W64 | _ => True end.
Proof. unfold slice_ok. destruct (slice_get d a b); auto. Qed.
Lemma memmem_bound needle hay i : memmem_find needle hay = Some i -> N.of_nat i + lenN needle <= lenN hay.
Proof.
  revert i. induction hay as [|b hay IH]; intros i H; cbn in H.
  - destruct (starts_with needle []) eqn:E; [|discriminate]. injection H as <-. apply starts_len in E. lia.
  - destruct (starts_with needle (b :: hay)) eqn:E; [injection H as <-; apply starts_len in E; lia|].
    destruct (memmem_find needle hay) as [j|]; [|discriminate]. injection H as <-. specialize (IH j eq_refl). rewrite lenN_cons. lia.
Qed.
Ltac sm := repeat match goal with
  | |- context [wadd ?a ?b] => rewrite (wadd_small a b) by lia
  | |- context [CheckedReader.adding ?a ?b _] => rewrite (add_ok a b) by lia end.
Lemma ag_find needle : ag s (CheckedReader.find_subsequence needle) (find_subsequence needle).
Proof.
  intros d p Hs Hp. unfold CheckedReader.find_subsequence, find_subsequence. destruct (memmem_find needle (remaining d p)) as [i|] eqn:E; [|auto].
  apply memmem_bound in E. pose proof (rem_bound d p _ Hs Hp E). sm.
  split; [left; reflexivity|apply slice_ok_range; lia].
Qed.
Lemma ag_find_needle needle incl : ag s (CheckedReader.find_subsequence_needle needle incl) (find_subsequence_needle needle incl).
Proof.
  intros d p Hs Hp. unfold CheckedReader.find_subsequence_needle, find_subsequence_needle. destruct (memmem_find needle (remaining d p)) as [i|] eqn:E; [|auto].
  apply memmem_bound in E. pose proof (rem_bound d p _ Hs Hp E). cbv zeta. destruct incl; sm;
    (split; [left; reflexivity|apply slice_ok_range; lia]).
Qed.
Lemma ac_bound pats d p st e : small d -> p < W64 -> ac_find pats (remaining d p) = Some (st, e) ->
  p + N.of_nat st < W64 /\ p + N.of_nat e < W64.
Proof.
  intros Hs Hp E. destruct (ac_find_some _ _ _ _ E) as [L _].
  pose proof (rem_bound d p (N.of_nat e) Hs Hp). unfold remaining_len, lenN in *. lia.
Qed.
Lemma ag_finds needles : ag s (CheckedReader.find_subsequences needles) (find_subsequences needles).
Proof.
  intros d p Hs Hp. unfold CheckedReader.find_subsequences, find_subsequences. destruct (ac_find needles (remaining d p)) as [[st e]|] eqn:E; [|auto].
  destruct (ac_bound _ _ _ _ _ Hs Hp E). sm.
  split; [left; reflexivity|apply slice_ok_range; lia].
Qed.
Lemma ag_finds_needle needles incl : ag s (CheckedReader.find_subsequences_needle needles incl) (find_subsequences_needle needles incl).
Proof.
  intros d p Hs Hp. unfold CheckedReader.find_subsequences_needle, find_subsequences_needle. destruct (ac_find needles (remaining d p)) as [[st e]|] eqn:E; [|auto].
  destruct (ac_bound _ _ _ _ _ Hs Hp E). cbv zeta. destruct incl; sm;
    (split; [left; reflexivity|apply slice_ok_range; lia]).
Qed.
Lemma ag_idx0 l : ag s (idx0 l) (idx0 l).
Proof. apply ag_same. intros d p H. destruct l; cbn; auto. Qed.

Ltac agree := repeat first [apply ag_ret | apply ag_fail | apply ag_panic | apply ag_idx0 | apply ag_take_bytes | apply ag_untake_bytes
  | apply ag_take_array | apply ag_starts | apply ag_find | apply ag_find_needle | apply ag_finds | apply ag_finds_needle
  | match goal with |- ag _ (bind _ _) (bind _ _) => apply ag_bind; [|intros] | |- ag _ (if ?b then _ else _) _ => destruct b end].

Lemma ag_u8 : ag s CheckedReader.take_u8 take_u8.
Proof. unfold CheckedReader.take_u8, take_u8. agree. Qed.
Lemma ag_untake_u8 : ag s CheckedReader.untake_u8 untake_u8.
Proof. unfold CheckedReader.untake_u8, untake_u8. agree. Qed.
Lemma ag_fixed bo n : ag s (CheckedReader.take_fixed bo n) (take_fixed bo n).
Proof. unfold CheckedReader.take_fixed, take_fixed. agree. Qed.
Lemma ag_untake_fixed bo n : ag s (CheckedReader.untake_fixed bo n) (untake_fixed bo n).
Proof. unfold CheckedReader.untake_fixed, untake_fixed. agree. Qed.
Lemma ag_n bo z n : ag s (CheckedReader.take_n bo z n) (take_n bo z n).
Proof. destruct bo; cbn [CheckedReader.take_n take_n]; unfold CheckedReader.take_n_be, take_n_be, CheckedReader.take_n_le, take_n_le; agree. Qed.
Lemma ag_untake_n bo z n : ag s (CheckedReader.untake_n bo z n) (untake_n bo z n).
Proof. destruct bo; cbn [CheckedReader.untake_n untake_n]; unfold CheckedReader.untake_n_be, untake_n_be, CheckedReader.untake_n_le, untake_n_le; agree. Qed.
Lemma ag_int k t : ag s (CheckedReader.take_int k t) (take_int k t).
Proof. destruct t; cbn [CheckedReader.take_int take_int]; apply ag_map; first [apply ag_u8|apply ag_fixed]. Qed.
Lemma ag_untake_int k t : ag s (CheckedReader.untake_int k t) (untake_int k t).
Proof. destruct t; cbn [CheckedReader.untake_int untake_int]; apply ag_map; first [apply ag_untake_u8|apply ag_untake_fixed]. Qed.

Lemma ag_bool : ag s CheckedReader.take_bool take_bool.
Proof. unfold CheckedReader.take_bool, take_bool. agree. Qed.
Lemma ag_char : ag s CheckedReader.take_char take_char.
Proof. unfold CheckedReader.take_char, take_char. agree. Qed.
(** *** Every call of a reader *)
Lemma ag_rop o : ag s (CheckedReader.run_rop o) (run_rop o).
Proof.
  destruct o; cbn [CheckedReader.run_rop run_rop]; unfold rmap; apply ag_map; auto using ag_take_array, ag_take_bytes, ag_starts, ag_int, ag_untake_int,
    ag_find, ag_find_needle, ag_finds, ag_finds_needle, ag_untake_bytes, ag_n, ag_untake_n, ag_fixed, ag_untake_fixed.
  - unfold CheckedReader.take_byteorder_array, take_byteorder_array. agree.
  - unfold CheckedReader.take_bool, take_bool. agree.
  - unfold CheckedReader.take_char, take_char. agree.
  - apply ag_n.
  - apply ag_n.
  - apply ag_map, ag_n.
  - apply ag_fixed.
  - apply ag_fixed.
  - unfold CheckedReader.untake_bool, untake_bool. agree.
  - unfold CheckedReader.untake_char, untake_char. agree.
  - apply ag_untake_n.
  - apply ag_untake_n.
  - apply ag_map, ag_untake_n.
  - apply ag_untake_fixed.
  - apply ag_untake_fixed.
Qed.

(** *** Decoders *)
Lemma ag_same_s {A} (m : rd A) : stays_usize m -> ag s m m.
Proof. intros H d p Hs Hp. split; [left; reflexivity|exact (H d p Hs Hp)]. Qed.
Lemma ag_dec_n {A} n (c m : rd A) : ag s c m -> ag s (dec_n n c) (dec_n n m).
Proof.
  intros H. induction n as [|n IH]; [apply ag_ret|]. cbn [dec_n]. apply ag_bind; [exact H|]. intros x. apply ag_map, IH.
Qed.
Lemma ag_dec_try {A} n (c m : rd A) : ag s c m -> ag s (dec_try n c) (dec_try n m).
Proof.
  intros H. induction n as [|n IH]; [apply ag_ret|]. intros d p Hs Hp. cbn [dec_try].
  destruct (H d p Hs Hp) as [[E|[S E]] Q]; rewrite E.
  - destruct (m d p) as [a q|e q| |]; [|auto..]. exact (ag_map _ _ (cons a) IH d q Hs Q).
  - split; [auto|]. destruct (m d p) as [a q|e q| |]; auto. apply (ag_map _ _ (cons a) IH d q Hs Q).
Qed.
Lemma ag_dec_loop {A} fuel k (c m : rd A) : ag s c m -> ag s (CheckedDecode.dec_loop fuel k c) (dec_loop fuel k m).
Proof.
  intros H. induction fuel as [|fuel IH]; [intros d p _ _; cbn; auto|]. intros d p Hs Hp. cbn [CheckedDecode.dec_loop dec_loop].
  destruct (ag_starts k d p Hs Hp) as [[E|[S E]] Q]; rewrite E.
  - destruct (take_bytes_starts k d p) as [a q|e q| |]; [|auto..].
    refine (ag_bind _ _ _ _ H _ d q Hs Q). intros x. apply ag_map, IH.
  - split; [auto|]. destruct (take_bytes_starts k d p) as [a q|e q| |]; auto.
    refine (proj2 (ag_bind _ _ _ _ H (fun x => ag_map _ _ (cons x) IH) d q Hs Q)).
Qed.
Lemma ag_dec_seq cs ms : Forall2 (ag s) cs ms -> ag s (dec_seq cs) (dec_seq ms).
Proof.
  induction 1 as [|c m cs ms H _ IH]; [apply ag_ret|]. cbn [dec_seq]. apply ag_bind; [exact H|]. intros x. apply ag_map, IH.
Qed.
Lemma ag_uint k n : ag s (CheckedReader.take_uint k n) (take_uint k n).
Proof. apply ag_n. Qed.
Lemma ag_skip_to k : ag s (CheckedDecode.skip_to k) (skip_to k).
Proof. destruct k; [|apply ag_ret]. apply ag_bind; [apply ag_find_needle|intros; apply ag_ret]. Qed.
Lemma ag_counted {A} ca fa (c m : rd A) : ag s c m -> ag s (CheckedDecode.dec_counted ca fa c) (dec_counted ca fa m).
Proof.
  intros H. apply ag_bind.
  - unfold CheckedDecode.get_count_and_try_count, get_count_and_try_count. destruct (a_count fa); [apply ag_ret|].
    destruct (a_try_count fa); [apply ag_ret|]. destruct (a_byte_count_outside fa); apply ag_map; [apply ag_uint|apply ag_u8].
  - intros [c' [n|]]; cbn [fst snd]; [apply ag_dec_try, H|apply ag_dec_n, H].
Qed.
Lemma ag_dec_int t ca fa : ag s (CheckedDecode.dec_int t ca fa) (dec_int t ca fa).
Proof.
  apply ag_map. destruct (a_length fa); [|apply ag_int]. destruct (_ <? _); [apply ag_fail|apply ag_map, ag_uint].
Qed.
Lemma ag_dec_raw ca fa : ag s (CheckedDecode.dec_raw ca fa) (dec_raw ca fa).
Proof.
  apply ag_bind; [apply ag_skip_to|intros _]. apply ag_bind; [apply ag_skip_to|intros _].
  destruct (a_length fa); [apply ag_take_bytes|].
  destruct (a_byte_count fa); [apply ag_bind; [apply ag_uint|intros; apply ag_take_bytes]|].
  destruct (a_linend fa); [apply ag_finds|]. destruct (a_linend_value fa); [apply ag_find|].
  destruct (a_remaining fa); [intros d p; apply ag_take_bytes|].
  apply ag_bind; [apply ag_u8|intros; apply ag_take_bytes].
Qed.
Lemma ag_dec_string ca fa : ag s (CheckedDecode.dec_string ca fa) (dec_string ca fa).
Proof. apply ag_bind; [apply ag_dec_raw|]. intros l. destruct (utf8_ok l); [apply ag_ret|apply ag_fail]. Qed.
Lemma ag_mac ca fa : ag s (CheckedDecode.dec_mac ca fa) (dec_mac ca fa).
Proof. apply ag_map, ag_uint. Qed.
Lemma ag_ipv4 ca fa : ag s (CheckedDecode.dec_ipv4 ca fa) (dec_ipv4 ca fa).
Proof. apply ag_map, ag_int. Qed.
Lemma ag_ipv6 ca fa : ag s (CheckedDecode.dec_ipv6 ca fa) (dec_ipv6 ca fa).
Proof. apply ag_map, ag_int. Qed.
Lemma ag_ipaddr ca fa : ag s (CheckedDecode.dec_ipaddr ca fa) (dec_ipaddr ca fa).
Proof.
  unfold CheckedDecode.dec_ipaddr, dec_ipaddr. destruct (a_length fa) as [l|]; [|apply ag_fail].
  destruct (l =? 16); [apply ag_map, ag_ipv6|]. destruct (l =? 4); [apply ag_map, ag_ipv4|apply ag_fail].
Qed.
Lemma ag_netaddr ca fa : ag s (CheckedDecode.dec_netaddr ca fa) (dec_netaddr ca fa).
Proof.
  unfold CheckedDecode.dec_netaddr, dec_netaddr. destruct (a_length fa) as [l|]; [|apply ag_fail].
  destruct (l =? 0); [apply ag_fail|]. destruct (l =? 4); [apply ag_map, ag_ipv4|].
  destruct (l =? 6); [apply ag_map, ag_mac|]. destruct (l =? 16); [apply ag_map, ag_ipv6|apply ag_map, ag_dec_int].
Qed.
Lemma ag_advance n : s = false -> ag s (CheckedReader.advance n) (advance n).
Proof.
  intros S d p Hs Hp. unfold CheckedReader.advance, advance, CheckedReader.adding. destruct (N.ltb_spec (p + n) W64).
  - rewrite wadd_small by lia. auto.
  - split; [auto|]. unfold wadd. apply N.mod_lt. discriminate.
Qed.
Lemma ag_offset o en : (s = true -> o = None) -> ag s (CheckedDecode.dec_offset o en) (dec_offset o en).
Proof.
  intros H. unfold CheckedDecode.dec_offset, dec_offset. destruct (eval_opt o en) as [n|] eqn:E; [|apply ag_ret].
  apply ag_advance. destruct s; [|reflexivity]. rewrite (H eq_refl) in E. discriminate.
Qed.
Lemma ag_field (c m : cattr -> fattr -> rd val) f ca fa en : (s = true -> no_offset f = true) ->
  (forall g, f_with_decode f = Some g -> forall en ca fa, stays_usize (g en ca fa)) ->
  ag s (c ca fa) (m ca fa) -> ag s (CheckedDecode.dec_field c f ca fa en) (dec_field m f ca fa en).
Proof.
  intros Ho Hu Hd. apply ag_bind.
  { apply ag_offset. intros S. specialize (Ho S). unfold no_offset in Ho. destruct (f_offset f); [discriminate|reflexivity]. }
  intros _. destruct (f_with_decode f) as [g|]; [apply ag_same_s, Hu; reflexivity|].
  destruct (f_skip_decode f); [apply ag_ret|]. destruct (f_from_str f) as [[parse show]|].
  { apply ag_bind; [apply ag_dec_string|]. intros l. destruct (parse l); [apply ag_ret|apply ag_fail]. }
  intros dt p Hs Hp. unfold bind at 1 5, get_position.
  revert dt p Hs Hp. 
  assert (R : forall p0, p0 < W64 -> ag s (if f_untake f then set_position p0 else ret tt) (if f_untake f then set_position p0 else ret tt)).
  { intros p0 H0. destruct (f_untake f); [|apply ag_ret]. apply ag_same. intros. exact H0. }
  intros dt p Hs Hp. refine (ag_bind _ _ _ _ _ _ dt p Hs Hp).
  - destruct (f_if f) as [k|]; [destruct (k en); [exact Hd|apply ag_ret]|exact Hd].
  - intros v. apply ag_bind; [apply R, Hp|]. intros _. cbv zeta. destruct (f_check f); [|apply ag_ret].
    destruct (val_eqb _ _); [apply ag_ret|apply ag_fail].
Qed.
Lemma ag_fields fs inherit vars :
  Forall (fun ft => forall ca fa, ag s (CheckedDecode.dec (snd ft) ca fa) (dec (snd ft) ca fa)) fs ->
  Forall (fun ft : fspec * ty => forall g, f_with_decode (fst ft) = Some g -> forall en ca fa, stays_usize (g en ca fa)) fs ->
  (s = true -> forallb (fun ft : fspec * ty => no_offset (fst ft)) fs = true) ->
  forall ca prev done, ag s (CheckedDecode.dec_fields CheckedDecode.dec inherit vars fs ca prev done) (dec_fields dec inherit vars fs ca prev done).
Proof.
  induction fs as [|[f t] r IH]; intros HF HU Ho ca prev done; [apply ag_ret|].
  inversion HF as [|? ? Ht HF']; subst. inversion HU as [|? ? Hu HU']; subst. cbn [fst snd] in *.
  assert (O1 : s = true -> no_offset f = true) by (intros S; specialize (Ho S); apply andb_prop in Ho; apply Ho).
  assert (O2 : s = true -> forallb (fun ft : fspec * ty => no_offset (fst ft)) r = true) by (intros S; specialize (Ho S); apply andb_prop in Ho; apply Ho).
  cbn [CheckedDecode.dec_fields dec_fields]. destruct (modifiers f (mkenv done vars)); [|apply ag_panic]. cbv zeta.
  apply ag_bind; [apply ag_field; auto|]. intros v. apply (IH HF' HU' O2).
Qed.
End Ag.

(** *** Every type *)
Definition TC (s : bool) (t : ty) : Prop := (s = true -> offset_free t = true) -> each_decoder stays_usize t ->
  forall ca fa, ag s (CheckedDecode.dec t ca fa) (dec t ca fa).
Lemma ag_fields_T s inherit vars fs ca prev : Forall (fun ft => TC s (snd ft)) fs ->
  (s = true -> offset_free_fields offset_free fs = true) -> Forall (with_fine stays_usize) fs ->
  ag s (CheckedDecode.dec_fields CheckedDecode.dec inherit vars fs ca prev []) (dec_fields dec inherit vars fs ca prev []).
Proof.
  intros HT HO HU. apply ag_fields.
  - rewrite Forall_forall in *. intros ft I ca' fa'. apply (HT _ I); [|exact (proj2 (HU _ I))].
    intros S. destruct (offset_free_fields_inv _ _ (HO S)) as [_ O]. rewrite Forall_forall in O. exact (O _ I).
  - eapply Forall_impl; [|exact HU]. intros ft H. exact (proj1 H).
  - intros S. exact (proj1 (offset_free_fields_inv _ _ (HO S))).
Qed.
Lemma ag_advance_then s {A} n (c m : rd A) d p : small d -> p + n < W64 -> ag s c m ->
  ((_ <- CheckedReader.advance n ;; c) d p = (_ <- advance n ;; m) d p \/ s = false /\ (_ <- CheckedReader.advance n ;; c) d p = Panic) /\
  match (_ <- advance n ;; m) d p with Ok _ q | Err _ q => q < W64 | _ => True end.
Proof.
  intros Hs Hp H. unfold bind, CheckedReader.advance, advance. rewrite add_ok, wadd_small by assumption. apply H; assumption.
Qed.
Lemma ag_arms s hit eat nomatch ca vars vs d : small d -> forall p i next, p < W64 ->
  Forall (fun vf => Forall (fun ft => TC s (snd ft)) (snd vf)) vs ->
  (s = true -> forallb (fun vf : vspec * list (fspec * ty) =>
                 no_offset (v_attr (fst vf)) && offset_free_fields offset_free (snd vf)) vs = true) ->
  every (fun vf : vspec * list (fspec * ty) => Forall (with_fine stays_usize) (snd vf)) vs ->
  (forall v n, hit v n = true -> p + eat v < W64) ->
  let c := CheckedDecode.dec_arms CheckedDecode.dec hit eat nomatch ca vars vs i next in
  let m := dec_arms dec hit eat nomatch ca vars vs i next in
  (c d p = m d p \/ s = false /\ c d p = Panic) /\ match m d p with Ok _ q | Err _ q => q < W64 | _ => True end.
Proof.
  intros Hs p. induction vs as [|[v fs] r IH]; intros i next Hp HT HO HU Heat; [cbn; auto|].
  inversion HT as [|? ? HT1 HT2]; subst. cbn [snd] in HT1.
  assert (O1 : s = true -> no_offset (v_attr v) = true /\ offset_free_fields offset_free fs = true).
  { intros S. specialize (HO S). cbn [forallb fst snd] in HO. apply andb_prop in HO. destruct HO as [HO _]. apply andb_prop in HO. exact HO. }
  cbn zeta. cbn [CheckedDecode.dec_arms dec_arms]. destruct (hit v (variant_index v next)) eqn:Eh.
  2:{ apply IH; try assumption; [|exact (proj2 HU)]. intros S. specialize (HO S). apply andb_prop in HO. apply HO. }
  specialize (Heat _ _ Eh). apply ag_advance_then; [exact Hs|exact Heat|].
  destruct (modifiers (v_attr v) (mkenv [] vars)) as [prev|]; [|apply ag_panic].
  apply ag_bind.
  - apply ag_offset. intros S. destruct (O1 S) as [O _]. unfold no_offset in O. destruct (f_offset (v_attr v)); [discriminate|reflexivity].
  - intros _. apply ag_map. apply ag_fields_T; [exact HT1|intros S; apply (O1 S)|exact (proj1 HU)].
Qed.
Theorem ag_dec s t : TC s t.
Proof.
  induction t as [t Hl|n t IH|ts IH|t IH|t IH|k v IHk IHv|t IH|named c fs IH|e vs IH] using ty_nested_ind;
    intros HO HU ca fa.
  - destruct t; try discriminate Hl; cbn [CheckedDecode.dec dec]; try apply ag_map; try apply ag_ret.
    + apply ag_dec_int.
    + apply ag_bool.
    + apply ag_char.
    + apply ag_fixed.
    + apply ag_fixed.
    + apply ag_dec_raw.
    + apply ag_dec_string.
    + apply ag_mac.
    + apply ag_ipv4.
    + apply ag_ipv6.
    + apply ag_ipaddr.
    + apply ag_netaddr.
    + apply ag_same_s, HU.
  - cbn [CheckedDecode.dec dec]. apply ag_map, ag_dec_n, IH; assumption.
  - cbn [CheckedDecode.dec dec]. apply ag_map, ag_dec_seq. cbn [offset_free] in HO. cbn [each_decoder] in HU.
    induction IH as [|t ts Ht _ IHr]; [constructor|]. cbn [map]. constructor.
    + apply Ht; [intros S; specialize (HO S); apply andb_prop in HO; apply HO|apply HU].
    + apply IHr; [intros S; specialize (HO S); apply andb_prop in HO; apply HO|apply HU].
  - cbn [CheckedDecode.dec dec]. destruct (a_loop fa) as [m|].
    + apply ag_map. intros d p. apply ag_dec_loop, IH; assumption.
    + apply ag_map, ag_counted, IH; assumption.
  - cbn [CheckedDecode.dec dec]. apply ag_map, ag_counted, IH; assumption.
  - cbn [CheckedDecode.dec dec]. apply ag_map, ag_counted.
    assert (O : s = true -> offset_free k = true /\ offset_free v = true) by (intros S; apply andb_prop, (HO S)).
    apply ag_bind; [apply IHk; [apply O|apply HU]|]. intros a. apply ag_map, IHv; [apply O|apply HU].
  - cbn [CheckedDecode.dec dec]. intros d p Hs Hp. destruct (a_length fa) as [[|l]|]; [cbn; auto|..];
    (destruct (IH HO HU ca fa d p Hs Hp) as [[E|[S E]] Q]; rewrite E;
      [destruct (dec t ca fa d p); auto|split; [auto|destruct (dec t ca fa d p); auto]]).
  - cbn [CheckedDecode.dec dec]. apply ag_map. apply ag_fields_T; [exact IH|exact HO|apply with_fine_all, HU].
  - assert (HU' : every (fun vf : vspec * list (fspec * ty) => Forall (with_fine stays_usize) (snd vf)) vs).
    { cbn [each_decoder] in HU. clear - HU. induction vs as [|vf vs IHv]; [exact I|].
      split; [apply with_fine_all, HU|apply IHv, HU]. }
    cbn [CheckedDecode.dec dec]. destruct vs as [|v0 r]; [apply ag_ret|]. destruct (e_branching e).
    + apply ag_bind.
      * unfold CheckedDecode.enum_tag, enum_tag. destruct (a_branch fa); [apply ag_ret|].
        destruct (a_byte_count fa); [apply ag_uint|]. destruct (c_byte_count (e_c e)); [apply ag_uint|apply ag_u8].
      * intros tag d p Hs Hp. apply ag_arms; try assumption. intros. lia.
    + intros d p Hs Hp. apply ag_arms; try assumption. intros v n Hh. destruct (v_default v); [lia|].
      cbn in Hh. apply starts_len in Hh. exact (rem_bound d p _ Hs Hp Hh).
    + intros d p Hs Hp. apply ag_arms; try assumption. intros. lia.
    + apply ag_bind; [apply ag_take_bytes|]. intros x d p Hs Hp. apply ag_arms; try assumption. intros. lia.
Qed.

Lemma checked_rops ops d : forall p, small d -> p < W64 -> CheckedReader.run_rops ops d p = run_rops ops d p.
Proof.
  induction ops as [|o ops IH]; intros p Hs Hp; [reflexivity|]. cbn [CheckedReader.run_rops run_rops].
  destruct (ag_rop true o d p Hs Hp) as [[E|[? _]] Q]; [|discriminate]. rewrite E.
  destruct (run_rop o d p) as [v q|e q| |]; try reflexivity; rewrite (IH q Hs Q); reflexivity.
Qed.
