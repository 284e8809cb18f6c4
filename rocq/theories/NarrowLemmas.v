(** Decoding on 32-bit and 64-bit targets. *)
From Verif Require Import Base Ints Spec SpecOps Reader BaseLemmas ReaderLemmas ReaderHist.
From Verif Require Import Schema Utf8 Decode Encode WireSpec CodecBase SafetySpec Bounds CheckedLemmas TypeSpec Typing NarrowSpec.
From Verif Require NarrowReader NarrowDecode.

Notation W32 := 4294967296%N.
Notation W31 := 2147483648%N.
Definition small32 (d : bytes) : Prop := lenN d < W31.
Lemma small_of32 d : small32 d -> small d.
Proof. unfold small32, small. lia. Qed.

(** The two do the same, the result satisfies [P] and the position stays a [usize]. *)
Definition sm {A} (P : A -> Prop) (c m : rd A) : Prop := forall d p, small32 d -> p < W32 ->
  c d p = m d p /\ match m d p with Ok a q => P a /\ q < W32 | Err _ q => q < W32 | _ => True end.
Notation sm0 := (sm (fun _ => True)).

Lemma sm_same {A} (m : rd A) : stays_usize32 m -> sm0 m m.
Proof. intros H d p Hs Hp. split; [reflexivity|]. specialize (H d p Hs Hp). destruct (m d p); auto. Qed.
Lemma sm_ret {A} (P : A -> Prop) a : P a -> sm P (ret a) (ret a).
Proof. intros H d p _ Hp. split; [reflexivity|cbn; auto]. Qed.
Lemma sm_fail {A} (P : A -> Prop) k : sm P (fail k) (fail k).
Proof. intros d p _ Hp. split; [reflexivity|exact Hp]. Qed.
Lemma sm_panic {A} (P : A -> Prop) : sm P panic panic.
Proof. intros d p _ Hp. split; [reflexivity|exact I]. Qed.
Lemma sm_bind {A B} (Q : A -> Prop) (P : B -> Prop) c m f g : sm Q c m -> (forall a, Q a -> sm P (f a) (g a)) -> sm P (bind c f) (bind m g).
Proof.
  intros H K d p Hs Hp. unfold bind. destruct (H d p Hs Hp) as [E R]; rewrite E.
  destruct (m d p) as [a q|e q| |]; auto. destruct R as [R1 R2]. exact (K a R1 d q Hs R2).
Qed.
Lemma sm_then {A B} (P : B -> Prop) (c m : rd A) f g : sm0 c m -> (forall a, sm P (f a) (g a)) -> sm P (bind c f) (bind m g).
Proof. intros H K. apply (sm_bind (fun _ => True)); auto. Qed.
Lemma sm_map {A B} (c m : rd A) (f : A -> B) : sm0 c m -> sm0 (x <- c ;; ret (f x)) (x <- m ;; ret (f x)).
Proof. intros H. apply sm_then; [exact H|intros; apply sm_ret, I]. Qed.
Lemma sm_weak {A} (P Q : A -> Prop) c m : (forall a, P a -> Q a) -> sm P c m -> sm Q c m.
Proof. intros H K d p Hs Hp. destruct (K d p Hs Hp) as [E R]. split; [exact E|]. destruct (m d p); auto. intuition. Qed.
Lemma sm_any {A} (P : A -> Prop) c m : sm P c m -> sm0 c m.
Proof. apply sm_weak. auto. Qed.
Lemma sm_yields {A} (P : A -> Prop) c m : sm0 c m -> yields P m -> sm P c m.
Proof.
  intros H Y d p Hs Hp. destruct (H d p Hs Hp) as [E R]. split; [exact E|]. destruct (m d p) as [a q| | |] eqn:Em; auto.
  split; [exact (Y d p a q (small_of32 d Hs) Em)|apply R].
Qed.

Lemma add32 a b : a + b < W32 -> NarrowReader.wadd a b = a + b.
Proof. intros H. unfold NarrowReader.wadd. apply N.mod_small, H. Qed.
Lemma sub32 a b : b <= a -> a < W32 -> NarrowReader.wsub a b = a - b.
Proof.
  intros H L. unfold NarrowReader.wsub. rewrite (N.mod_small b) by lia.
  replace (a + W32 - b) with (a - b + 1 * W32) by lia. rewrite N.mod_add by discriminate. apply N.mod_small. lia.
Qed.
Lemma rem32 d p n : small32 d -> p < W32 -> n <= remaining_len d p -> p + n < W32.
Proof. unfold small32. intros Hs Hp H. rewrite remaining_len_eq in H. lia. Qed.
Ltac sm32 := repeat match goal with
  | |- context [wadd ?a ?b] => rewrite (wadd_small a b) by lia
  | |- context [NarrowReader.wadd ?a ?b] => rewrite (add32 a b) by lia
  | |- context [wsub ?a ?b] => rewrite (wsub_small a b) by lia
  | |- context [NarrowReader.wsub ?a ?b] => rewrite (sub32 a b) by lia end.

Lemma sm_take_array n : sm0 (NarrowReader.take_array n) (take_array n).
Proof.
  intros d p Hs Hp. unfold NarrowReader.take_array, take_array. destruct (slice_get_to (remaining d p) n) as [v|] eqn:E; [|auto].
  unfold slice_get_to in E. destruct (N.leb_spec n (lenN (remaining d p))) as [L|]; [|discriminate].
  pose proof (rem32 d p n Hs Hp L). sm32. auto.
Qed.
Lemma sm_take_bytes n : sm0 (NarrowReader.take_bytes n) (take_bytes n).
Proof.
  intros d p Hs Hp. unfold NarrowReader.take_bytes, take_bytes. destruct (N.ltb_spec (remaining_len d p) n) as [|L]; [auto|].
  pose proof (rem32 d p n Hs Hp L). cbv zeta. sm32. destruct (slice_get d (p + n - n) (p + n)); auto.
Qed.
Lemma sm_untake_bytes n : sm0 (NarrowReader.untake_bytes n) (untake_bytes n).
Proof.
  intros d p Hs Hp. unfold NarrowReader.untake_bytes, untake_bytes. destruct (N.ltb_spec (remaining_len d p) n) as [|L]; [auto|].
  pose proof (rem32 d p n Hs Hp L). sm32. unfold slice_ok. destruct (slice_get d p (p + n)); auto.
Qed.
Lemma sm_starts m : sm0 (NarrowReader.take_bytes_starts m) (take_bytes_starts m).
Proof.
  intros d p Hs Hp. unfold NarrowReader.take_bytes_starts, take_bytes_starts. destruct (N.ltb_spec (remaining_len d p) (lenN m)) as [|L]; [auto|].
  pose proof (rem32 d p _ Hs Hp L). destruct (starts_with m (remaining d p)); [|auto]. sm32. auto.
Qed.
Lemma slice_ok32 d a b q : q < W32 -> slice_ok d a b q = slice_ok d a b q /\ match slice_ok d a b q with Ok _ x => True /\ x < W32 | Err _ x => x < W32 | _ => True end.
Proof. intros H. split; [reflexivity|]. unfold slice_ok. destruct (slice_get d a b); auto. Qed.
Lemma sm_find needle : sm0 (NarrowReader.find_subsequence needle) (find_subsequence needle).
Proof.
  intros d p Hs Hp. unfold NarrowReader.find_subsequence, find_subsequence. destruct (memmem_find needle (remaining d p)) as [i|] eqn:E; [|auto].
  apply memmem_bound in E. pose proof (rem32 d p _ Hs Hp E). sm32. apply slice_ok32. lia.
Qed.
Lemma sm_find_needle needle incl : sm0 (NarrowReader.find_subsequence_needle needle incl) (find_subsequence_needle needle incl).
Proof.
  intros d p Hs Hp. unfold NarrowReader.find_subsequence_needle, find_subsequence_needle. destruct (memmem_find needle (remaining d p)) as [i|] eqn:E; [|auto].
  apply memmem_bound in E. pose proof (rem32 d p _ Hs Hp E). cbv zeta. destruct incl; sm32; apply slice_ok32; lia.
Qed.
Lemma ac32 pats d p st e : small32 d -> p < W32 -> ac_find pats (remaining d p) = Some (st, e) ->
  p + N.of_nat st < W32 /\ p + N.of_nat e < W32.
Proof.
  intros Hs Hp E. destruct (ac_find_some _ _ _ _ E) as [L _].
  pose proof (rem32 d p (N.of_nat e) Hs Hp). unfold remaining_len, lenN in *. lia.
Qed.
Lemma sm_finds needles : sm0 (NarrowReader.find_subsequences needles) (find_subsequences needles).
Proof.
  intros d p Hs Hp. unfold NarrowReader.find_subsequences, find_subsequences. destruct (ac_find needles (remaining d p)) as [[st e]|] eqn:E; [|auto].
  destruct (ac32 _ _ _ _ _ Hs Hp E). sm32. apply slice_ok32. lia.
Qed.
Lemma sm_finds_needle needles incl : sm0 (NarrowReader.find_subsequences_needle needles incl) (find_subsequences_needle needles incl).
Proof.
  intros d p Hs Hp. unfold NarrowReader.find_subsequences_needle, find_subsequences_needle. destruct (ac_find needles (remaining d p)) as [[st e]|] eqn:E; [|auto].
  destruct (ac32 _ _ _ _ _ Hs Hp E). cbv zeta. destruct incl; sm32; apply slice_ok32; lia.
Qed.
Lemma sm_idx0 l : sm0 (idx0 l) (idx0 l).
Proof. intros d p Hs Hp. split; [reflexivity|]. destruct l; cbn; auto. Qed.

Ltac same := repeat first [apply sm_ret, I | apply sm_fail | apply sm_panic | apply sm_idx0 | apply sm_take_bytes | apply sm_untake_bytes
  | apply sm_take_array | apply sm_starts | apply sm_find | apply sm_find_needle | apply sm_finds | apply sm_finds_needle
  | match goal with |- sm _ (bind _ _) (bind _ _) => apply sm_then; [|intros] | |- sm _ (if ?b then _ else _) _ => destruct b end].

Lemma sm_u8 : sm0 NarrowReader.take_u8 take_u8.
Proof. unfold NarrowReader.take_u8, take_u8. same. Qed.
Lemma sm_untake_u8 : sm0 NarrowReader.untake_u8 untake_u8.
Proof. unfold NarrowReader.untake_u8, untake_u8. same. Qed.
Lemma sm_fixed bo n : sm0 (NarrowReader.take_fixed bo n) (take_fixed bo n).
Proof. unfold NarrowReader.take_fixed, take_fixed. same. Qed.
Lemma sm_untake_fixed bo n : sm0 (NarrowReader.untake_fixed bo n) (untake_fixed bo n).
Proof. unfold NarrowReader.untake_fixed, untake_fixed. same. Qed.
Lemma sm_n bo z n : sm0 (NarrowReader.take_n bo z n) (take_n bo z n).
Proof. destruct bo; cbn [NarrowReader.take_n take_n]; unfold NarrowReader.take_n_be, take_n_be, NarrowReader.take_n_le, take_n_le; same. Qed.
Lemma sm_untake_n bo z n : sm0 (NarrowReader.untake_n bo z n) (untake_n bo z n).
Proof. destruct bo; cbn [NarrowReader.untake_n untake_n]; unfold NarrowReader.untake_n_be, untake_n_be, NarrowReader.untake_n_le, untake_n_le; same. Qed.
Lemma on32_fixed t : fixed_width t -> NarrowReader.on32 t = t.
Proof. intros [H1 H2]. destruct t; try reflexivity; contradiction. Qed.
Lemma sm_int k t : fixed_width t -> sm0 (NarrowReader.take_int k t) (take_int k t).
Proof.
  intros H. unfold NarrowReader.take_int. rewrite (on32_fixed t H).
  destruct t; cbn [take_int]; apply sm_map; first [apply sm_u8|apply sm_fixed].
Qed.
Lemma sm_untake_int k t : fixed_width t -> sm0 (NarrowReader.untake_int k t) (untake_int k t).
Proof.
  intros H. unfold NarrowReader.untake_int. rewrite (on32_fixed t H).
  destruct t; cbn [untake_int]; apply sm_map; first [apply sm_untake_u8|apply sm_untake_fixed].
Qed.
Lemma sm_bool : sm0 NarrowReader.take_bool take_bool.
Proof. unfold NarrowReader.take_bool, take_bool. same. Qed.
Lemma sm_char : sm0 NarrowReader.take_char take_char.
Proof. unfold NarrowReader.take_char, take_char. same. Qed.
(** *** Every call of a reader *)
Lemma sm_rop o : fixed_read o -> sm0 (NarrowReader.run_rop o) (run_rop o).
Proof.
  intros F. destruct o; cbn [NarrowReader.run_rop run_rop fixed_read] in *; unfold rmap; apply sm_map; auto using sm_take_array, sm_take_bytes, sm_starts, sm_int, sm_untake_int,
    sm_find, sm_find_needle, sm_finds, sm_finds_needle, sm_untake_bytes, sm_n, sm_untake_n, sm_fixed, sm_untake_fixed, sm_bool, sm_char.
  - unfold NarrowReader.take_byteorder_array, take_byteorder_array. same.
  - apply sm_n.
  - apply sm_n.
  - apply sm_map, sm_n.
  - apply sm_fixed.
  - apply sm_fixed.
  - unfold NarrowReader.untake_bool, untake_bool. same.
  - unfold NarrowReader.untake_char, untake_char. same.
  - apply sm_untake_n.
  - apply sm_untake_n.
  - apply sm_map, sm_untake_n.
  - apply sm_untake_fixed.
  - apply sm_untake_fixed.
Qed.
Lemma narrow_rops ops d : Forall fixed_read ops -> forall p, small32 d -> p < W32 -> NarrowReader.run_rops ops d p = run_rops ops d p.
Proof.
  induction 1 as [|o ops Ho _ IH]; intros p Hs Hp; [reflexivity|]. cbn [NarrowReader.run_rops run_rops].
  destruct (sm_rop o Ho d p Hs Hp) as [E Q]. rewrite E.
  destruct (run_rop o d p) as [v q|e q| |]; try reflexivity; rewrite (IH q) by (try exact Hs; apply Q); reflexivity.
Qed.

(** *** Decoders *)
Lemma sm_bytes_len n : sm (fun l => lenN l <= n) (NarrowReader.take_bytes n) (take_bytes n).
Proof.
  intros d p Hs Hp. destruct (sm_take_bytes n d p Hs Hp) as [E R]. split; [exact E|]. clear E.
  destruct (take_bytes n d p) as [l q|e q| |] eqn:T; auto. split; [|apply R].
  unfold take_bytes in T. destruct (N.ltb_spec (remaining_len d p) n) as [|L]; [discriminate|].
  pose proof (rem32 d p n Hs Hp L). cbv zeta in T. rewrite wadd_small, wsub_small in T by lia.
  unfold slice_get in T. destruct (_ && _); [|discriminate]. injection T as <- _. unfold lenN. rewrite firstn_length. lia.
Qed.
Lemma pow_small n : n < 5 -> 256 ^ n <= W32.
Proof. intros H. change W32 with (256 ^ 4). apply N.pow_le_mono_r; [discriminate|lia]. Qed.
Lemma sm_uint k n : sm0 (NarrowReader.take_uint k n) (take_uint k n).
Proof. apply sm_n. Qed.
Lemma sm_uint_small k n : n < 5 -> sm (fun v => v < W32) (NarrowReader.take_uint k n) (take_uint k n).
Proof.
  intros H. unfold NarrowReader.take_uint, take_uint. pose proof (pow_small n H) as B.
  assert (V : forall l : bytes, lenN l <= n -> 256 ^ lenN l <= W32).
  { intros l L. etransitivity; [|exact B]. apply N.pow_le_mono_r; [discriminate|exact L]. }
  destruct (order_of k); cbn [NarrowReader.take_n take_n]; unfold NarrowReader.take_n_be, take_n_be, NarrowReader.take_n_le, take_n_le;
    (destruct (N.ltb_spec 8 n); [first [apply sm_fail|apply sm_panic]|]);
    (apply (sm_bind (fun l => lenN l <= n)); [apply sm_bytes_len|]; intros l L; specialize (V l L); apply sm_ret).
  - rewrite be_val_zeros_app. pose proof (be_val_lt l). lia.
  - rewrite le_val_app_zeros. pose proof (le_val_lt l). lia.
Qed.
Lemma narrow_small v : v < W32 -> NarrowReader.narrow v = v.
Proof. apply N.mod_small. Qed.
Lemma sm_dec_n {A} (P : A -> Prop) n (c m : rd A) : sm P c m -> sm (Forall P) (dec_n n c) (dec_n n m).
Proof.
  intros H. induction n as [|n IH]; [apply sm_ret; constructor|]. cbn [dec_n]. apply (sm_bind P); [exact H|]. intros x Hx.
  apply (sm_bind (Forall P)); [exact IH|]. intros xs Hxs. apply sm_ret. constructor; assumption.
Qed.
Lemma sm_dec_try {A} n (c m : rd A) : sm0 c m -> sm0 (dec_try n c) (dec_try n m).
Proof.
  intros H. induction n as [|n IH]; [apply sm_ret, I|]. intros d p Hs Hp. cbn [dec_try].
  destruct (H d p Hs Hp) as [E Q]; rewrite E. destruct (m d p) as [a q|e q| |]; auto.
  exact (sm_map _ _ (cons a) IH d q Hs (proj2 Q)).
Qed.
Lemma sm_dec_loop {A} fuel k (c m : rd A) : sm0 c m -> sm0 (NarrowDecode.dec_loop fuel k c) (dec_loop fuel k m).
Proof.
  intros H. induction fuel as [|fuel IH]; [intros d p _ _; cbn; auto|]. intros d p Hs Hp. cbn [NarrowDecode.dec_loop dec_loop].
  destruct (sm_starts k d p Hs Hp) as [E Q]; rewrite E. destruct (take_bytes_starts k d p) as [a q|e q| |]; auto.
  refine (sm_then _ _ _ _ _ H _ d q Hs (proj2 Q)). intros x. apply sm_map, IH.
Qed.
Lemma sm_dec_seq cs ms : Forall2 sm0 cs ms -> sm0 (dec_seq cs) (dec_seq ms).
Proof.
  induction 1 as [|c m cs ms H _ IH]; [apply sm_ret, I|]. cbn [dec_seq]. apply sm_then; [exact H|]. intros x. apply sm_map, IH.
Qed.
Lemma sm_skip_to k : sm0 (NarrowDecode.skip_to k) (skip_to k).
Proof. destruct k; [|apply sm_ret, I]. apply sm_then; [apply sm_find_needle|intros; apply sm_ret, I]. Qed.

(** The numbers of [narrow_modifiers]. *)
Definition numbers (fa : fattr) : Prop :=
  Forall (below 4294967296) [a_length fa; a_bits fa; a_count fa; a_try_count fa; a_branch fa] /\
  Forall (below 5) [a_byte_count fa; a_byte_count_outside fa].
Lemma numbers_none : numbers no_fattr.
Proof. split; repeat constructor. Qed.
Lemma numbers_bc fa n : numbers fa -> a_byte_count fa = Some n -> n < 5.
Proof. intros [_ H] E. inversion_clear H. rewrite E in *. assumption. Qed.
Lemma numbers_bco fa n : numbers fa -> a_byte_count_outside fa = Some n -> n < 5.
Proof. intros [_ H] E. inversion_clear H as [|? ? _ H']. inversion_clear H'. rewrite E in *. assumption. Qed.
Lemma numbers_linend_value s : numbers (only_linend_value s).
Proof. split; repeat constructor. Qed.
Lemma numbers_key fa : numbers fa -> numbers (key_fattr fa).
Proof. unfold key_fattr. destruct (a_split fa); auto using numbers_linend_value. Qed.
Lemma numbers_value fa : numbers fa -> numbers (value_fattr fa).
Proof. unfold value_fattr. destruct (a_linend_value fa); auto using numbers_linend_value. destruct (a_linend fa); auto. split; repeat constructor. Qed.

Lemma sm_counted {A} ca fa (c m : rd A) : numbers fa -> sm0 c m -> sm0 (NarrowDecode.dec_counted ca fa c) (dec_counted ca fa m).
Proof.
  intros N H. apply sm_then.
  - unfold NarrowDecode.get_count_and_try_count, get_count_and_try_count. destruct (a_count fa); [apply sm_ret, I|].
    destruct (a_try_count fa); [apply sm_ret, I|]. destruct (a_byte_count_outside fa) as [n|] eqn:E; [|apply sm_map, sm_u8].
    apply (sm_bind (fun v => v < W32)); [apply sm_uint_small, (numbers_bco fa n N E)|]. intros v Hv. rewrite narrow_small by exact Hv. apply sm_ret, I.
  - intros [c' [n|]]; cbn [fst snd]; [apply sm_dec_try, H|]. apply (sm_any (Forall (fun _ => True))), sm_dec_n, H.
Qed.
Lemma sm_dec_int t ca fa : fixed_width t -> sm0 (NarrowDecode.dec_int t ca fa) (dec_int t ca fa).
Proof.
  intros H. unfold NarrowDecode.dec_int, dec_int. rewrite (on32_fixed t H). apply sm_map.
  destruct (a_length fa); [|apply sm_int, H]. destruct (_ <? _); [apply sm_fail|apply sm_map, sm_uint].
Qed.
Lemma sm_dec_raw ca fa : numbers fa -> sm0 (NarrowDecode.dec_raw ca fa) (dec_raw ca fa).
Proof.
  intros N. apply sm_then; [apply sm_skip_to|intros _]. apply sm_then; [apply sm_skip_to|intros _].
  destruct (a_length fa); [apply sm_take_bytes|].
  destruct (a_byte_count fa) as [n|] eqn:E.
  { apply (sm_bind (fun v => v < W32)); [apply sm_uint_small, (numbers_bc fa n N E)|]. intros v Hv. rewrite narrow_small by exact Hv. apply sm_take_bytes. }
  destruct (a_linend fa); [apply sm_finds|]. destruct (a_linend_value fa); [apply sm_find|].
  destruct (a_remaining fa); [intros d p; apply sm_take_bytes|].
  apply sm_then; [apply sm_u8|intros; apply sm_take_bytes].
Qed.
Lemma sm_dec_string ca fa : numbers fa -> sm0 (NarrowDecode.dec_string ca fa) (dec_string ca fa).
Proof. intros N. apply sm_then; [apply sm_dec_raw, N|]. intros l. destruct (utf8_ok l); [apply sm_ret, I|apply sm_fail]. Qed.
Lemma sm_mac ca fa : sm0 (NarrowDecode.dec_mac ca fa) (dec_mac ca fa).
Proof. apply sm_map, sm_uint. Qed.
Lemma sm_ipv4 ca fa : sm0 (NarrowDecode.dec_ipv4 ca fa) (dec_ipv4 ca fa).
Proof. apply sm_map, sm_int. split; discriminate. Qed.
Lemma sm_ipv6 ca fa : sm0 (NarrowDecode.dec_ipv6 ca fa) (dec_ipv6 ca fa).
Proof. apply sm_map, sm_int. split; discriminate. Qed.
Lemma sm_ipaddr ca fa : sm0 (NarrowDecode.dec_ipaddr ca fa) (dec_ipaddr ca fa).
Proof.
  unfold NarrowDecode.dec_ipaddr, dec_ipaddr. destruct (a_length fa) as [l|]; [|apply sm_fail].
  destruct (l =? 16); [apply sm_map, sm_ipv6|]. destruct (l =? 4); [apply sm_map, sm_ipv4|apply sm_fail].
Qed.
Lemma cast_small t v : t = Usize \/ t = U32 -> v < W32 -> cast t (Z.of_N v) = Z.of_N v.
Proof.
  intros T H. unfold cast, raw_of_int, int_of_raw. destruct T as [-> | ->]; cbn [signed andb].
  - rewrite Z.mod_small, N2Z.id by (change (imod Usize) with 18446744073709551616%Z; lia). reflexivity.
  - rewrite Z.mod_small, N2Z.id by (change (imod U32) with 4294967296%Z; lia). reflexivity.
Qed.
(** A number of at most four or more than eight bytes. *)
Lemma sm_number ca fa l : a_length fa = Some l -> l <= 4 \/ 8 < l ->
  a_bits fa = None -> sm0 (NarrowDecode.dec_int Usize ca fa) (dec_int Usize ca fa).
Proof.
  intros E L NB. unfold NarrowDecode.dec_int, dec_int. rewrite E, NB. apply sm_map. cbn [NarrowReader.on32].
  change (sizeN U32) with 4. change (sizeN Usize) with 8. destruct L as [L|L].
  - destruct (N.ltb_spec 4 l); [lia|]. destruct (N.ltb_spec 8 l); [lia|].
    apply (sm_bind (fun v => v < W32)); [apply sm_uint_small; lia|]. intros v Hv. rewrite !cast_small by auto. apply sm_ret, I.
  - destruct (N.ltb_spec 4 l); [|lia]. destruct (N.ltb_spec 8 l); [|lia]. apply sm_fail.
Qed.
Definition NA (t : ty) (fa : fattr) : Prop := numbers fa /\ no_wide_address t fa.
Lemma sm_netaddr ca fa : NA TNetAddr fa -> sm0 (NarrowDecode.dec_netaddr ca fa) (dec_netaddr ca fa).
Proof.
  intros [_ H]. destruct (H eq_refl) as [L B]. clear H.
  unfold NarrowDecode.dec_netaddr, dec_netaddr. destruct (a_length fa) as [l|] eqn:E; [|apply sm_fail].
  destruct (l =? 0); [apply sm_fail|]. destruct (l =? 4); [apply sm_map, sm_ipv4|].
  destruct (N.eqb_spec l 6); [apply sm_map, sm_mac|]. destruct (l =? 16); [apply sm_map, sm_ipv6|].
  apply sm_map, (sm_number ca fa l E); [|exact B]. cbn in L. destruct (N.le_gt_cases l 4); [auto|]. destruct (N.lt_ge_cases 8 l); [auto|].
  exfalso. apply L. assert (C : l = 5 \/ l = 7 \/ l = 8) by lia. destruct C as [-> | [-> | ->] ]; auto.
Qed.

(** *** Attributes *)
Definition small_vars (l : list (nat * N)) : Prop := Forall (fun kv => snd kv < W32) l.
Lemma as_usize_small z : in_usize32 z -> NarrowDecode.as_usize z = as_usize z /\ as_usize z < W32 /\ Z.of_N (as_usize z) = z.
Proof.
  intros H. unfold in_usize32 in H. unfold NarrowDecode.as_usize, as_usize, raw_of_int.
  change (imod U32) with 4294967296%Z. change (imod Usize) with 18446744073709551616%Z.
  rewrite !Z.mod_small by lia. split; [reflexivity|]. lia.
Qed.
Lemma eval_opt_small e en : (forall x, e = Some x -> in_usize32 (x en)) ->
  NarrowDecode.eval_opt e en = eval_opt e en /\ below W32 (eval_opt e en).
Proof.
  intros H. destruct e as [x|]; cbn [NarrowDecode.eval_opt eval_opt option_map]; [|split; [reflexivity|exact I] ].
  destruct (as_usize_small _ (H x eq_refl)) as (E & L & _). rewrite E. split; [reflexivity|exact L].
Qed.
Lemma eval_opt_below e en : (forall x, e = Some x -> (0 <= x en <= 4)%Z) ->
  NarrowDecode.eval_opt e en = eval_opt e en /\ below 5 (eval_opt e en).
Proof.
  intros H. destruct e as [x|]; cbn [NarrowDecode.eval_opt eval_opt option_map]; [|split; [reflexivity|exact I] ].
  specialize (H x eq_refl). destruct (as_usize_small (x en)) as (E & L & Z); [unfold in_usize32; lia|]. rewrite E.
  split; [reflexivity|]. cbn [below]. lia.
Qed.
Lemma cast_small_int z : (- 2147483648 <= z < 2147483648)%Z -> cast I32 z = cast Isize z.
Proof.
  intros H. rewrite !cast_id; [reflexivity|..]; unfold in_range.
  - change (imin Isize) with (-9223372036854775808)%Z. change (imax Isize) with 9223372036854775807%Z. lia.
  - change (imin I32) with (-2147483648)%Z. change (imax I32) with 2147483647%Z. lia.
Qed.
Lemma narrow_modifiers_of before f t en : narrow_field before f t -> env_of before en ->
  NarrowDecode.modifiers f en = modifiers f en /\
  forall fa, modifiers f en = Some fa -> numbers fa /\ (has_address t = true -> f_use f = true /\ no_wide_address t fa).
Proof.
  intros [H _] He. destruct (H en He) as (H1 & H2 & H3 & H4). clear H.
  assert (E1 : forall e, In e [f_length f; f_bits f; f_count f; f_try_count f; f_branch f; f_offset f] ->
    NarrowDecode.eval_opt e en = eval_opt e en /\ below W32 (eval_opt e en)).
  { intros e Hi. apply eval_opt_small. intros x ->. apply H1, Hi. }
  assert (E2 : forall e, In e [f_byte_count f; f_byte_count_outside f] ->
    NarrowDecode.eval_opt e en = eval_opt e en /\ below 5 (eval_opt e en)).
  { intros e Hi. apply eval_opt_below. intros x ->. apply H2, Hi. }
  assert (O : match f_order f with
              | None => Some None
              | Some (OConst b) => Some (Some b)
              | Some (OVar e) => if Z.eqb (cast I32 (e en)) 0 then Some (Some Be) else if Z.eqb (cast I32 (e en)) 1 then Some (Some Le) else None
              end = match f_order f with
              | None => Some None
              | Some (OConst b) => Some (Some b)
              | Some (OVar e) => if Z.eqb (cast Isize (e en)) 0 then Some (Some Be) else if Z.eqb (cast Isize (e en)) 1 then Some (Some Le) else None
              end).
  { destruct (f_order f) as [[b|e]|]; try reflexivity. rewrite (cast_small_int (e en)) by (apply H3; reflexivity). reflexivity. }
  unfold NarrowDecode.modifiers, modifiers. destruct (f_use f).
  - cbv zeta. rewrite O. clear O.
    rewrite (proj1 (E1 (f_length f) ltac:(cbn; auto))), (proj1 (E1 (f_bits f) ltac:(cbn; auto))), (proj1 (E1 (f_count f) ltac:(cbn; auto))),
      (proj1 (E1 (f_try_count f) ltac:(cbn; auto))), (proj1 (E1 (f_branch f) ltac:(cbn; auto 8))),
      (proj1 (E2 (f_byte_count f) ltac:(cbn; auto))), (proj1 (E2 (f_byte_count_outside f) ltac:(cbn; auto))).
    split; [reflexivity|]. intros fa E. destruct (match f_order f with None => _ | Some _ => _ end) as [b|]; [|discriminate E].
    injection E as <-. split.
    + split; cbn [a_length a_bits a_count a_try_count a_branch a_byte_count a_byte_count_outside].
      * repeat (constructor; [apply E1; cbn; auto 8|]). constructor.
      * repeat (constructor; [apply E2; cbn; auto 8|]). constructor.
    + intros A. destruct (H4 A) as (_ & B & L). split; [reflexivity|]. intros _. cbn [a_length a_bits]. rewrite B. split; [|reflexivity].
      destruct (f_length f) as [e|] eqn:EL; cbn [eval_opt option_map]; [|cbn; intuition discriminate].
      specialize (L e eq_refl). destruct (as_usize_small (e en)) as (_ & _ & Z); [apply H1; cbn; auto|].
      intros C. apply L. cbn [In] in C |- *. assert (C' : as_usize (e en) = 5 \/ as_usize (e en) = 7 \/ as_usize (e en) = 8) by (intuition congruence). lia.
  - split; [reflexivity|]. intros fa E. injection E as <-. split; [apply numbers_none|]. intros A. destruct (H4 A) as [X _]. discriminate X.
Qed.
Lemma publish_same before f t en ca : narrow_field before f t -> env_of (before ++ [t]) en -> small_vars (k_vars ca) ->
  NarrowDecode.publish f en ca = publish f en ca /\ small_vars (k_vars (publish f en ca)).
Proof.
  intros [_ H] He Hv. specialize (H en He). unfold NarrowDecode.publish, publish. cbn [k_vars].
  revert H. generalize (k_vars ca) Hv. induction (f_vars f) as [|[k e] l IH]; intros vs Hvs H; cbn [fold_left fst snd]; [split; [reflexivity|exact Hvs]|].
  destruct (as_usize_small (e en) (H k e (or_introl eq_refl))) as (E & L & _). rewrite E. apply IH.
  - constructor; [exact L|exact Hvs].
  - intros k' e' Hi. apply (H k' e'). right. exact Hi.
Qed.
Lemma sm_advance0 n : n = 0 -> sm0 (NarrowReader.advance n) (advance n).
Proof. intros ->. intros d p Hs Hp. unfold NarrowReader.advance, advance. sm32. rewrite N.add_0_r. auto. Qed.

Lemma sm_field (c m : cattr -> fattr -> rd val) f ca fa en : no_offset f = true -> numbers fa ->
  (forall g, f_with_decode f = Some g -> forall en ca fa, stays_usize32 (g en ca fa)) ->
  sm0 (c ca fa) (m ca fa) -> sm0 (NarrowDecode.dec_field c f ca fa en) (dec_field m f ca fa en).
Proof.
  intros Ho Hn Hu Hd. unfold no_offset in Ho. destruct (f_offset f) eqn:Eo; [discriminate Ho|]. clear Ho.
  unfold NarrowDecode.dec_field, dec_field. rewrite Eo. unfold NarrowDecode.dec_offset, dec_offset. cbn [NarrowDecode.eval_opt eval_opt option_map].
  apply sm_then; [apply sm_ret, I|].
  intros _. destruct (f_with_decode f) as [g|]; [apply sm_same, Hu; reflexivity|].
  destruct (f_skip_decode f); [apply sm_ret, I|]. destruct (f_from_str f) as [[parse show]|].
  { apply sm_then; [apply sm_dec_string, Hn|]. intros l. destruct (parse l); [apply sm_ret, I|apply sm_fail]. }
  intros dt p Hs Hp. unfold bind at 1 4, get_position.
  assert (R : forall p0, p0 < W32 -> sm0 (if f_untake f then set_position p0 else ret tt) (if f_untake f then set_position p0 else ret tt)).
  { intros p0 H0. destruct (f_untake f); [|apply sm_ret, I]. intros d q _ _. cbn. auto. }
  refine (sm_then _ _ _ _ _ _ _ dt p Hs Hp).
  - destruct (f_if f) as [k|]; [destruct (k en); [exact Hd|apply sm_ret, I]|exact Hd].
  - intros v. apply sm_then; [apply R, Hp|]. intros _. cbv zeta. destruct (f_check f); [|apply sm_ret, I].
    destruct (val_eqb _ _); [apply sm_ret, I|apply sm_fail].
Qed.
Definition small_ca (ca : cattr) : Prop := small_vars (k_vars ca).
Lemma sm_fields inherit vars : small_vars vars -> forall fs before,
  Forall (fun ft => forall ca fa, small_ca ca -> NA (snd ft) fa -> sm0 (NarrowDecode.dec (snd ft) ca fa) (dec (snd ft) ca fa)) fs ->
  Forall (fun ft : fspec * ty => forall g, f_with_decode (fst ft) = Some g -> forall en ca fa, stays_usize32 (g en ca fa)) fs ->
  forallb (fun ft : fspec * ty => no_offset (fst ft)) fs = true -> typed_fields fs -> narrow_fields portable before fs ->
  forall ca prev done, small_ca ca -> numbers prev -> each (map value_of before) done ->
  sm0 (NarrowDecode.dec_fields NarrowDecode.dec inherit vars fs ca prev done) (dec_fields dec inherit vars fs ca prev done).
Proof.
  intros Hvars. induction fs as [|[f t] r IH]; intros before HF HU Ho HT HP ca prev done Hca Hprev Hdone; [apply sm_ret, I|].
  inversion HF as [|? ? Ht HF']; subst. inversion HU as [|? ? Hu HU']; subst. cbn [fst snd] in *.
  apply andb_prop in Ho. destruct Ho as [O1 O2]. destruct HT as [[T1 T2] T3]. destruct HP as (P1 & P2 & P3).
  cbn [fst] in O1. assert (He : env_of before (mkenv done vars)) by (split; assumption).
  destruct (narrow_modifiers_of before f t _ P1 He) as [E M].
  cbn [NarrowDecode.dec_fields dec_fields]. rewrite E. destruct (modifiers f (mkenv done vars)) as [own|]; [|apply sm_panic]. cbv zeta.
  destruct (M own eq_refl) as [M1 M2]. clear M E.
  set (fa := if inherit && negb (f_use f) then prev else own).
  assert (Hfa : numbers fa) by (unfold fa; destruct (_ && _); assumption).
  assert (HNA : NA t fa).
  { split; [exact Hfa|]. intros A. destruct (M2 A) as [U X]. unfold fa. rewrite U, andb_false_r. apply X, A. }
  apply (sm_bind (value_of t)).
  { apply sm_yields; [apply sm_field; auto|]. apply yields_field; [apply dec_typed|exact T2|exact T1]. }
  intros v Hv. assert (Hd : each (map value_of (before ++ [t])) (done ++ [v])).
  { rewrite map_app. apply each_app; [exact Hdone|]. cbn. auto. }
  destruct (publish_same before f t (mkenv (done ++ [v]) vars) ca P1 (conj Hd Hvars) Hca) as [E V]. rewrite E.
  apply (IH (before ++ [t])); assumption.
Qed.

(** *** Every type *)
Definition TN (t : ty) : Prop := portable t -> typed t -> offset_free t = true -> each_decoder stays_usize32 t ->
  forall ca fa, small_ca ca -> NA t fa -> sm0 (NarrowDecode.dec t ca fa) (dec t ca fa).
Lemma narrow_fields_all before fs : narrow_fields portable before fs -> Forall (fun ft => portable (snd ft)) fs.
Proof. revert before. induction fs as [|[f t] r IH]; intros before H; [constructor|]. destruct H as (_ & P & R). constructor; [exact P|exact (IH _ R)]. Qed.
Lemma typed_fields_all fs : typed_fields fs -> Forall (fun ft => typed (snd ft)) fs.
Proof. induction fs as [|[f t] r IH]; intros H; [constructor|]. destruct H as [[_ P] R]. constructor; [exact P|exact (IH R)]. Qed.
Lemma sm_fields_T inherit vars fs c prev : small_vars vars -> numbers prev -> Forall (fun ft => TN (snd ft)) fs ->
  narrow_fields portable [] fs -> typed_fields fs ->
  offset_free_fields offset_free fs = true -> Forall (with_fine stays_usize32) fs ->
  sm0 (NarrowDecode.dec_fields NarrowDecode.dec inherit vars fs (own_cattr c) prev []) (dec_fields dec inherit vars fs (own_cattr c) prev []).
Proof.
  intros Hv Hn HT HP HY HO HU. destruct (offset_free_fields_inv _ _ HO) as [O1 O2]. apply (sm_fields inherit vars Hv fs []); try assumption.
  - pose proof (narrow_fields_all _ _ HP) as P. pose proof (typed_fields_all _ HY) as Y. rewrite Forall_forall in *. intros ft Hi.
    intros ca' fa' Hca Hfa. exact (HT _ Hi (P _ Hi) (Y _ Hi) (O2 _ Hi) (proj2 (HU _ Hi)) ca' fa' Hca Hfa).
  - eapply Forall_impl; [|exact HU]. intros ft H. exact (proj1 H).
  - constructor.
  - exact I.
Qed.
Lemma sm_advance_then {A} (P : A -> Prop) n (c m : rd A) d p : small32 d -> p + n < W32 -> sm P c m ->
  (_ <- NarrowReader.advance n ;; c) d p = (_ <- advance n ;; m) d p /\
  match (_ <- advance n ;; m) d p with Ok a q => P a /\ q < W32 | Err _ q => q < W32 | _ => True end.
Proof. intros Hs Hp H. unfold bind, NarrowReader.advance, advance. sm32. apply H; assumption. Qed.
Lemma sm_arms hit eat nomatch c vars vs d : small32 d -> small_vars vars -> forall p i next, p < W32 ->
  Forall (fun vf => Forall (fun ft => TN (snd ft)) (snd vf)) vs ->
  every (fun vf : vspec * list (fspec * ty) => narrow_field [] (v_attr (fst vf)) TUnit /\ narrow_fields portable [] (snd vf)) vs ->
  all_of_them (fun vf : vspec * list (fspec * ty) => let (v, fs) := vf in typed_fields fs) vs ->
  forallb (fun vf : vspec * list (fspec * ty) => no_offset (v_attr (fst vf)) && offset_free_fields offset_free (snd vf)) vs = true ->
  every (fun vf : vspec * list (fspec * ty) => Forall (with_fine stays_usize32) (snd vf)) vs ->
  (forall v n, hit v n = true -> p + eat v < W32) ->
  let a := NarrowDecode.dec_arms NarrowDecode.dec hit eat nomatch (own_cattr c) vars vs i next in
  let b := dec_arms dec hit eat nomatch (own_cattr c) vars vs i next in
  a d p = b d p /\ match b d p with Ok _ q => True /\ q < W32 | Err _ q => q < W32 | _ => True end.
Proof.
  intros Hs Hv p. induction vs as [|[v fs] r IH]; intros i next Hp HT HP HY HO HU Heat; [cbn; auto|].
  inversion HT as [|? ? HT1 HT2]; subst. cbn [snd] in HT1. cbn [forallb fst snd] in HO. apply andb_prop in HO. destruct HO as [O1 O2].
  apply andb_prop in O1. destruct O1 as [Oa Ob]. destruct HP as [[P1 P2] P3]. destruct HY as [Y1 Y2]. destruct HU as [U1 U2]. cbn [fst snd] in *.
  cbn zeta. cbn [NarrowDecode.dec_arms dec_arms]. destruct (hit v (variant_index v next)) eqn:Eh.
  2:{ apply IH; assumption. }
  specialize (Heat _ _ Eh). apply (sm_advance_then (fun _ => True)); [exact Hs|exact Heat|].
  destruct (narrow_modifiers_of [] (v_attr v) TUnit (mkenv [] vars) P1) as [E M]; [split; [exact I|exact Hv]|]. rewrite E.
  destruct (modifiers (v_attr v) (mkenv [] vars)) as [prev|]; [|apply sm_panic].
  unfold NarrowDecode.dec_offset, dec_offset. unfold no_offset in Oa. destruct (f_offset (v_attr v)); [discriminate Oa|].
  cbn [NarrowDecode.eval_opt eval_opt option_map]. apply sm_then; [apply sm_ret, I|].
  intros _. apply sm_map. apply sm_fields_T; try assumption. apply (M prev eq_refl).
Qed.
Lemma na_sub f t u : (has_address t = true -> has_address u = true) -> NA u f -> NA t f.
Proof. intros H [N W]. split; [exact N|]. intros A. apply W, H, A. Qed.
Lemma na_linend_value t s : NA t (only_linend_value s).
Proof. split; [apply numbers_linend_value|]. intros _. cbn. intuition discriminate. Qed.
Lemma na_key fa t u : (has_address t = true -> has_address u = true) -> NA u fa -> NA t (key_fattr fa).
Proof. intros H N. unfold key_fattr. destruct (a_split fa); [apply na_linend_value|exact (na_sub _ _ _ H N)]. Qed.
Lemma na_value fa t u : (has_address t = true -> has_address u = true) -> NA u fa -> NA t (value_fattr fa).
Proof.
  intros H N. unfold value_fattr. destruct (a_linend_value fa); [apply na_linend_value|].
  destruct (a_linend fa); [|exact (na_sub _ _ _ H N)]. split; [split; repeat constructor|]. intros _. cbn. intuition discriminate.
Qed.
Theorem sm_dec t : TN t.
Proof.
  induction t as [t Hl|n t IH|ts IH|t IH|t IH|k v IHk IHv|t IH|named c fs IH|e vs IH] using ty_nested_ind;
    intros HP HY HO HU ca fa Hca Hfa.
  - destruct t; try discriminate Hl; cbn [NarrowDecode.dec dec]; try apply sm_map; try (apply sm_ret, I).
    + apply sm_dec_int, HP.
    + apply sm_bool.
    + apply sm_char.
    + apply sm_fixed.
    + apply sm_fixed.
    + apply sm_dec_raw, Hfa.
    + apply sm_dec_string, Hfa.
    + apply sm_mac.
    + apply sm_ipv4.
    + apply sm_ipv6.
    + apply sm_ipaddr.
    + apply sm_netaddr, Hfa.
    + apply sm_same, HU.
  - cbn [NarrowDecode.dec dec]. apply sm_map. apply (sm_any (Forall (fun _ => True))), sm_dec_n, IH; assumption.
  - cbn [NarrowDecode.dec dec]. apply sm_map, sm_dec_seq. cbn [offset_free] in HO. cbn [each_decoder] in HU. cbn [portable] in HP. cbn [typed] in HY.
    induction IH as [|t ts Ht _ IHr]; [constructor|]. cbn [map forallb] in *. apply andb_prop in HO. destruct HO as [O1 O2].
    constructor.
    + apply Ht; [apply HP|apply HY|exact O1|apply HU|exact Hca|]. apply (na_sub _ t (TTuple (t :: ts))); [|exact Hfa]. intros x. cbn [has_address existsb]. rewrite x. reflexivity.
    + apply IHr; [apply HP|apply HY|exact O2|apply HU|]. apply (na_sub _ (TTuple ts) (TTuple (t :: ts))); [|exact Hfa]. intros x. cbn [has_address existsb] in *. rewrite x. apply Bool.orb_true_r.
  - cbn [NarrowDecode.dec dec]. assert (Hfa' := na_sub _ _ _ (fun x : has_address t = true => x : has_address (TVec t) = true) Hfa). destruct (a_loop fa) as [m|].
    + apply sm_map. intros d p. apply sm_dec_loop, IH; assumption.
    + apply sm_map, sm_counted; [apply Hfa|apply IH; assumption].
  - cbn [NarrowDecode.dec dec]. assert (Hfa' := na_sub _ _ _ (fun x : has_address t = true => x : has_address (TSet t) = true) Hfa).
    apply sm_map, sm_counted; [apply Hfa|apply IH; assumption].
  - cbn [NarrowDecode.dec dec]. apply sm_map, sm_counted; [apply Hfa|]. apply andb_prop in HO. destruct HO as [O1 O2].
    apply sm_then; [apply IHk; try assumption; [apply HP|apply HY|apply HU|]|].
    + apply (na_key fa k (TMap k v)); [|exact Hfa]. intros x. cbn [has_address]. rewrite x. reflexivity.
    + intros a. apply sm_map, IHv; try assumption; [apply HP|apply HY|apply HU|].
      apply (na_value fa v (TMap k v)); [|exact Hfa]. intros x. cbn [has_address]. rewrite x. apply Bool.orb_true_r.
  - cbn [NarrowDecode.dec dec]. assert (Hfa' := na_sub _ _ _ (fun x : has_address t = true => x : has_address (TOption t) = true) Hfa).
    intros d p Hs Hp. destruct (a_length fa) as [[|l]|]; [cbn; auto|..];
    (destruct (IH HP HY HO HU ca fa Hca Hfa' d p Hs Hp) as [E Q]; rewrite E; destruct (dec t ca fa d p); tauto).
  - cbn [NarrowDecode.dec dec]. apply sm_map. apply sm_fields_T; try assumption; [apply numbers_none|apply with_fine_all, HU].
  - assert (HU' : every (fun vf : vspec * list (fspec * ty) => Forall (with_fine stays_usize32) (snd vf)) vs).
    { cbn [each_decoder] in HU. clear - HU. induction vs as [|vf vs IHv]; [exact I|].
      split; [apply with_fine_all, HU|apply IHv, HU]. }
    cbn [portable] in HP. destruct HP as (P1 & P2 & P3). destruct HY as [_ HY].
    cbn [NarrowDecode.dec dec]. destruct vs as [|v0 r]; [apply sm_ret, I|]. destruct (e_branching e).
    + apply sm_then.
      * unfold NarrowDecode.enum_tag, enum_tag. destruct (a_branch fa); [apply sm_ret, I|].
        assert (G : forall n, n < 5 -> sm0 (v <- NarrowReader.take_uint (ko ca fa) n ;; ret (NarrowReader.narrow v)) (take_uint (ko ca fa) n)).
        { intros n L d p Hs Hp. destruct (sm_uint_small (ko ca fa) n L d p Hs Hp) as [E Q]. unfold bind. rewrite E.
          destruct (take_uint (ko ca fa) n d p) as [x q|x q| |]; auto. destruct Q as [Q1 Q2]. rewrite (narrow_small x Q1). auto. }
        destruct (a_byte_count fa) as [n|] eqn:Eb; [apply G, (numbers_bc fa n (proj1 Hfa) Eb)|].
        destruct (c_byte_count (e_c e)) as [n|]; [|apply sm_u8]. cbn [below] in P1. rewrite (narrow_small n) by lia. apply G, P1.
      * intros tag d p Hs Hp. apply sm_arms; try assumption. intros. lia.
    + intros d p Hs Hp. apply sm_arms; try assumption. intros v n Hh. destruct (v_default v); [lia|].
      cbn in Hh. apply starts_len in Hh. exact (rem32 d p _ Hs Hp Hh).
    + intros d p Hs Hp. apply sm_arms; try assumption. intros. lia.
    + rewrite (narrow_small n P2). apply sm_then; [apply sm_take_bytes|]. intros x d p Hs Hp. apply sm_arms; try assumption. intros. lia.
Qed.
