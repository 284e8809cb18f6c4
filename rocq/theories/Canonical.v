(** What a canonical schema decodes is encoded to the bytes it was decoded from. *)
From Verif Require Import Base Ints Reader Writer Spec SpecOps.
From Verif Require Import BaseLemmas ReaderLemmas ReaderHist WriterLemmas WriterHist CodecBase BitsLemmas EncLemmas DecLemmas DecWire Collections Locality RoundTrip.
From Verif Require Import Schema RunSpec Utf8 Decode Encode WireSpec CanonSpec.

(** [m] consumes bytes that stand in relation [R] to its result. *)
Definition consumes {A} (R : A -> bytes -> Prop) (m : rd A) : Prop :=
  forall d p a q, small d -> p <= lenN d -> m d p = Ok a q -> p <= q /\ q <= lenN d /\ R a (sub d p (q - p)).

Lemma consumes_weak {A} (R S : A -> bytes -> Prop) m : (forall a w, R a w -> S a w) -> consumes R m -> consumes S m.
Proof. intros H Hm d p a q Hs Hp E. destruct (Hm _ _ _ _ Hs Hp E) as (H1 & H2 & H3). auto. Qed.
Lemma consumes_ret {A} (R : A -> bytes -> Prop) a : R a [] -> consumes R (ret a).
Proof.
  intros H d p b q _ Hp E. injection E as <- <-. rewrite N.sub_diag, sub_0. repeat split; [lia|exact Hp|exact H].
Qed.
Lemma consumes_fail {A} (R : A -> bytes -> Prop) k : consumes R (fail k).
Proof. intros d p b q _ Hp E. discriminate. Qed.
Lemma consumes_panic {A} (R : A -> bytes -> Prop) : consumes R panic.
Proof. intros d p b q _ Hp E. discriminate. Qed.
Lemma consumes_bind {A B} (R : A -> bytes -> Prop) (S : B -> bytes -> Prop) m k :
  consumes R m -> (forall a w, R a w -> consumes (fun b w' => S b (w ++ w')) (k a)) -> consumes S (bind m k).
Proof.
  intros Hm Hk d p b q Hs Hp E. apply bind_ok in E as (a & q' & E1 & E2).
  destruct (Hm _ _ _ _ Hs Hp E1) as (H1 & H2 & H3).
  destruct (Hk a _ H3 _ _ _ _ Hs H2 E2) as (H4 & H5 & H6).
  split; [lia|]. split; [exact H5|].
  replace (q - p) with ((q' - p) + (q - q')) by lia. rewrite sub_split. replace (p + (q' - p)) with q' by lia. exact H6.
Qed.
Lemma consumes_map {A B} (R : A -> bytes -> Prop) (S : B -> bytes -> Prop) m (f : A -> B) :
  consumes R m -> (forall a w, R a w -> S (f a) w) -> consumes S (a <- m ;; ret (f a)).
Proof.
  intros Hm H. eapply consumes_bind; [exact Hm|]. intros a w Hw. apply consumes_ret. rewrite app_nil_r. auto.
Qed.

Lemma consumes_bytes n : consumes (fun l w => l = w /\ lenN w = n) (take_bytes n).
Proof.
  intros d p l q Hs Hp E. destruct (N.le_gt_cases (p + n) (lenN d)).
  - rewrite take_bytes_in in E by assumption. injection E as <- <-. replace (p + n - p) with n by lia.
    repeat split; [lia|lia|apply lenN_sub; assumption].
  - rewrite take_bytes_out in E by auto. discriminate.
Qed.
Lemma consumes_byte {A} (f : byte -> A) :
  consumes (fun a w => exists b, w = [b] /\ a = f b) (l <- take_bytes 1 ;; b <- idx0 l ;; ret (f b)).
Proof.
  eapply consumes_bind; [apply consumes_bytes|]. intros l w [-> H].
  destruct w as [|b [|? ?]]; [discriminate H| |exfalso; rewrite !lenN_cons in H; lia].
  cbn [idx0]. apply consumes_ret with (R := fun a w' => exists b0, [b] ++ w' = [b0] /\ a = f b0). exists b. split; reflexivity.
Qed.
Lemma consumes_u8 : consumes (fun v w => w = [n2b v] /\ v < 256) take_u8.
Proof.
  eapply consumes_weak; [|apply (consumes_byte b2n)]. intros a w (b & -> & ->). rewrite n2b_b2n. split; [reflexivity|apply b2n_lt].
Qed.
Lemma consumes_fixed bo n : consumes (fun v w => lenN w = n /\ v = from_bytes bo w) (take_fixed bo n).
Proof.
  unfold take_fixed. eapply consumes_map; [apply consumes_bytes|]. intros l w [-> H]. auto.
Qed.
Lemma consumes_int k t : consumes (fun z w => lenN w = sizeN t /\ z = int_of_raw t (from_bytes (order_of k) w)) (take_int k t).
Proof.
  intros d p z q Hs Hp E. destruct (N.le_gt_cases (p + sizeN t) (lenN d)).
  - rewrite take_int_in in E by assumption. injection E as <- <-. replace (p + sizeN t - p) with (sizeN t) by lia.
    repeat split; [lia|lia|apply lenN_sub; assumption].
  - rewrite take_int_out in E by assumption. discriminate.
Qed.
Lemma consumes_uint bo n : consumes (fun v w => lenN w = n /\ n <= 8 /\ v = from_bytes bo w) (take_uint (KOrder bo) n).
Proof.
  intros d p z q Hs Hp E. unfold take_uint in E. cbn [order_of] in E.
  destruct (N.le_gt_cases n 8) as [H8|H8].
  - destruct (N.le_gt_cases (p + n) (lenN d)).
    + rewrite take_n_in in E by assumption. injection E as <- <-. replace (p + n - p) with n by lia.
      repeat split; [lia|lia|apply lenN_sub; assumption|exact H8].
    + rewrite take_n_out in E by auto. discriminate.
  - destruct bo; [rewrite take_n_be_big in E by exact H8|rewrite take_n_le_big in E by exact H8]; discriminate.
Qed.
Lemma digits_back bo w n : lenN w = n -> digits bo (N.to_nat n) (from_bytes bo w) = w.
Proof. intros <-. rewrite digits_to_bytes, to_nat_lenN. apply to_from_bytes. Qed.

Definition as_wire (t : ty) (ca : cattr) (fa : fattr) (v : val) (w : bytes) : Prop := wire t ca fa v = Some w.
Definition K (t : ty) : Prop := forall ca fa, canonical t fa -> well_formed t -> consumes (as_wire t ca fa) (dec t ca fa).

(** ** Leaves *)
Lemma int_wire it ca fa w : a_bits fa = None -> a_length fa = None -> lenN w = sizeN it ->
  wire_int it ca fa (int_of_raw it (from_bytes (get_byteorder ca fa) w)) = Some w.
Proof.
  intros Hb Hl Hw. unfold wire_int. rewrite Hb, Hl.
  pose proof (from_bytes_lt (get_byteorder ca fa) w) as Hlt. rewrite Hw in Hlt.
  pose proof (int_of_raw_range it _ Hlt) as Hr. apply value_inb_range in Hr. rewrite Hr. cbn [negb].
  rewrite unsigned_raw, raw_of_int_of_raw by exact Hlt.
  rewrite order_for_get1, width_sizeN, digits_back by exact Hw. reflexivity.
Qed.
Lemma length_wire it ca fa l w : a_bits fa = None -> a_length fa = Some l -> l <= sizeN it -> l <= 8 -> lenN w = l ->
  wire_int it ca fa (cast it (Z.of_N (from_bytes (get_byteorder ca fa) w))) = Some w.
Proof.
  intros Hb Hl Hi H8 Hw. unfold wire_int. rewrite Hb, Hl, width_sizeN.
  pose proof (cast_range it (Z.of_N (from_bytes (get_byteorder ca fa) w))) as Hr. apply value_inb_range in Hr. rewrite Hr.
  cbn [negb]. rewrite (proj2 (N.leb_le l (sizeN it)) Hi), (proj2 (N.leb_le l 8) H8). cbn [andb]. f_equal.
  rewrite order_for_get1. set (u := from_bytes (get_byteorder ca fa) w) in *.
  assert (Hu : u < 256 ^ l) by (unfold u; rewrite <- Hw; apply from_bytes_lt).
  assert (E : digits (get_byteorder ca fa) (N.to_nat l) (unsigned U64 (cast it (Z.of_N u))) = digits (get_byteorder ca fa) (N.to_nat l) u).
  { rewrite !digits_to_bytes. rewrite <- to_bytes_mod, <- (to_bytes_mod _ _ u). f_equal. rewrite N2Nat.id.
    rewrite unsigned_raw. unfold cast.
    replace (raw_of_int it (Z.of_N u)) with u.
    2:{ unfold raw_of_int. rewrite <- imod_pow256, <- N2Z.inj_mod, N2Z.id. symmetry. apply N.mod_small.
        eapply N.lt_le_trans; [exact Hu|]. apply N.pow_le_mono_r; lia. }
    unfold int_of_raw. destruct (signed it && (imod it / 2 <=? Z.of_N u)%Z).
    - unfold raw_of_int. rewrite <- !imod_pow256. change (sizeN U64) with 8.
      apply N2Z.inj. pose proof (pow256_pos l). pose proof (pow256_pos 8).
      rewrite !N2Z.inj_mod, Z2N.id by (apply Z.mod_pos_bound; lia).
      rewrite mod_pow_le by exact H8.
      replace (sizeN it) with (l + (sizeN it - l)) by lia. rewrite N.pow_add_r, N2Z.inj_mul.
      rewrite Z.mul_comm. rewrite <- (Z.add_opp_r (Z.of_N u)), Zopp_mult_distr_l. apply Z_mod_plus_full.
    - unfold raw_of_int. rewrite <- !imod_pow256. change (sizeN U64) with 8.
      apply N2Z.inj. pose proof (pow256_pos l). pose proof (pow256_pos 8).
      rewrite !N2Z.inj_mod, Z2N.id by (apply Z.mod_pos_bound; lia).
      apply mod_pow_le, H8. }
  rewrite E. unfold u. apply digits_back, Hw.
Qed.
Lemma consumes_dec_int it ca fa : a_bits fa = None -> consumes (fun z w => wire_int it ca fa z = Some w) (dec_int it ca fa).
Proof.
  intros Hb. unfold dec_int. rewrite Hb. eapply consumes_map; [|intros a w H; exact H].
  destruct (a_length fa) as [l|] eqn:El.
  - destruct (N.ltb_spec (sizeN it) l); [apply consumes_fail|].
    eapply consumes_map; [apply consumes_uint|]. intros v w (H1 & H2 & ->).
    eapply length_wire; eauto; lia.
  - eapply consumes_weak; [|apply consumes_int]. intros z w [H1 ->]. apply int_wire; assumption.
Qed.
Lemma consumes_find s : consumes (fun l w => w = l ++ s) (find_subsequence s).
Proof.
  intros d p l q Hs Hp E. unfold find_subsequence in E.
  destruct (memmem_find s (remaining d p)) as [i|] eqn:Em; [|discriminate].
  destruct (found _ _ _ Em) as [Hh Hi]. apply memmem_some in Em as [Ho _]. apply occurs_len in Ho.
  rewrite remaining_in in * by exact Hp. rewrite skipn_length in *. unfold small, lenN in *.
  apply slice_ok_inv in E as [-> E].
  rewrite !wadd_small in * by (rewrite ?wadd_small by lia; lia).
  rewrite slice_get_ok in E by (unfold lenN; lia). injection E as <-.
  split; [lia|]. split; [lia|].
  replace (p + (N.of_nat i + N.of_nat (length s)) - p) with (N.of_nat i + N.of_nat (length s)) by lia.
  replace (p + N.of_nat i - p) with (N.of_nat i) by lia.
  rewrite sub_split. f_equal. unfold sub. rewrite !Nat2N.id.
  replace (N.to_nat (p + N.of_nat i)) with (N.to_nat p + i)%nat by lia. rewrite skipn_add.
  set (h := skipn (N.to_nat p) d) in *. rewrite Hh.
  rewrite skipn_app, skipn_all2 by (rewrite firstn_length; lia).
  rewrite firstn_length. replace (i - min i (length h))%nat with 0%nat by (unfold h; rewrite skipn_length; lia).
  cbn [skipn app]. rewrite firstn_app, firstn_all. replace (length s - length s)%nat with 0%nat by lia.
  cbn [firstn]. apply app_nil_r.
Qed.
Lemma consumes_dec_raw ca fa : canonical_frame fa -> consumes (fun l w => frame ca fa l = Some w) (dec_raw ca fa).
Proof.
  intros (Hk & Hsp & Hc). unfold dec_raw, frame. rewrite Hk, Hsp. cbn [skip_to optional app].
  eapply consumes_bind; [apply consumes_ret with (R := fun _ w => w = []); reflexivity|]. intros _ w ->.
  eapply consumes_bind; [apply consumes_ret with (R := fun _ w => w = []); reflexivity|]. intros _ w ->. cbn [app].
  destruct (a_length fa) as [n|].
  - eapply consumes_weak; [|apply consumes_bytes]. intros l w [-> _]. reflexivity.
  - destruct (a_byte_count fa) as [n|].
    + eapply consumes_bind; [apply consumes_uint|]. intros v w (H1 & H2 & H3).
      eapply consumes_weak; [|apply consumes_bytes]. intros l w' [-> H4]. cbn [option_map].
      rewrite (proj2 (N.leb_le n 8) H2). cbn [option_map]. do 2 f_equal.
      change size with (@lenN byte). rewrite H4, H3, order_for_get1. apply digits_back, H1.
    + rewrite Hc. destruct (a_linend_value fa) as [s|].
      * eapply consumes_weak; [|apply consumes_find]. intros l w ->. reflexivity.
      * destruct (a_remaining fa).
        -- intros d p l q Hs Hp E. destruct (consumes_bytes _ _ _ _ _ Hs Hp E) as (H1 & H2 & H3 & _).
           rewrite <- H3. split; [exact H1|]. split; [exact H2|]. reflexivity.
        -- eapply consumes_bind; [apply consumes_u8|]. intros v w [-> Hv].
           eapply consumes_weak; [|apply consumes_bytes]. intros l w' [-> H4]. cbn [option_map app].
           change size with (@lenN byte). rewrite H4. reflexivity.
Qed.

Lemma octets_back bo w : octets bo (to_be (length w) (from_bytes bo w)) = w.
Proof.
  rewrite octets_to_bytes. rewrite to_be_length. rewrite (from_to_bytes Be : forall n v, be_val (to_be n v) = _).
  rewrite to_bytes_mod. apply to_from_bytes.
Qed.
Definition address (ca : cattr) (fa : fattr) (n : N) (l w : bytes) : Prop :=
  (if size l =? n then Some (octets (order_for ca fa) l) else None) = Some w.
Lemma address_of ca fa n w : lenN w = n -> address ca fa n (to_be (N.to_nat n) (from_bytes (get_byteorder ca fa) w)) w.
Proof.
  intros <-. unfold address, size. rewrite to_be_length, N2Nat.id, N.eqb_refl, order_for_get1, to_nat_lenN, octets_back. reflexivity.
Qed.
Lemma consumes_mac ca fa : consumes (address ca fa 6) (dec_mac ca fa).
Proof.
  unfold dec_mac, ko. eapply consumes_map; [apply consumes_uint|]. intros v w (H1 & _ & ->).
  rewrite (skipn_to_be 6 8) by lia. apply (address_of ca fa 6 w H1).
Qed.
Lemma raw_unsigned it u : signed it = false -> Z.to_N (int_of_raw it u) = u.
Proof. intros H. unfold int_of_raw. rewrite H. cbn [andb]. apply N2Z.id. Qed.
Lemma consumes_ipv4 ca fa : consumes (address ca fa 4) (dec_ipv4 ca fa).
Proof.
  unfold dec_ipv4, ko. eapply consumes_map; [apply consumes_int|]. intros v w (H1 & ->).
  rewrite raw_unsigned by reflexivity. apply (address_of ca fa 4 w H1).
Qed.
Lemma consumes_ipv6 ca fa : consumes (address ca fa 16) (dec_ipv6 ca fa).
Proof.
  unfold dec_ipv6, ko. eapply consumes_map; [apply consumes_int|]. intros v w (H1 & ->).
  rewrite raw_unsigned by reflexivity. apply (address_of ca fa 16 w H1).
Qed.
Lemma documented_consumes doc (d : cattr -> fattr -> rd val) : reads_what_is_documented doc d ->
  (forall ca fa, stays_inside (d ca fa)) -> forall ca fa, consumes (fun v w => d_wire doc ca fa v = Some w) (d ca fa).
Proof.
  intros HR HS ca fa dt p v q Hs Hp E. pose proof (HS ca fa dt p Hs Hp) as Hq. rewrite E in Hq.
  change (p <= q <= lenN dt) in Hq. split; [lia|]. split; [lia|].
  assert (Hd : dt = firstn (N.to_nat p) dt ++ sub dt p (q - p) ++ skipn (N.to_nat q) dt).
  { unfold sub. rewrite <- (firstn_skipn (N.to_nat p) dt) at 1. f_equal.
    rewrite <- (firstn_skipn (N.to_nat (q - p)) (skipn (N.to_nat p) dt)) at 1. f_equal.
    rewrite <- skipn_add. f_equal. lia. }
  assert (HL : size (firstn (N.to_nat p) dt) = p) by (unfold size, lenN in *; rewrite firstn_length; lia).
  apply (HR ca fa (firstn (N.to_nat p) dt) _ (skipn (N.to_nat q) dt) v q); rewrite <- ?Hd, ?HL; [exact Hs|exact E|].
  change (size (sub dt p (q - p))) with (lenN (sub dt p (q - p))). rewrite lenN_sub by lia. lia.
Qed.
Lemma K_leaf t : leaf t = true -> K t.
Proof.
  intros Hl ca fa Hc _. destruct t; try discriminate Hl; cbn [dec]; cbn [canonical] in Hc; try contradiction; unfold as_wire; cbn [wire].
  - eapply consumes_map; [apply consumes_dec_int, Hc|]. auto.
  - eapply consumes_map; [apply consumes_u8|]. intros v w [-> H]. reflexivity.
  - eapply consumes_map; [apply consumes_fixed|]. intros v w [H ->]. f_equal.
    rewrite order_for_get1. apply (digits_back _ w 4 H).
  - eapply consumes_map; [apply consumes_fixed|]. intros v w [H ->]. f_equal.
    rewrite order_for_get1. apply (digits_back _ w 8 H).
  - eapply consumes_map; [apply consumes_dec_raw, Hc|]. auto.
  - eapply consumes_map; [|intros a w H; exact H]. unfold dec_string.
    eapply consumes_bind; [apply consumes_dec_raw, Hc|]. intros l w H. destruct (utf8_ok l); [|apply consumes_fail].
    apply consumes_ret. rewrite app_nil_r. exact H.
  - eapply consumes_map; [apply consumes_mac|]. auto.
  - eapply consumes_map; [apply consumes_ipv4|]. auto.
  - eapply consumes_map; [apply consumes_ipv6|]. auto.
  - unfold dec_ipaddr. destruct (a_length fa) as [l|]; [|apply consumes_fail].
    destruct (l =? 16); [|destruct (l =? 4); [|apply consumes_fail]];
      (eapply consumes_map; [first [apply consumes_ipv4|apply consumes_ipv6]|]); auto.
  - unfold dec_netaddr. destruct (a_length fa) as [l|]; [|apply consumes_fail].
    destruct (l =? 0); [apply consumes_fail|].
    destruct (l =? 4); [|destruct (l =? 6); [|destruct (l =? 16)]];
      (eapply consumes_map; [first [apply consumes_ipv4|apply consumes_mac|apply consumes_ipv6|apply consumes_dec_int, Hc]|]); auto.
  - apply consumes_ret. reflexivity.
  - exact (documented_consumes _ _ (proj1 Hc) (proj2 Hc) ca fa).
Qed.

(** ** Collections *)
Lemma all_of_snoc a w l w' : a = Some w -> all_of l = Some w' -> all_of (a :: l) = Some (w ++ w').
Proof. intros -> H. cbn [all_of]. rewrite H. reflexivity. Qed.
Lemma consumes_n {A} (W : A -> option bytes) d n : consumes (fun x w => W x = Some w) d ->
  consumes (fun l w => length l = n /\ all_of (map W l) = Some w) (dec_n n d).
Proof.
  intros Hd. induction n as [|n IH]; cbn [dec_n]; [apply consumes_ret; auto|].
  eapply consumes_bind; [exact Hd|]. intros x w Hx. eapply consumes_map; [exact IH|].
  intros l w' [Hl Hw]. cbn [map length]. split; [congruence|]. apply all_of_snoc; assumption.
Qed.
Lemma consumes_starts m : consumes (fun _ w => w = m) (take_bytes_starts m).
Proof.
  intros d p u q Hs Hp E. unfold take_bytes_starts in E.
  destruct (remaining_len d p <? lenN m); [discriminate|].
  destruct (starts_with m (remaining d p)) eqn:Em; [|discriminate].
  apply starts_with_iff in Em as [r Hr]. rewrite remaining_in in Hr by exact Hp.
  assert (HL : lenN m + p <= lenN d).
  { apply (f_equal (@length byte)) in Hr. rewrite skipn_length, app_length in Hr. unfold lenN in *. lia. }
  injection E as _ <-. unfold small in Hs. rewrite wadd_small by lia. split; [lia|]. split; [lia|].
  replace (p + lenN m - p) with (lenN m) by lia. unfold sub. rewrite Hr, to_nat_lenN.
  rewrite firstn_app, firstn_all, Nat.sub_diag. apply app_nil_r.
Qed.
Lemma starts_stays m d p e q : take_bytes_starts m d p = Err e q -> q = p.
Proof.
  unfold take_bytes_starts. destruct (_ <? _); [congruence|]. destruct (starts_with _ _); congruence.
Qed.
Lemma consumes_loop {A} (W : A -> option bytes) m d n : consumes (fun x w => W x = Some w) d ->
  consumes (fun l w => all_of (map (fun x => and_then (Some m) (W x)) l) = Some w) (dec_loop n m d).
Proof.
  intros Hd. induction n as [|n IH]; cbn [dec_loop]; intros dt p l q Hs Hp E; [discriminate|].
  destruct (take_bytes_starts m dt p) as [u p'|e p'| |] eqn:Em; try discriminate.
  - refine (consumes_bind (fun _ w => w = m) (fun l w => all_of (map (fun x => and_then (Some m) (W x)) l) = Some w) (take_bytes_starts m) (fun _ => x <- d ;; xs <- dec_loop n m d ;; ret (x :: xs))
              (consumes_starts m) _ dt p l q Hs Hp _); [|unfold bind at 1; rewrite Em; exact E].
    intros _ w ->. eapply consumes_bind; [exact Hd|]. intros x w Hx. eapply consumes_map; [exact IH|].
    intros xs w' Hw. cbn [map]. rewrite app_assoc. apply all_of_snoc; [|exact Hw]. rewrite Hx. apply and_then_eq.
  - injection E as <- <-. rewrite (starts_stays _ _ _ _ _ Em). rewrite N.sub_diag, sub_0. repeat split; [lia|exact Hp].
Qed.
Lemma consumes_counted {A} (W : A -> option bytes) ca fa d : canonical_count fa -> consumes (fun x w => W x = Some w) d ->
  consumes (fun l w => and_then (count_prefix ca fa (N.of_nat (length l))) (all_of (map W l)) = Some w) (dec_counted ca fa d).
Proof.
  intros [Ht Hc] Hd. unfold dec_counted, get_count_and_try_count, count_prefix. rewrite Ht.
  destruct (a_count fa) as [c|].
  - destruct Hc as [Hc|Hc]; [discriminate|]. rewrite Hc.
    eapply consumes_bind; [apply consumes_ret with (R := fun a w => a = (c, None) /\ w = []); auto|].
    intros a w [-> ->]. cbn [fst snd app]. eapply consumes_weak; [|apply consumes_n, Hd].
    intros l w [_ H]. rewrite H. rewrite and_then_eq. reflexivity.
  - destruct (a_byte_count_outside fa) as [n|].
    + eapply consumes_bind; [eapply consumes_map with (S := fun a w => snd a = None /\ lenN w = n /\ n <= 8 /\ fst a = from_bytes (get_byteorder ca fa) w);
        [apply consumes_uint|cbn [fst snd]; auto]|].
      intros [c o] w (H0 & H1 & H2 & H3). cbn [fst snd] in *. subst o.
      eapply consumes_weak; [|apply consumes_n, Hd]. intros l w' [HL H]. rewrite H.
      rewrite (proj2 (N.leb_le n 8) H2), and_then_eq. do 2 f_equal. rewrite HL, N2Nat.id, H3, order_for_get1.
      apply digits_back, H1.
    + eapply consumes_bind; [eapply consumes_map with (S := fun a w => snd a = None /\ w = [n2b (fst a)]);
        [apply consumes_u8|cbn [fst snd]; intuition]|].
      intros [c o] w (H0 & H1). cbn [fst snd] in *. subst o w.
      eapply consumes_weak; [|apply consumes_n, Hd]. intros l w' [HL H]. rewrite H.
      rewrite and_then_eq. do 3 f_equal. rewrite HL, N2Nat.id. reflexivity.
Qed.
Lemma consumes_seq ts ca fa : Forall K ts -> every (fun p : Prop => p) (map (fun t => canonical t fa) ts) ->
  every (fun p : Prop => p) (map well_formed ts) ->
  consumes (fun l w => zip_wire (fun w x => w x) (map (fun t => wire t ca fa) ts) l = Some w) (dec_seq (map (fun t => dec t ca fa) ts)).
Proof.
  induction 1 as [|t ts Ht _ IH]; cbn [map every dec_seq]; intros Hc Hw; [apply consumes_ret; reflexivity|].
  destruct Hc as [Hc Hcs], Hw as [Hw Hws].
  eapply consumes_bind; [apply Ht; assumption|]. intros x w Hx. eapply consumes_map; [apply IH; assumption|].
  intros l w' Hl. cbn [zip_wire]. rewrite Hx, Hl. apply and_then_eq.
Qed.

(** ** Bit fields *)
Lemma lowest_divides mask : mask mod 2 ^ lowest mask = 0.
Proof.
  destruct mask as [|p]; [reflexivity|]. cbn [lowest]. induction p as [q IH|q IH|]; cbn [low_zeros].
  - change (2 ^ 0) with 1. apply N.mod_1_r.
  - rewrite N.pow_add_r. change (2 ^ 1) with 2. change (N.pos q~0) with (2 * N.pos q).
    rewrite N.mul_mod_distr_l by (try lia; apply N.pow_nonzero; lia). lia.
  - reflexivity.
Qed.
Lemma land_le a b : N.land a b <= b.
Proof.
  assert (H : N.ldiff (N.land a b) b = 0).
  { apply N.bits_inj. intros i. rewrite N.ldiff_spec, N.land_spec, N.bits_0. destruct (N.testbit a i), (N.testbit b i); reflexivity. }
  apply N.ldiff_le, H.
Qed.
Lemma under_back mask word : under mask word * 2 ^ lowest mask = N.land word mask.
Proof.
  unfold under. set (k := lowest mask).
  assert (H : N.land word mask mod 2 ^ k = 0).
  { rewrite <- N.land_ones, <- N.land_assoc, N.land_ones. unfold k. rewrite lowest_divides. apply N.land_0_r. }
  assert (2 ^ k <> 0) by (apply N.pow_nonzero; lia).
  pose proof (N.div_mod (N.land word mask) (2 ^ k) H0). lia.
Qed.
Lemma placed_under it mask word : mask_ok it mask = true -> placed it mask (Z.of_N (under mask word)) = N.land word mask.
Proof.
  intros Hm. destruct (mask_ok_inv _ _ Hm) as (_ & p & _ & Hlt). unfold placed. rewrite N2Z.id, under_back.
  apply N.mod_small. pose proof (land_le word mask). lia.
Qed.
Lemma under_in it mask word : mask_ok it mask = true -> value_inb it (Z.of_N (under mask word)) = true.
Proof.
  intros Hm. destruct (mask_ok_inv _ _ Hm) as (Hs & p & _ & Hlt). apply value_inb_range, unsigned_range; [exact Hs|].
  rewrite imod_256. pose proof (land_le word mask). pose proof (under_back mask word).
  assert (1 <= 2 ^ lowest mask) by (pose proof (N.pow_nonzero 2 (lowest mask)); lia).
  assert (under mask word <= N.land word mask) by nia. lia.
Qed.
Lemma all_ones word n : word < 256 ^ n -> N.land word (256 ^ n - 1) = word.
Proof.
  intros H. replace (256 ^ n) with (2 ^ (8 * n)) in * by (rewrite N.pow_mul_r; reflexivity).
  replace (2 ^ (8 * n) - 1) with (N.ones (8 * n)) by (rewrite N.ones_equiv; lia).
  rewrite N.land_ones. apply N.mod_small, H.
Qed.
Lemma land_lor word a b : N.lor (N.land word a) (N.land word b) = N.land word (N.lor a b).
Proof. symmetry. apply N.land_lor_distr_r. Qed.

Lemma same_ity_refl it : same_ity it it = true.
Proof. destruct it; reflexivity. Qed.
Lemma same_order_refl bo : same_order bo bo = true.
Proof. destruct bo; reflexivity. Qed.

Lemma bit_value it ca fa mask d p z q : a_bits fa = Some mask -> a_length fa = None -> mask_ok it mask = true ->
  small d -> p <= lenN d -> dec_int it ca fa d p = Ok z q ->
  q = p + width_bytes it /\ q <= lenN d
  /\ z = Z.of_N (under mask (from_bytes (get_byteorder ca fa) (sub d p (width_bytes it)))).
Proof.
  intros Hb Hl Hm Hs Hp E. unfold dec_int in E. rewrite Hb, Hl in E.
  apply bind_ok in E as (v & q' & E1 & E2). injection E2 as <- <-.
  assert (Hin : p + sizeN it <= lenN d).
  { destruct (N.le_gt_cases (p + sizeN it) (lenN d)) as [H|H]; [exact H|]. rewrite take_int_out in E1 by assumption. discriminate. }
  rewrite take_int_in in E1 by assumption. injection E1 as <- <-. rewrite width_sizeN.
  split; [reflexivity|]. split; [exact Hin|].
  unfold int_of_raw. destruct (mask_ok_inv _ _ Hm) as (Hsg & _). rewrite <- is_signed_signed, Hsg. cbn [andb].
  rewrite bits_extract_under by exact Hm. reflexivity.
Qed.

(** ** Fields *)
Definition grouped (d : bytes) (p : N) (group masks : option (ity * byteorder * N)) : Prop :=
  match group, masks with
  | None, None => True
  | Some (it, bo, x), Some (it', bo', m) =>
      it' = it /\ bo' = bo /\ x = N.land (from_bytes bo (sub d p (width_bytes it))) m
  | _, _ => False
  end.

Lemma field_canonical t f ca fa en d p v q : K t -> well_formed t -> modifiers f en = Some fa -> with_ok f ->
  canonical_field (canonical t) f -> small d -> p <= lenN d -> dec_field (dec t) f ca fa en d p = Ok v q ->
  p <= q /\ q <= lenN d /\ field_wire (wire t) f ca fa en v = Some (sub d p (q - p)).
Proof.
  intros HK Hwf Hm Hwith [Ho Hc] Hs Hp E. unfold dec_field, dec_offset in E. unfold field_wire, padding.
  rewrite Ho in *. cbn [eval_opt option_map] in E. unfold bind at 1, ret at 1 in E.
  unfold with_ok in Hwith.
  destruct (f_with_decode f) as [g|], (f_with_encode f) as [g'|], (f_format f) as [doc|]; try contradiction.
  { destruct (Hc en) as [HR HS]. destruct (documented_consumes _ _ HR HS ca fa d p v q Hs Hp E) as (H1 & H2 & H3). auto. }
  destruct (f_skip_decode f) as [x|].
  - injection E as <- <-. rewrite Hc, N.sub_diag, sub_0. split; [lia|]. split; [exact Hp|reflexivity].
  - destruct Hc as (Hse & Hfs & Hc). rewrite Hse, Hfs in *.
    apply bind_ok in E as (p0 & q0 & E0 & E). unfold get_position in E0. injection E0 as <- <-.
    apply bind_ok in E as (v0 & q1 & E1 & E). apply bind_ok in E as (? & q2 & E2 & E).
    fold (close f en v0) in E. pose proof (close_stays f en v0 d q2) as Hcl. rewrite E in Hcl. subst q2.
    destruct Hc as [Hu|(Hif & Hst & Hk)].
    + rewrite Hu in *. unfold set_position in E2. injection E2 as _ <-. rewrite N.sub_diag, sub_0.
      split; [lia|]. split; [exact Hp|reflexivity].
    + rewrite Hif in E1. destruct (HK ca fa (Hk _ _ Hm) Hwf _ _ _ _ Hs Hp E1) as (H1 & H2 & H3).
      unfold as_wire in H3.
      assert (Hv : stored f en v = v0).
      { assert (v = restored f en v0) as ->; [|apply Hst].
        unfold close in E. fold (restored f en v0) in E. cbv zeta in E. destruct (f_check f); [destruct (val_eqb _ _)|]; unfold ret, fail in E; congruence. }
      rewrite Hv, H3, and_then_eq. cbn [app].
      destruct (f_untake f).
      * unfold set_position in E2. injection E2 as _ <-. rewrite N.sub_diag, sub_0. split; [lia|]. split; [exact Hp|reflexivity].
      * unfold ret in E2. injection E2 as _ <-. auto.
Qed.
Lemma k_order_published f en ca : k_order (published f en ca) = k_order ca.
Proof. reflexivity. Qed.

Lemma fields_canonical inherit vars ca0 fs : Forall (fun ft => K (snd ft)) fs ->
  every (fun ft : fspec * ty => let (f, t) := ft in
           well_formed t /\ encodes_without_variables f t /\ from_str_ok f t /\ with_ok f) fs ->
  forall group masks ca prev done clear d p xs q,
  (inherit = true -> nothing_left_over clear (map fst fs) = true /\ (clear = true -> prev = no_fattr)) ->
  k_order ca = k_order ca0 -> small d -> p <= lenN d -> grouped d p group masks ->
  canonical_fields canonical ca0 masks fs ->
  dec_fields dec inherit vars fs ca prev done d p = Ok xs q ->
  p <= q /\ q <= lenN d /\ exists vs, xs = done ++ vs /\ fields_wire wire vars group fs ca done vs = Some (sub d p (q - p)).
Proof.
  induction 1 as [|[f t] fs Ht Hfs IH]; intros Hev group masks ca prev done clear d p xs q Hin Hord Hs Hp Hg Hc E.
  - cbn [dec_fields] in E. unfold ret in E. injection E as <- <-. cbn [canonical_fields] in Hc. subst masks.
    destruct group as [[[? ?] ?]|]; [contradiction|]. rewrite N.sub_diag, sub_0. split; [lia|]. split; [exact Hp|].
    exists []. rewrite app_nil_r. auto.
  - cbn [every] in Hev. destruct Hev as [(Hwf & Hvar & Hfo & Hwith) Hev]. cbn [snd] in Ht. cbn [dec_fields] in E.
    destruct (modifiers f (mkenv done vars)) as [own|] eqn:Em; [|discriminate E]. cbv zeta in E.
    set (fb := if inherit && negb (f_use f) then prev else own) in E.
    assert (Hfb : fb = own).
    { unfold fb. destruct inherit; [|reflexivity]. destruct (f_use f) eqn:Eu; [reflexivity|]. cbn [negb andb].
      destruct (Hin eq_refl) as [Hn Hpv]. cbn [map fst nothing_left_over] in Hn. rewrite Eu in Hn.
      apply andb_true_iff in Hn as [Hcl _]. rewrite (Hpv Hcl).
      unfold modifiers in Em. rewrite Eu in Em. congruence. }
    rewrite Hfb in E. clear fb Hfb.
    assert (Hin' : inherit = true -> nothing_left_over (if f_use f then bare f else clear) (map fst fs) = true
                   /\ ((if f_use f then bare f else clear) = true -> own = no_fattr)).
    { intros Hi. destruct (Hin Hi) as [Hn Hpv]. cbn [map fst nothing_left_over] in Hn.
      destruct (f_use f) eqn:Eu.
      - split; [exact Hn|]. intros Hb. pose proof (bare_modifiers f (mkenv done vars) Hb). congruence.
      - apply andb_true_iff in Hn as [_ Hn]. split; [exact Hn|]. intros _.
        unfold modifiers in Em. rewrite Eu in Em. congruence. }
    apply bind_ok in E as (v & p1 & E1 & E2). rewrite publish_published in E2.
    set (ca' := published f (mkenv (done ++ [v]) vars) ca) in *.
    assert (Hord' : k_order ca' = k_order ca0) by (unfold ca'; rewrite k_order_published; exact Hord).
    assert (Hof : order_for ca own = order_for ca0 own) by (unfold order_for; rewrite Hord; reflexivity).
    cbn [canonical_fields] in Hc. destruct (f_bits f) as [be|] eqn:Eb.
    + destruct Hc as (it & bo & mask & -> & Hbo & Hmask & Hmods & Hundo & Hnext).
      destruct (Hmods _ _ Em) as [Hbits Horder]. rewrite <- Hof in Horder.
      assert (Hlen : a_length own = None).
      { destruct (modifiers_inv _ _ _ Em) as [[_ ->]|(_ & Hl & _)]; [discriminate|].
        rewrite Hl. pose proof (proj1 (bits_only_inv _ Hbo)) as Hbo'.
        destruct (f_offset f), (f_skip_decode f), (f_from_str f), (f_if f), (f_length f); try discriminate. reflexivity. }
      set (word := from_bytes bo (sub d p (width_bytes it))) in *.
      assert (Hv : v = restored f (mkenv done vars) (VInt (Z.of_N (under mask word))) /\ p + width_bytes it <= lenN d
                   /\ p1 = if f_untake f then p else p + width_bytes it).
      { destruct (bits_only_inv _ Hbo) as (Hbo' & Hw & _). unfold dec_field, dec_offset in E1. rewrite Hw in E1.
        destruct (f_offset f), (f_skip_decode f), (f_from_str f), (f_if f), (f_length f); try discriminate.
        cbn [eval_opt option_map dec] in E1. unfold bind at 1, ret at 1 in E1.
        apply bind_ok in E1 as (p0 & q0 & E0 & E1). unfold get_position in E0. injection E0 as <- <-.
        apply bind_ok in E1 as (v0 & q1 & E0 & E1). apply bind_ok in E1 as (u & q2 & E3 & E1).
        apply bind_ok in E0 as (z & q3 & E0 & E4). unfold ret in E4. injection E4 as <- <-.
        destruct (bit_value _ _ _ _ _ _ _ _ Hbits Hlen Hmask Hs Hp E0) as (-> & H2 & ->).
        rewrite <- order_for_get1, Horder in *. fold word in E1.
        assert (Hvv : v = restored f (mkenv done vars) (VInt (Z.of_N (under mask word))) /\ p1 = q2).
        { destruct (f_check f); [destruct (val_eqb _ _)|]; unfold ret, fail in E1; try discriminate; injection E1 as <- <-; auto. }
        destruct Hvv as [-> ->]. split; [reflexivity|]. split; [exact H2|].
        destruct (f_untake f); unfold set_position, ret in E3; injection E3; auto. }
      destruct Hv as (Hv & Hfit & Hp1).
      assert (Hsv : stored f (mkenv done vars) v = VInt (Z.of_N (under mask word))) by (rewrite Hv; apply Hundo).
      assert (Hvin : value_inb it (Z.of_N (under mask word)) = true) by (apply under_in, Hmask).
      (* the word collected so far *)
      assert (Hemit : forall masks', 
        (if f_untake f then canonical_fields canonical ca0 (Some (it, bo, masks')) fs
         else masks' = 256 ^ width_bytes it - 1 /\ canonical_fields canonical ca0 None fs) ->
        p <= q /\ q <= lenN d /\ exists vs, xs = done ++ v :: vs /\
          (if f_untake f then fields_wire wire vars (Some (it, bo, N.land word masks')) fs ca' (done ++ [v]) vs
           else and_then (Some (digits bo (N.to_nat (width_bytes it)) (N.land word masks')))
                  (fields_wire wire vars None fs ca' (done ++ [v]) vs)) = Some (sub d p (q - p))).
      { intros masks' Hc'. destruct (f_untake f).
        - subst p1.
          assert (Hg' : grouped d p (Some (it, bo, N.land word masks')) (Some (it, bo, masks'))) by (repeat split; reflexivity).
          destruct (IH Hev _ _ _ _ _ _ _ _ _ _ Hin' Hord' Hs Hp Hg' Hc' E2)
            as (H1 & H2 & vs & -> & H3).
          split; [exact H1|]. split; [exact H2|]. exists vs. rewrite <- app_assoc. auto.
        - destruct Hc' as [-> Hc'].
          destruct (IH Hev None None _ _ _ _ _ p1 _ _ Hin' Hord' Hs ltac:(lia) I Hc' E2) as (H1 & H2 & vs & -> & H3).
          split; [lia|]. split; [exact H2|]. exists vs. rewrite <- app_assoc. split; [reflexivity|].
          rewrite H3, and_then_eq. f_equal.
          replace (q - p) with (width_bytes it + (q - p1)) by lia. rewrite sub_split. f_equal; [|f_equal; lia].
          assert (HL : lenN (sub d p (width_bytes it)) = width_bytes it) by (apply lenN_sub; exact Hfit).
          rewrite all_ones; [|unfold word; rewrite <- HL at 2; apply from_bytes_lt].
          unfold word. apply digits_back, HL. }
      destruct group as [[[it0 bo0] x]|], masks as [[[it1 bo1] m0]|]; cbn [grouped] in Hg; try contradiction.
      * destruct Hg as (-> & -> & ->). destruct Hnext as (Hst & -> & -> & H8 & Hnext).
        destruct (Hemit _ Hnext) as (H1 & H2 & vs & -> & H3). split; [exact H1|]. split; [exact H2|].
        exists (v :: vs). split; [reflexivity|].
        cbn [fields_wire]. cbv zeta. rewrite Em, Eb, Hsv, Hbits, Hbo, Hmask, Hvin, Hst, Horder. cbn [andb].
        rewrite same_ity_refl, same_order_refl, (proj2 (N.leb_le _ _) H8). cbn [andb].
        rewrite placed_under by exact Hmask. fold word. rewrite land_lor. exact H3.
      * destruct Hnext as (Hst & Hnext).
        destruct (Hemit _ Hnext) as (H1 & H2 & vs & -> & H3). split; [exact H1|]. split; [exact H2|].
        exists (v :: vs). split; [reflexivity|].
        cbn [fields_wire]. cbv zeta. rewrite Em, Eb, Hsv, Hbits, Hbo, Hmask, Hvin, Hst, Horder. cbn [andb].
        rewrite placed_under by exact Hmask. exact H3.
    + destruct Hc as (-> & Hf & Hc). destruct group as [[[? ?] ?]|]; [contradiction|].
      destruct (field_canonical _ _ _ _ _ _ _ _ _ Ht Hwf Em Hwith Hf Hs Hp E1) as (H1 & H2 & H3).
      destruct (IH Hev None None _ _ _ _ _ p1 _ _ Hin' Hord' Hs H2 I Hc E2) as (H4 & H5 & vs & -> & H6).
      split; [lia|]. split; [exact H5|]. exists (v :: vs). rewrite <- app_assoc. split; [reflexivity|].
      cbn [fields_wire]. cbv zeta. rewrite Em, Eb. fold ca'. rewrite H3, H6, and_then_eq.
      replace (q - p) with ((p1 - p) + (q - p1)) by lia. rewrite sub_split. do 3 f_equal. lia.
Qed.

(** ** Enums *)
Lemma all_arms (Q : vspec -> list (fspec * ty) -> N -> Prop) (vs : list (vspec * list (fspec * ty))) : forall ns,
  (fix all (vs : list (vspec * list (fspec * ty))) (ns : list N) : Prop :=
     match vs, ns with
     | (v, fs) :: vs', n :: ns' => Q v fs n /\ all vs' ns'
     | _, _ => True
     end) vs ns ->
  forall j v fs n, nth_error vs j = Some (v, fs) -> nth_error ns j = Some n -> Q v fs n.
Proof.
  induction vs as [|[v fs] vs IH]; intros [|n ns] H j v' fs' n' H1 H2; try (destruct j; discriminate).
  destruct H as [H H']. destruct j as [|j]; cbn [nth_error] in *.
  - injection H1 as <- <-. injection H2 as <-. exact H.
  - eapply IH; eassumption.
Qed.
Lemma canonical_arms e vs fa : canonical (TEnum e vs) fa ->
  forall j v fs n, nth_error vs j = Some (v, fs) -> nth_error (numbering 0 (map fst vs)) j = Some n ->
  canonical_tag e fa v n /\ f_offset (v_attr v) = None /\ canonical_fields canonical (inner (e_c e)) None fs.
Proof.
  intros [_ H].
  apply (all_arms (fun v fs n => canonical_tag e fa v n /\ f_offset (v_attr v) = None /\ canonical_fields canonical (inner (e_c e)) None fs) vs).
  revert H. generalize (numbering 0 (map fst vs)). induction vs as [|[v fs] vs IH]; intros [|n ns] H; auto.
  destruct H as (H1 & H2 & H3 & H4). split; [auto|]. apply IH, H4.
Qed.
Lemma dec_arms_ok dty hit eat nomatch ca vars d vs : forall i0 next p x q,
  dec_arms dty hit eat nomatch ca vars vs i0 next d p = Ok x q ->
  exists j v fs n prev xs, nth_error vs j = Some (v, fs) /\ nth_error (numbering next (map fst vs)) j = Some n /\ hit v n = true
    /\ modifiers (v_attr v) (mkenv [] vars) = Some prev /\ x = VVariant (i0 + j) xs
    /\ (_ <- advance (eat v) ;; _ <- dec_offset (f_offset (v_attr v)) (mkenv [] vars) ;;
        dec_fields dty (negb (v_named v)) vars fs ca prev []) d p = Ok xs q.
Proof.
  induction vs as [|[v fs] vs IH]; intros i0 next p x q E; [discriminate E|].
  cbn [dec_arms] in E. cbv zeta in E. cbn [map fst]. rewrite variant_index_numbering.
  destruct (hit v (variant_index v next)) eqn:Eh.
  - destruct (modifiers (v_attr v) (mkenv [] vars)) as [prev|] eqn:Em.
    2:{ apply bind_ok in E as (? & ? & _ & E). discriminate E. }
    apply bind_ok in E as (? & p1 & E1 & E). apply bind_ok in E as (? & p2 & E2 & E). apply bind_ok in E as (xs & p3 & E3 & E).
    unfold ret in E. injection E as <- <-.
    exists O, v, fs, (variant_index v next), prev, xs. rewrite Nat.add_0_r. cbn [nth_error].
    repeat split; auto. unfold bind. rewrite E1, E2. exact E3.
  - destruct (IH _ _ _ _ _ E) as (j & v' & fs' & n & prev & xs & H1 & H2 & H3 & H4 & -> & H6).
    exists (S j), v', fs', n, prev, xs. cbn [nth_error]. rewrite <- Nat.add_succ_comm. auto 8.
Qed.
Lemma numbered (vs : list vspec) j v : nth_error vs j = Some v -> forall next, exists n, nth_error (numbering next vs) j = Some n.
Proof.
  revert j. induction vs as [|w vs IH]; intros [|j] H next; try discriminate; cbn [numbering nth_error]; [eauto|apply IH; exact H].
Qed.

Lemma arms_canonical e vs ca fa hit eat nomatch d p x q :
  Forall (fun vf => Forall (fun ft => K (snd ft)) (snd vf)) vs -> canonical (TEnum e vs) fa -> well_formed (TEnum e vs) ->
  small d -> p <= lenN d ->
  dec_arms dec hit eat nomatch (own_cattr (e_c e)) (k_vars ca) vs 0 0 d p = Ok x q ->
  (forall v n, hit v n = true -> p + eat v <= lenN d) ->
  exists v n body, hit v n = true /\ canonical_tag e fa v n /\ p + eat v <= q /\ q <= lenN d
    /\ body = sub d (p + eat v) (q - (p + eat v))
    /\ wire (TEnum e vs) ca fa x = and_then (tag_wire e ca fa v n) (Some body).
Proof.
  intros HK Hc Hwf Hs Hp E Heat.
  apply dec_arms_ok in E as (j & v & fs & n & prev & xs & H1 & H2 & H3 & H4 & -> & E).
  destruct (canonical_arms _ _ _ Hc _ _ _ _ H1 H2) as (Ht & Ho & Hf).
  pose proof (Forall_nth_error _ _ HK _ _ H1) as HKf. cbn [snd] in HKf.
  cbn [well_formed] in Hwf. pose proof (every_nth _ _ Hwf _ _ H1) as (Hb & _ & Hn & Hev).
  rewrite Ho in E. unfold advance, dec_offset in E. cbn [eval_opt option_map] in E. unfold bind, ret in E.
  pose proof (Heat _ _ H3) as Hle. unfold small in Hs. rewrite wadd_small in E by lia.
  pose proof (bare_modifiers (v_attr v) (mkenv [] (k_vars ca)) Hb) as Hpv. rewrite H4 in Hpv.
  assert (prev = no_fattr) as -> by (destruct (f_use (v_attr v)); congruence).
  destruct (fields_canonical (negb (v_named v)) (k_vars ca) (inner (e_c e)) fs HKf Hev None None (own_cattr (e_c e)) no_fattr [] true d (p + eat v) xs q)
    as (G1 & G2 & vs' & -> & G3); auto.
  { exact I. }
  cbn [app] in *. exists v, n, (sub d (p + eat v) (q - (p + eat v))). repeat split; auto.
  rewrite wire_enum. cbn [Nat.add]. rewrite H1, H2. unfold padding. rewrite Ho.
  change (inner (e_c e)) with (own_cattr (e_c e)). rewrite G3. rewrite and_then_eq. reflexivity.
Qed.
Lemma tag_consumes e ca fa : e_branching e = ByTag ->
  consumes (fun tag w => forall v n, canonical_tag e fa v n -> accepts v n tag = true -> tag_wire e ca fa v n = Some w) (enum_tag e ca fa).
Proof.
  intros He. unfold enum_tag, tag_wire, canonical_tag. rewrite He.
  destruct (a_branch fa) as [b|]; [apply consumes_ret; reflexivity|].
  assert (G : forall k, consumes (fun tag w => forall v n, (forall tag, accepts v n tag = true -> tag = n) -> accepts v n tag = true ->
    (if k <=? 8 then Some (digits (order_for ca fa) (N.to_nat k) n) else None) = Some w) (take_uint (ko ca fa) k)).
  { intros k. eapply consumes_weak; [|apply consumes_uint]. intros tag w (H1 & H2 & ->) v n Hc Ha.
    rewrite <- (Hc _ Ha), (proj2 (N.leb_le k 8) H2), order_for_get1. f_equal. apply digits_back, H1. }
  destruct (a_byte_count fa) as [k|], (c_byte_count (e_c e)) as [k'|].
  - eapply consumes_weak; [|apply G]. intros tag w _ v n [].
  - apply G.
  - apply G.
  - eapply consumes_weak; [|apply consumes_u8]. intros tag w [-> Hlt] v n [-> Hc] Ha. rewrite <- (Hc _ Ha). reflexivity.
Qed.
Lemma starts_in m d p : p <= lenN d -> starts_with m (remaining d p) = true -> p + lenN m <= lenN d /\ sub d p (lenN m) = m.
Proof.
  intros Hp H. apply starts_with_iff in H as [r Hr]. rewrite remaining_in in Hr by exact Hp.
  assert (HL : lenN m + p <= lenN d).
  { apply (f_equal (@length byte)) in Hr. rewrite skipn_length, app_length in Hr. unfold lenN in *. lia. }
  split; [lia|]. unfold sub. rewrite Hr, to_nat_lenN, firstn_app, firstn_all, Nat.sub_diag. apply app_nil_r.
Qed.
Lemma dec_enum_eq e vs ca fa : vs <> [] -> dec (TEnum e vs) ca fa =
       match e_branching e with
       | ByTag => tag <- enum_tag e ca fa ;;
              dec_arms dec (fun v index => arm_matches v index tag) (fun _ => 0)
                       InvalidByteLength (own_cattr (e_c e)) (k_vars ca) vs 0 0
       | ByPrefix => fun dt p =>
              dec_arms dec (fun v _ => v_default v || starts_with (variant_bytes v) (remaining dt p))
                       (fun v => if v_default v then 0 else lenN (variant_bytes v))
                       Fail (own_cattr (e_c e)) (k_vars ca) vs 0 0 dt p
       | ByPrefixUntake => fun dt p =>
              dec_arms dec (fun v _ => v_default v || starts_with (variant_bytes v) (remaining dt p))
                       (fun _ => 0)
                       Fail (own_cattr (e_c e)) (k_vars ca) vs 0 0 dt p
       | ByBytes n =>
              s <- take_bytes n ;;
              dec_arms dec (fun v _ => v_default v || bytes_eqb s (variant_bytes v)) (fun _ => 0)
                       InvalidByteLength (own_cattr (e_c e)) (k_vars ca) vs 0 0
       end.
Proof. destruct vs as [|vf vs']; [congruence|reflexivity]. Qed.
Lemma K_enum e vs : Forall (fun vf => Forall (fun ft => K (snd ft)) (snd vf)) vs -> K (TEnum e vs).
Proof.
  intros HK ca fa Hc Hwf. rewrite dec_enum_eq by (destruct Hc as [H _]; exact H).
  destruct (e_branching e) as [| | |k] eqn:He.
  - eapply consumes_bind; [apply tag_consumes; exact He|]. intros tag w Htag d p x q Hs Hp E.
    destruct (arms_canonical e vs ca fa _ _ _ _ _ _ _ HK Hc Hwf Hs Hp E ltac:(intros; cbv beta; lia)) as (v & n & body & G1 & G2 & G3 & G4 & -> & G6).
    rewrite <- accepts_arm in G1. rewrite N.add_0_r in *. split; [exact G3|]. split; [exact G4|]. unfold as_wire. rewrite G6, (Htag _ _ G2 G1), and_then_eq. reflexivity.
  - intros d p x q Hs Hp E.
    destruct (arms_canonical e vs ca fa _ _ _ _ _ _ _ HK Hc Hwf Hs Hp E
      ltac:(intros v n Hh; cbv beta in Hh |- *; destruct (v_default v); [lia|apply starts_in; assumption]))
      as (v & n & body & G1 & G2 & G3 & G4 & -> & G6). cbv beta in *.
    unfold as_wire. rewrite G6. unfold tag_wire, canonical_tag in *. rewrite He in *. change (literal v) with (variant_bytes v) in *.
    destruct (v_default v).
    + rewrite G2 by reflexivity. rewrite N.add_0_r in *. rewrite and_then_eq. split; [lia|]. split; [lia|reflexivity].
    + cbn [orb] in G1. destruct (starts_in _ _ _ Hp G1) as [_ Hsub]. rewrite and_then_eq. split; [lia|]. split; [lia|].
      f_equal. rewrite <- Hsub at 1. rewrite <- sub_split. f_equal. lia.
  - intros d p x q Hs Hp E.
    destruct (arms_canonical e vs ca fa _ _ _ _ _ _ _ HK Hc Hwf Hs Hp E ltac:(intros; cbv beta; lia)) as (v & n & body & G1 & G2 & G3 & G4 & -> & G6).
    unfold as_wire. rewrite G6. unfold tag_wire. rewrite He, and_then_eq, N.add_0_r in *. split; [lia|]. split; [lia|reflexivity].
  - eapply consumes_bind; [apply consumes_bytes|]. intros s w [-> Hlen] d p x q Hs Hp E.
    destruct (arms_canonical e vs ca fa _ _ _ _ _ _ _ HK Hc Hwf Hs Hp E ltac:(intros; cbv beta; lia)) as (v & n & body & G1 & G2 & G3 & G4 & -> & G6).
    unfold as_wire. rewrite G6. unfold tag_wire, canonical_tag in *. rewrite He, N.add_0_r in *. rewrite G2 in G1. cbn [orb] in G1.
    apply bytes_eqb_eq in G1. subst w. rewrite and_then_eq. split; [lia|]. split; [lia|reflexivity].
Qed.

Theorem dec_canonical t : K t.
Proof.
  induction t as [t Hl|n t IH|ts IH|t IH|t IH|k v IHk IHv|t IH|named c fs IH|e vs IH] using ty_nested_ind;
    [apply K_leaf, Hl| | | | | | | |apply K_enum, IH]; intros ca fa Hc Hwf; cbn [dec]; try contradiction;
    unfold as_wire; cbn [wire].
  - eapply consumes_map; [apply consumes_n, IH; assumption|]. intros l w [HL Hw]. rewrite HL, Nat.eqb_refl. exact Hw.
  - eapply consumes_map; [apply consumes_seq; assumption|]. auto.
  - destruct Hc as [Hc Ht]. destruct (a_loop fa) as [m|].
    + eapply consumes_map; [|intros a w H; exact H]. intros d p l q Hs Hp E.
      exact (consumes_loop (wire t ca fa) m _ _ (IH ca fa Ht Hwf) _ _ _ _ Hs Hp E).
    + eapply consumes_map; [apply consumes_counted; [apply Hc; reflexivity|apply IH; assumption]|]. auto.
  - eapply consumes_map; [|intros a w H; exact H]. intros d p l q Hs Hp E. destruct Hwf as [Hn Hev]. cbn [canonical] in Hc.
    destruct (fields_canonical (negb named) (k_vars ca) (inner c) fs IH Hev None None (own_cattr c) no_fattr [] true d p l q)
      as (G1 & G2 & vs' & -> & G3); auto.
    exact I.
Qed.
