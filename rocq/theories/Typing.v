(** Decoded values have their type. *)
From Verif Require Import Base Ints Spec SpecOps Reader BaseLemmas ReaderLemmas ReaderHist.
From Verif Require Import Schema Utf8 Utf8Spec Utf8Lemmas TypeSpec Decode WireSpec CodecBase BitsLemmas Collections Containers.

Definition yields {A} (P : A -> Prop) (m : rd A) : Prop :=
  forall d p a q, small d -> m d p = Ok a q -> P a.

Lemma yields_ret {A} (P : A -> Prop) a : P a -> yields P (ret a).
Proof. intros H d p b q _ E. injection E as <- _. exact H. Qed.
Lemma yields_bind {A B} (Q : A -> Prop) (P : B -> Prop) m k :
  yields Q m -> (forall a, Q a -> yields P (k a)) -> yields P (bind m k).
Proof. intros Hm Hk d p b q Hs E. apply bind_ok in E as (a & q' & E1 & E2). exact (Hk a (Hm _ _ _ _ Hs E1) _ _ _ _ Hs E2). Qed.
Lemma yields_any {A B} (P : B -> Prop) (m : rd A) k : (forall a, yields P (k a)) -> yields P (bind m k).
Proof. intros Hk. apply yields_bind with (Q := fun _ => True); [intros d p a q _ _; exact I|auto]. Qed.
Lemma yields_fail {A} (P : A -> Prop) k : yields P (fail k).
Proof. intros d p a q _ E. discriminate. Qed.
Lemma yields_panic {A} (P : A -> Prop) : yields P panic.
Proof. intros d p a q _ E. discriminate. Qed.
Lemma yields_map {A} (P : val -> Prop) (Q : A -> Prop) m (f : A -> val) :
  yields Q m -> (forall a, Q a -> P (f a)) -> yields P (a <- m ;; ret (f a)).
Proof. intros Hm H. apply yields_bind with (Q := Q); [exact Hm|]. intros a Ha. apply yields_ret, H, Ha. Qed.
Lemma yields_n {A} (P : A -> Prop) m n : yields P m -> yields (fun l => length l = n /\ Forall P l) (dec_n n m).
Proof.
  intros H. induction n as [|n IH]; cbn [dec_n]; [apply yields_ret; split; [reflexivity|constructor]|].
  apply yields_bind with (Q := P); [exact H|]. intros x Hx.
  apply yields_bind with (Q := fun l => length l = n /\ Forall P l); [exact IH|]. intros l [Hl Hf].
  apply yields_ret. split; [cbn; congruence|constructor; assumption].
Qed.
Lemma yields_weak {A} (P Q : A -> Prop) m : (forall a, P a -> Q a) -> yields P m -> yields Q m.
Proof. intros H Hm d p a q Hs E. exact (H _ (Hm _ _ _ _ Hs E)). Qed.
Lemma yields_try {A} (P : A -> Prop) m n : yields P m -> yields (Forall P) (dec_try n m).
Proof.
  intros H. induction n as [|n IH]; cbn [dec_try]; [apply yields_ret; constructor|].
  intros d p l q Hs E. destruct (m d p) as [x p'|e p'| |] eqn:Em; try discriminate.
  - apply bind_ok in E as (xs & q' & E1 & E2). injection E2 as <- _.
    constructor; [exact (H _ _ _ _ Hs Em)|exact (IH _ _ _ _ Hs E1)].
  - injection E as <- _. constructor.
Qed.
Lemma yields_loop {A} (P : A -> Prop) s m n : yields P m -> yields (Forall P) (dec_loop n s m).
Proof.
  intros H. induction n as [|n IH]; cbn [dec_loop]; [intros d p a q _ E; discriminate|].
  intros d p l q Hs E. destruct (take_bytes_starts s d p) as [? p'|e p'| |]; try discriminate.
  - apply bind_ok in E as (x & q1 & E1 & E2). apply bind_ok in E2 as (xs & q2 & E2 & E3). injection E3 as <- _.
    constructor; [exact (H _ _ _ _ Hs E1)|exact (IH _ _ _ _ Hs E2)].
  - injection E as <- _. constructor.
Qed.
Lemma yields_counted {A} (P : A -> Prop) ca fa m : yields P m -> yields (Forall P) (dec_counted ca fa m).
Proof.
  intros H. unfold dec_counted. apply yields_any. intros [c [n|]]; cbn [fst snd]; [apply yields_try, H|].
  apply yields_weak with (P := fun l => length l = N.to_nat c /\ Forall P l); [intros l [_ X]; exact X|apply yields_n, H].
Qed.
Lemma yields_seq ps ms : Forall2 yields ps ms -> yields (each ps) (dec_seq ms).
Proof.
  induction 1 as [|P m ps ms H _ IH]; cbn [dec_seq]; [apply yields_ret; exact I|].
  apply yields_bind with (Q := P); [exact H|]. intros x Hx.
  apply yields_bind with (Q := each ps); [exact IH|]. intros l Hl. apply yields_ret. split; assumption.
Qed.

(** ** Numbers *)
Lemma signed_land w a b : (0 <= w)%Z -> (- 2 ^ w <= a < 2 ^ w)%Z -> (- 2 ^ w <= b < 2 ^ w)%Z -> (- 2 ^ w <= Z.land a b < 2 ^ w)%Z.
Proof.
  intros Hw Ha Hb.
  assert (C : forall x, (- 2 ^ w <= x < 2 ^ w <-> Z.shiftr x w = 0 \/ Z.shiftr x w = -1)%Z).
  { intros x. rewrite Z.shiftr_div_pow2 by exact Hw. assert (0 < 2 ^ w)%Z by (apply Z.pow_pos_nonneg; lia).
    split.
    - intros Hx. destruct (Z.lt_ge_cases x 0).
      + right. symmetry. apply Z.div_unique with (r := (x + 2 ^ w)%Z); lia.
      + left. apply Z.div_small. lia.
    - pose proof (Z.div_mod x (2 ^ w) ltac:(lia)). pose proof (Z.mod_pos_bound x (2 ^ w) ltac:(lia)).
      intros [E|E]; rewrite E in *; lia. }
  apply C. rewrite Z.shiftr_land. apply C in Ha, Hb.
  destruct Ha as [->| ->]; [left; apply Z.land_0_l|]. rewrite Z.land_m1_l. exact Hb.
Qed.
Lemma unsigned_land w a b : (0 <= a < 2 ^ w)%Z -> (0 <= b)%Z -> (0 <= Z.land a b < 2 ^ w)%Z.
Proof.
  intros Ha Hb. split; [apply Z.land_nonneg; lia|].
  apply Z.le_lt_trans with a; [|lia]. apply Z.ldiff_le; [lia|].
  apply Z.bits_inj'. intros n Hn. rewrite Z.ldiff_spec, Z.land_spec, Z.bits_0.
  destruct (Z.testbit a n), (Z.testbit b n); reflexivity.
Qed.
Lemma land_in it a b : value_in it a -> value_in it b -> value_in it (Z.land a b).
Proof.
  unfold value_in. destruct (is_signed it) eqn:Es.
  - apply signed_land. destruct it; vm_compute; discriminate.
  - intros Ha Hb. apply unsigned_land; lia.
Qed.
Lemma shiftr_in it a : value_in it a -> value_in it (Z.shiftr a 1).
Proof.
  unfold value_in. rewrite <- Z.div2_spec, Z.div2_div. intros H.
  pose proof (Z.div_mod a 2 ltac:(lia)). pose proof (Z.mod_pos_bound a 2 ltac:(lia)).
  destruct (is_signed it) eqn:Es.
  - assert (0 < 2 ^ (8 * Z.of_N (width_bytes it) - 1))%Z by (apply Z.pow_pos_nonneg; [lia|destruct it; vm_compute; discriminate]). lia.
  - lia.
Qed.
Lemma cast_in it z : value_in it (cast it z).
Proof. apply value_in_range, cast_range. Qed.
Lemma extract_in it mask v : value_in it v -> value_in it (bits_extract it mask v).
Proof.
  intros H. unfold bits_extract.
  assert (G : forall n x, value_in it (fst x) -> value_in it (fst (Nat.iter n bits_down x))).
  { induction n as [|n IH]; intros x Hx; [exact Hx|]. cbn [Nat.iter nat_rect].
    specialize (IH x Hx). unfold Nat.iter in IH. destruct (nat_rect _ x _ n) as [y b]. cbn [fst] in IH.
    unfold bits_down. destruct (Z.even b); cbn [fst]; [apply shiftr_in|]; exact IH. }
  apply G. cbn [fst]. apply land_in; [exact H|apply cast_in].
Qed.
Lemma yields_int it ca fa : yields (value_in it) (dec_int it ca fa).
Proof.
  unfold dec_int. apply yields_bind with (Q := value_in it).
  - destruct (a_length fa) as [l|]; [destruct (sizeN it <? l); [apply yields_fail|]|].
    + apply yields_any. intros u. apply yields_ret, cast_in.
    + intros d p a q Hs E. exact (take_int_value_in _ _ _ _ _ _ E Hs).
  - intros v Hv. apply yields_ret. destruct (a_bits fa); [apply extract_in|]; exact Hv.
Qed.
Lemma yields_fixed bo n : 0 < n -> yields (fun v => v < 256 ^ n) (take_fixed bo n).
Proof.
  intros Hn d p a q Hs E. unfold take_fixed in E. apply bind_ok in E as (l & q' & E1 & E2). injection E2 as <- _.
  destruct (N.le_gt_cases (p + n) (lenN d)) as [H|H].
  - rewrite take_bytes_in in E1 by assumption. injection E1 as <- _.
    pose proof (from_bytes_lt bo (sub d p n)) as B. rewrite lenN_sub in B by assumption. exact B.
  - rewrite take_bytes_out in E1 by (auto || lia). discriminate.
Qed.
Lemma size_to_be n v : size (to_be n v) = N.of_nat n.
Proof. unfold size. rewrite to_be_length. reflexivity. Qed.
Lemma size_mac v : size (skipn 2 (to_be 8 v)) = 6.
Proof. unfold size. rewrite skipn_length, to_be_length. reflexivity. Qed.
Lemma yields_u8 : yields (fun v => v < 256) take_u8.
Proof. unfold take_u8. apply yields_any. intros l. apply yields_any. intros b. apply yields_ret, b2n_lt. Qed.
Lemma yields_string ca fa : yields text (dec_string ca fa).
Proof.
  unfold dec_string. apply yields_any. intros l. destruct (utf8_ok l) eqn:E; [|apply yields_fail].
  apply yields_ret, utf8_ok_text, E.
Qed.

(** ** Sets and maps *)
Lemma set_insert_in v l x : In x (set_insert v l) -> x = v \/ In x l.
Proof.
  induction l as [|w l IH]; cbn [set_insert]; [intros [->|[]]; auto|].
  destruct (val_eqb v w); cbn; intuition auto.
Qed.
Lemma set_insert_nodup v l : NoDup l -> NoDup (set_insert v l).
Proof.
  induction 1 as [|w l Hw Hl IH]; cbn [set_insert]; [repeat constructor; intros []|].
  destruct (val_eqb v w) eqn:E; constructor; try assumption.
  intros H. apply set_insert_in in H as [->|H]; [|exact (Hw H)]. rewrite val_eqb_refl in E. discriminate.
Qed.
Lemma set_values (P : val -> Prop) l : Forall P l -> forall s, NoDup s -> Forall P s ->
  NoDup (fold_left (fun s x => set_insert x s) l s) /\ Forall P (fold_left (fun s x => set_insert x s) l s).
Proof.
  induction 1 as [|x l Hx _ IH]; intros s Hn Hs; cbn [fold_left]; [auto|]. apply IH; [apply set_insert_nodup, Hn|].
  apply Forall_forall. intros y Hy. apply set_insert_in in Hy as [->|Hy]; [exact Hx|]. exact (proj1 (Forall_forall _ _) Hs y Hy).
Qed.
Lemma map_insert_in k v l x : In x (map_insert k v l) -> x = (k, v) \/ In x l.
Proof.
  induction l as [|[k' v'] l IH]; cbn [map_insert]; [intros [<-|[]]; auto|].
  destruct (val_eqb k k') eqn:E; cbn; [|intuition auto]. apply val_eqb_eq in E as <-. intuition auto.
Qed.
Lemma map_insert_keys k v l x : In x (map fst (map_insert k v l)) -> x = k \/ In x (map fst l).
Proof.
  rewrite !in_map_iff. intros ([a b] & <- & H). apply map_insert_in in H as [E|H]; [injection E as -> ->; auto|].
  right. exists (a, b). auto.
Qed.
Lemma map_insert_nodup k v l : NoDup (map fst l) -> NoDup (map fst (map_insert k v l)).
Proof.
  induction l as [|[k' v'] l IH]; cbn [map_insert map fst]; [intros _; repeat constructor; intros []|].
  intros H. inversion H as [|? ? H1 H2]; subst. destruct (val_eqb k k') eqn:E; cbn [map fst]; constructor; auto.
  intros X. apply map_insert_keys in X as [->|X]; [|exact (H1 X)]. rewrite val_eqb_refl in E. discriminate.
Qed.
Lemma map_values (P : val * val -> Prop) l : Forall P l -> forall s, NoDup (map fst s) -> Forall P s ->
  NoDup (map fst (fold_left (fun m kv => map_insert (fst kv) (snd kv) m) l s)) /\
  Forall P (fold_left (fun m kv => map_insert (fst kv) (snd kv) m) l s).
Proof.
  induction 1 as [|[k v] l Hx _ IH]; intros s Hn Hs; cbn [fold_left fst snd]; [auto|].
  apply IH; [apply map_insert_nodup, Hn|].
  apply Forall_forall. intros y Hy. apply map_insert_in in Hy as [->|Hy]; [exact Hx|]. exact (proj1 (Forall_forall _ _) Hs y Hy).
Qed.

(** ** Fields *)
Definition Y (t : ty) : Prop := typed t -> forall ca fa, yields (value_of t) (dec t ca fa).

Lemma yields_field t f ca fa en : Y t -> typed t -> typed_field f t -> yields (value_of t) (dec_field (dec t) f ca fa en).
Proof.
  intros HY HT (H0 & H1 & H2 & H3 & H4 & _). unfold dec_field. apply yields_any. intros _.
  destruct (f_with_decode f) as [g|]; [intros d p v q _ E; exact (H0 g en ca fa eq_refl d p v q E)|].
  destruct (f_skip_decode f) as [v|]; [apply yields_ret, H1; reflexivity|].
  destruct (f_from_str f) as [[parse show]|].
  { apply yields_any. intros s. destruct (parse s) as [v|] eqn:E; [apply yields_ret, (H2 _ _ _ _ eq_refl E)|apply yields_fail]. }
  apply yields_any. intros p0. apply yields_bind with (Q := value_of t).
  - destruct (f_if f) as [c|]; [|apply HY, HT]. destruct (c en); [apply HY, HT|].
    apply yields_ret. specialize (H3 ltac:(discriminate)). destruct t; try contradiction. exact I.
  - intros v Hv. apply yields_any. intros _.
    assert (Hv' : value_of t (match f_value_decode f with Some g => g en v | None => v end)).
    { destruct (f_value_decode f) as [g|]; [apply (H4 g en v eq_refl Hv)|exact Hv]. }
    destruct (f_check f); [destruct (val_eqb _ _); [apply yields_ret, Hv'|apply yields_fail]|apply yields_ret, Hv'].
Qed.
Definition typed_fields := all_of_them (fun ft : fspec * ty => let (f, t1) := ft in typed_field f t1 /\ typed t1).
Lemma each_app ps qs l m : each ps l -> each qs m -> each (ps ++ qs) (l ++ m).
Proof.
  revert l. induction ps as [|p ps IH]; intros [|x l] H1 H2; cbn [each app] in *; try contradiction; [exact H2|].
  destruct H1. split; auto.
Qed.
Lemma yields_fields inherit vars fs : Forall (fun ft => Y (snd ft)) fs -> typed_fields fs ->
  forall ca prev done ps, each ps done ->
  yields (each (ps ++ map (fun ft => value_of (snd ft)) fs)) (dec_fields dec inherit vars fs ca prev done).
Proof.
  induction fs as [|[f t] fs IH]; intros HY HT ca prev done ps HD; cbn [dec_fields map].
  - rewrite app_nil_r. apply yields_ret, HD.
  - inversion HY as [|? ? Y1 Y2]; subst. destruct HT as [[T1 T2] T3].
    destruct (modifiers f (mkenv done vars)); [|apply yields_panic].
    apply yields_bind with (Q := value_of t); [apply yields_field; assumption|]. intros v Hv.
    replace (ps ++ value_of (snd (f, t)) :: map (fun ft => value_of (snd ft)) fs)
      with ((ps ++ [value_of t]) ++ map (fun ft : fspec * ty => value_of (snd ft)) fs) by (rewrite <- app_assoc; reflexivity).
    apply IH; [exact Y2|exact T3|]. apply each_app; [exact HD|]. cbn. auto.
Qed.
Lemma nth_error_map_some {A B} (f : A -> B) l i : nth_error (map f l) i = option_map f (nth_error l i).
Proof. revert i. induction l; intros [|i]; cbn; auto. Qed.
Lemma yields_arms hit eat nomatch ca vars vs : Forall (fun vf => Forall (fun ft => Y (snd ft)) (snd vf)) vs ->
  all_of_them (fun vf : vspec * list (fspec * ty) => let (v, fs) := vf in typed_fields fs) vs ->
  forall i next, yields (fun x => exists j fs xs, x = VVariant (i + j) xs /\ nth_error (map snd vs) j = Some fs
    /\ each (map (fun ft => value_of (snd ft)) fs) xs) (dec_arms dec hit eat nomatch ca vars vs i next).
Proof.
  induction vs as [|[v fs] vs IH]; intros HY HT i next; cbn [dec_arms]; [apply yields_fail|].
  inversion HY as [|? ? Y1 Y2]; subst. destruct HT as [T1 T2].
  destruct (hit v (variant_index v next)).
  - apply yields_any. intros _. destruct (modifiers (v_attr v) (mkenv [] vars)) as [prev|]; [|apply yields_panic].
    apply yields_any. intros _. eapply yields_bind; [apply (yields_fields _ _ _ Y1 T1 _ _ [] []); exact I|].
    intros xs Hxs. apply yields_ret. exists O, fs, xs. rewrite Nat.add_0_r. auto.
  - eapply yields_weak; [|apply (IH Y2 T2 (S i))]. intros x (j & fs' & xs & -> & Hn & Hx).
    exists (S j), fs', xs. rewrite <- Nat.add_succ_comm. auto.
Qed.

Lemma yields_ipv4 ca fa : yields (fun l => size l = 4) (dec_ipv4 ca fa).
Proof. apply yields_any. intros. apply yields_ret. apply size_to_be. Qed.
Lemma yields_ipv6 ca fa : yields (fun l => size l = 16) (dec_ipv6 ca fa).
Proof. apply yields_any. intros. apply yields_ret. apply size_to_be. Qed.
Lemma yields_mac ca fa : yields (fun l => size l = 6) (dec_mac ca fa).
Proof. apply yields_any. intros. apply yields_ret. apply size_mac. Qed.

Theorem dec_typed t : Y t.
Proof.
  induction t as [t Hl|n t IH|ts IH|t IH|t IH|k v IHk IHv|t IH|named c fs IH|e vs IH] using ty_nested_ind;
    intros HT ca fa.
  - destruct t; try discriminate Hl; cbn [dec].
    + eapply yields_map; [apply yields_int|]. auto.
    + apply yields_any. intros. apply yields_ret. exact I.
    + eapply yields_map; [apply yields_u8|]. intros c H. left. cbv beta in H. lia.
    + eapply yields_map; [apply yields_fixed; lia|]. auto.
    + eapply yields_map; [apply yields_fixed; lia|]. auto.
    + apply yields_any. intros. apply yields_ret. exact I.
    + eapply yields_map; [apply yields_string|]. auto.
    + eapply yields_map; [apply yields_mac|]. auto.
    + eapply yields_map; [apply yields_ipv4|]. auto.
    + eapply yields_map; [apply yields_ipv6|]. auto.
    + unfold dec_ipaddr. destruct (a_length fa) as [l|]; [|apply yields_fail].
      destruct (l =? 16); [|destruct (l =? 4); [|apply yields_fail]];
        (eapply yields_map; [first [apply yields_ipv4|apply yields_ipv6]|]); intros x Hx; cbn; auto.
    + unfold dec_netaddr. destruct (a_length fa) as [l|]; [|apply yields_fail].
      destruct (l =? 0); [apply yields_fail|].
      destruct (l =? 4); [|destruct (l =? 6); [|destruct (l =? 16)]];
        (eapply yields_map; [first [apply yields_ipv4|apply yields_ipv6|apply yields_mac|apply yields_int]|]); intros x Hx; cbn; auto.
    + apply yields_ret. exact I.
    + intros d p v q _ E. exact (HT ca fa d p v q E).
  - cbn [dec]. eapply yields_map; [apply yields_n, IH, HT|]. auto.
  - cbn [dec]. eapply yields_map; [apply (yields_seq (map value_of ts))|auto].
    cbn [typed] in HT. clear -IH HT. induction ts as [|t ts IHt]; constructor; inversion IH; subst; destruct HT; auto.
  - cbn [dec]. destruct (a_loop fa).
    + eapply yields_map; [|intros l Hl; exact Hl]. intros d p l q Hs E. exact (yields_loop _ _ _ _ (IH HT ca fa) _ _ _ _ Hs E).
    + eapply yields_map; [apply yields_counted, IH, HT|]. auto.
  - cbn [dec]. eapply yields_map; [apply yields_counted, IH, HT|]. intros l Hl. cbn [value_of].
    apply set_values; [exact Hl|constructor|constructor].
  - destruct HT as [T1 T2]. cbn [dec].
    eapply yields_map; [apply (yields_counted (fun kv => value_of k (fst kv) /\ value_of v (snd kv)))|].
    + apply yields_bind with (Q := value_of k); [apply IHk, T1|]. intros x Hx.
      apply yields_bind with (Q := value_of v); [apply IHv, T2|]. intros y Hy. apply yields_ret. auto.
    + intros l Hl. cbn [value_of]. apply map_values; [exact Hl|constructor|constructor].
  - cbn [dec]. intros d p x q Hs E.
    assert (G : forall r, r = dec t ca fa d p ->
      match r with Ok v p' => Ok (VOpt (Some v)) p' | Err _ p' => Ok (VOpt None) p' | Panic => Panic | Hang => Hang end = Ok x q ->
      value_of (TOption t) x).
    { intros r -> X. destruct (dec t ca fa d p) as [v p'|? ?| |] eqn:Ed; try discriminate; injection X as <- _.
      - exact (IH HT _ _ _ _ _ _ Hs Ed).
      - exact I. }
    destruct (a_length fa) as [[|l]|]; [injection E as <- _; exact I| |]; exact (G _ eq_refl E).
  - cbn [dec]. eapply yields_map; [apply (yields_fields _ _ _ IH HT _ _ [] []); exact I|]. auto.
  - cbn [dec]. destruct HT as [HE HT].
    assert (G : forall hit eat nomatch ca' vars, yields (value_of (TEnum e vs)) (dec_arms dec hit eat nomatch ca' vars vs 0 0)).
    { intros. eapply yields_weak; [|apply (yields_arms _ _ _ _ _ _ IH HT 0%nat)].
      intros x (j & fs & xs & -> & Hn & Hx). rewrite nth_error_map_some in Hn.
      assert (V : match nth_error (map (fun vf => map (fun ft => value_of (snd ft)) (snd vf)) vs) j with
                  | Some ps => each ps xs | None => False end).
      { rewrite nth_error_map_some. destruct (nth_error vs j) as [[v fs']|]; [|discriminate Hn].
        injection Hn as <-. exact Hx. }
      exact V. }
    destruct vs as [|vf vs]; [destruct HE; reflexivity|].
    destruct (e_branching e).
    + apply yields_any. intros tag. apply G.
    + intros d p x q Hs E. exact (G _ _ _ _ _ _ _ _ _ Hs E).
    + intros d p x q Hs E. exact (G _ _ _ _ _ _ _ _ _ Hs E).
    + apply yields_any. intros tag. apply G.
Qed.
