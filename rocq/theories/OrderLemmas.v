(** Byte orders: the codecs depend on the field's and the container's byte order
    only through the one that is in force. *)
From Verif Require Import Base Ints Reader Writer Spec SpecOps.
From Verif Require Import BaseLemmas ReaderLemmas ReaderHist WriterLemmas WriterHist CodecBase BitsLemmas EncLemmas DecLemmas DecWire.
From Verif Require Import Schema Utf8 Sugar Decode Encode WireSpec RunSpec CodecSpec RoundTrip Collections Containers.

(** ** Loops of equal bodies *)
Lemma bind_ext {A B} (m m' : rd A) (k k' : A -> rd B) d p : m d p = m' d p -> (forall a q, k a d q = k' a d q) ->
  bind m k d p = bind m' k' d p.
Proof. intros Hm Hk. unfold bind. rewrite Hm. destruct (m' d p); auto. Qed.
Lemma dec_n_ext {A} (m m' : rd A) d n : (forall p, m d p = m' d p) -> forall p, dec_n n m d p = dec_n n m' d p.
Proof.
  intros H. induction n as [|n IH]; intros p; [reflexivity|]. cbn [dec_n]. apply bind_ext; [apply H|].
  intros a q. apply bind_ext; [apply IH|reflexivity].
Qed.
Lemma dec_try_ext {A} (m m' : rd A) d n : (forall p, m d p = m' d p) -> forall p, dec_try n m d p = dec_try n m' d p.
Proof.
  intros H. induction n as [|n IH]; intros p; [reflexivity|]. cbn [dec_try]. rewrite H. destruct (m' d p); auto.
  apply bind_ext; [apply IH|reflexivity].
Qed.
Lemma dec_loop_ext {A} s (m m' : rd A) d n : (forall p, m d p = m' d p) -> forall p, dec_loop n s m d p = dec_loop n s m' d p.
Proof.
  intros H. induction n as [|n IH]; intros p; [reflexivity|]. cbn [dec_loop]. destruct (take_bytes_starts s d p); auto.
  apply bind_ext; [apply H|]. intros ? q. apply bind_ext; [apply IH|reflexivity].
Qed.
Lemma dec_counted_ext {A} ca ca' fa fa' (m m' : rd A) d :
  (forall p, get_count_and_try_count ca fa d p = get_count_and_try_count ca' fa' d p) ->
  (forall p, m d p = m' d p) -> forall p, dec_counted ca fa m d p = dec_counted ca' fa' m' d p.
Proof.
  intros Hc H p. unfold dec_counted. apply bind_ext; [apply Hc|]. intros [c [n|]] q; cbn [fst snd].
  - apply dec_try_ext, H.
  - apply dec_n_ext, H.
Qed.
Lemma wbind_ext {A B} (m m' : wr A) (k k' : A -> wr B) b : m b = m' b -> (forall a b1, k a b1 = k' a b1) -> wbind m k b = wbind m' k' b.
Proof. intros Hm Hk. unfold wbind. rewrite Hm. destruct (m' b); auto. Qed.
Lemma plus_ext a a' c c' b : a b = a' b -> (forall b1, c b1 = c' b1) -> plus a c b = plus a' c' b.
Proof. intros Ha Hc. unfold plus. apply wbind_ext; [exact Ha|]. intros x b1. apply wbind_ext; [apply Hc|reflexivity]. Qed.
Lemma enc_list_ext {A} (e e' : A -> wr N) l : (forall x b, e x b = e' x b) -> forall b, enc_list e l b = enc_list e' l b.
Proof. intros H. induction l as [|x l IH]; intros b; [reflexivity|]. cbn [enc_list]. apply plus_ext; [apply H|exact IH]. Qed.

Lemma get_in_order ca fa o1 o2 k1 k2 :
  order_for (in_order k1 ca) (set_order o1 fa) = order_for (in_order k2 ca) (set_order o2 fa) ->
  ko (in_order k1 ca) (set_order o1 fa) = ko (in_order k2 ca) (set_order o2 fa).
Proof.
  intros H. unfold ko. f_equal. transitivity (order_for (in_order k1 ca) (set_order o1 fa)); [symmetry; apply order_for_get1|].
  rewrite H. apply order_for_get1.
Qed.

Definition Ord (t : ty) : Prop := only_order_in_force t -> forall ca fa o1 o2 k1 k2,
  order_for (in_order k1 ca) (set_order o1 fa) = order_for (in_order k2 ca) (set_order o2 fa) ->
  no_map t = true \/ no_terminators fa = true ->
  (forall d p, dec t (in_order k1 ca) (set_order o1 fa) d p = dec t (in_order k2 ca) (set_order o2 fa) d p)
  /\ (forall v b, enc t (in_order k1 ca) (set_order o1 fa) v b = enc t (in_order k2 ca) (set_order o2 fa) v b).

Section Leaves.
  Context (ca : cattr) (fa : fattr) (o1 o2 k1 k2 : option byteorder).
  Context (H : order_for (in_order k1 ca) (set_order o1 fa) = order_for (in_order k2 ca) (set_order o2 fa)).
  Notation ca1 := (in_order k1 ca). Notation fa1 := (set_order o1 fa).
  Notation ca2 := (in_order k2 ca). Notation fa2 := (set_order o2 fa).
  Let HK : ko ca1 fa1 = ko ca2 fa2 := get_in_order _ _ _ _ _ _ H.
  Lemma HG : get_byteorder ca1 fa1 = get_byteorder ca2 fa2.
  Proof. unfold ko in HK. congruence. Qed.

  Lemma ord_int it d p : dec_int it ca1 fa1 d p = dec_int it ca2 fa2 d p.
  Proof. unfold dec_int. rewrite HK. reflexivity. Qed.
  Lemma ord_raw d p : dec_raw ca1 fa1 d p = dec_raw ca2 fa2 d p.
  Proof. unfold dec_raw. rewrite HK. reflexivity. Qed.
  Lemma ord_string d p : dec_string ca1 fa1 d p = dec_string ca2 fa2 d p.
  Proof. unfold dec_string. apply bind_ext; [apply ord_raw|reflexivity]. Qed.
  Lemma ord_mac d p : dec_mac ca1 fa1 d p = dec_mac ca2 fa2 d p.
  Proof. unfold dec_mac. rewrite HK. reflexivity. Qed.
  Lemma ord_ipv4 d p : dec_ipv4 ca1 fa1 d p = dec_ipv4 ca2 fa2 d p.
  Proof. unfold dec_ipv4. rewrite HK. reflexivity. Qed.
  Lemma ord_ipv6 d p : dec_ipv6 ca1 fa1 d p = dec_ipv6 ca2 fa2 d p.
  Proof. unfold dec_ipv6. rewrite HK. reflexivity. Qed.
  Lemma ord_count d p : get_count_and_try_count ca1 fa1 d p = get_count_and_try_count ca2 fa2 d p.
  Proof. unfold get_count_and_try_count. rewrite HK. reflexivity. Qed.
  Lemma ord_tag e d p : enum_tag e ca1 fa1 d p = enum_tag e ca2 fa2 d p.
  Proof. unfold enum_tag. rewrite HK. reflexivity. Qed.
  Lemma ord_enc_int it z b : enc_int it ca1 fa1 z b = enc_int it ca2 fa2 z b.
  Proof. unfold enc_int. rewrite HG. reflexivity. Qed.
  Lemma ord_enc_raw l b : enc_raw ca1 fa1 l b = enc_raw ca2 fa2 l b.
  Proof. unfold enc_raw. rewrite HK. reflexivity. Qed.
  Lemma ord_enc_mac l b : enc_mac ca1 fa1 l b = enc_mac ca2 fa2 l b.
  Proof. unfold enc_mac. rewrite HK. reflexivity. Qed.
  Lemma ord_enc_ip l b : enc_ip ca1 fa1 l b = enc_ip ca2 fa2 l b.
  Proof. unfold enc_ip. rewrite HG. reflexivity. Qed.
  Lemma ord_push_count n b : push_count_and_try_count ca1 fa1 n b = push_count_and_try_count ca2 fa2 n b.
  Proof. unfold push_count_and_try_count. rewrite HK. reflexivity. Qed.
  Lemma ord_push_tag e v i b : push_tag e v i ca1 fa1 b = push_tag e v i ca2 fa2 b.
  Proof. unfold push_tag. rewrite HK. reflexivity. Qed.

  Lemma Ord_leaf t : leaf t = true -> only_order_in_force t ->
    (forall d p, dec t ca1 fa1 d p = dec t ca2 fa2 d p) /\ (forall v b, enc t ca1 fa1 v b = enc t ca2 fa2 v b).
  Proof.
    intros Hl Hu. destruct t; try discriminate; split; intros.
    - cbn [dec]. apply bind_ext; [apply ord_int|reflexivity].
    - destruct v; try reflexivity. apply ord_enc_int.
    - reflexivity.
    - reflexivity.
    - reflexivity.
    - reflexivity.
    - cbn [dec]. rewrite HK. reflexivity.
    - destruct v; try reflexivity. cbn [enc]. rewrite HK. reflexivity.
    - cbn [dec]. rewrite HK. reflexivity.
    - destruct v; try reflexivity. cbn [enc]. rewrite HK. reflexivity.
    - cbn [dec]. apply bind_ext; [apply ord_raw|reflexivity].
    - destruct v; try reflexivity. apply ord_enc_raw.
    - cbn [dec]. apply bind_ext; [apply ord_string|reflexivity].
    - destruct v; try reflexivity. apply ord_enc_raw.
    - cbn [dec]. apply bind_ext; [apply ord_mac|reflexivity].
    - destruct v; try reflexivity. apply ord_enc_mac.
    - cbn [dec]. apply bind_ext; [apply ord_ipv4|reflexivity].
    - destruct v; try reflexivity. apply ord_enc_ip.
    - cbn [dec]. apply bind_ext; [apply ord_ipv6|reflexivity].
    - destruct v; try reflexivity. apply ord_enc_ip.
    - cbn [dec]. unfold dec_ipaddr. change (a_length fa1) with (a_length fa2). destruct (a_length fa2) as [l|]; [|reflexivity].
      destruct (l =? 16); [apply bind_ext; [apply ord_ipv6|reflexivity]|].
      destruct (l =? 4); [apply bind_ext; [apply ord_ipv4|reflexivity]|reflexivity].
    - destruct v; try reflexivity. destruct i as [|[|i]]; destruct fs as [|[] [|]]; try reflexivity; apply ord_enc_ip.
    - cbn [dec]. unfold dec_netaddr. change (a_length fa1) with (a_length fa2). destruct (a_length fa2) as [l|]; [|reflexivity].
      destruct (l =? 0); [reflexivity|].
      destruct (l =? 4); [apply bind_ext; [apply ord_ipv4|reflexivity]|].
      destruct (l =? 6); [apply bind_ext; [apply ord_mac|reflexivity]|].
      destruct (l =? 16); [apply bind_ext; [apply ord_ipv6|reflexivity]|].
      apply bind_ext; [apply ord_int|reflexivity].
    - destruct v; try reflexivity. destruct i as [|[|[|[|i]]]]; destruct fs as [|[] [|]]; try reflexivity;
        first [apply ord_enc_ip|apply ord_enc_mac|apply ord_enc_int].
    - reflexivity.
    - reflexivity.
    - apply (proj1 (Hu _ _ _ _ _ _ H)).
    - apply (proj2 (Hu _ _ _ _ _ _ H)).
  Qed.
End Leaves.

Theorem all_Ord t : Ord t.
Proof.
  induction t using ty_nested_ind; intros HU ca fa o1 o2 k1 k2 HO HM.
  - apply Ord_leaf; assumption.
  - destruct (IHt HU ca fa o1 o2 k1 k2 HO HM) as [HD HE]. split.
    + intros d p. cbn [dec]. apply bind_ext; [apply dec_n_ext, HD|reflexivity].
    + intros v b. destruct v; try reflexivity. cbn [enc]. destruct (Nat.eqb (length l) n); [|reflexivity]. apply enc_list_ext, HE.
  - assert (HM' : Forall (fun t => no_map t = true \/ no_terminators fa = true) ts).
    { destruct HM as [HM|HM].
      - cbn [no_map] in HM. rewrite forallb_forall in HM. apply Forall_forall. intros t Ht. left. apply HM. apply in_map, Ht.
      - apply Forall_forall. auto. }
    clear HM. cbn [only_order_in_force] in HU. split.
    + intros d p. cbn [dec]. apply bind_ext; [|reflexivity]. revert p. induction H as [|t ts Ht _ IH]; intros p; [reflexivity|]. destruct HU as [HU1 HU2].
      inversion HM' as [|? ? Hm1 Hm2]; subst. cbn [map dec_seq].
      apply bind_ext; [apply Ht; assumption|]. intros a q. apply bind_ext; [apply IH; assumption|reflexivity].
    + intros v b. destruct v; try reflexivity. cbn [enc]. revert l b. induction H as [|t ts Ht _ IH]; intros l b; [reflexivity|]. destruct HU as [HU1 HU2].
      inversion HM' as [|? ? Hm1 Hm2]; subst. destruct l as [|x l]; [reflexivity|]. cbn [map enc_seq].
      apply plus_ext; [apply Ht; assumption|]. intros b1. apply IH; assumption.
  - destruct (IHt HU ca fa o1 o2 k1 k2 HO HM) as [HD HE]. split.
    + intros d p. cbn [dec]. change (a_loop (set_order o1 fa)) with (a_loop (set_order o2 fa)). destruct (a_loop (set_order o2 fa)).
      * apply bind_ext; [apply dec_loop_ext, HD|reflexivity].
      * apply bind_ext; [|reflexivity]. apply dec_counted_ext; [|apply HD]. intros q. apply ord_count, HO.
    + intros v b. destruct v; try reflexivity. cbn [enc]. change (a_loop (set_order o1 fa)) with (a_loop (set_order o2 fa)). destruct (a_loop (set_order o2 fa)).
      * apply enc_list_ext. intros x b1. apply plus_ext; [reflexivity|]. intros b2. apply HE.
      * apply plus_ext; [apply ord_push_count, HO|]. intros b1. apply enc_list_ext, HE.
  - destruct (IHt HU ca fa o1 o2 k1 k2 HO HM) as [HD HE]. split.
    + intros d p. cbn [dec]. apply bind_ext; [|reflexivity]. apply dec_counted_ext; [|apply HD]. intros q. apply ord_count, HO.
    + intros v b. destruct v; reflexivity.
  - destruct HM as [HM|HM]; [discriminate|].
    destruct (IHt1 (proj1 HU) ca fa o1 o2 k1 k2 HO (or_intror HM)) as [HD1 HE1]. destruct (IHt2 (proj2 HU) ca fa o1 o2 k1 k2 HO (or_intror HM)) as [HD2 HE2].
    unfold no_terminators in HM.
    assert (HS : key_fattr (set_order o1 fa) = set_order o1 fa /\ key_fattr (set_order o2 fa) = set_order o2 fa
      /\ value_fattr (set_order o1 fa) = set_order o1 fa /\ value_fattr (set_order o2 fa) = set_order o2 fa).
    { unfold key_fattr, value_fattr. cbn [set_order a_split a_linend_value a_linend].
      destruct (a_split fa), (a_linend_value fa), (a_linend fa); try discriminate. auto. }
    destruct HS as (HS1 & HS2 & HS3 & HS4). split.
    + intros d p. cbn [dec]. rewrite HS1, HS2, HS3, HS4. apply bind_ext; [|reflexivity]. apply dec_counted_ext; [intros q; apply ord_count, HO|].
      intros q. apply bind_ext; [apply HD1|]. intros a q'. apply bind_ext; [apply HD2|reflexivity].
    + intros v b. destruct v; try reflexivity. cbn [enc]. rewrite HS1, HS2, HS3, HS4.
      apply plus_ext; [apply ord_push_count, HO|]. intros b1. apply enc_list_ext. intros kv b2. apply plus_ext; [apply HE1|]. intros b3. apply HE2.
  - destruct (IHt HU ca fa o1 o2 k1 k2 HO HM) as [HD HE]. split.
    + intros d p. cbn [dec]. change (a_length (set_order o1 fa)) with (a_length (set_order o2 fa)). rewrite HD. reflexivity.
    + intros v b. destruct v; try reflexivity. destruct o; [apply HE|reflexivity].
  - split; [reflexivity|]. intros v b. destruct v; reflexivity.
  - split.
    + intros d p. cbn [dec]. destruct vs as [|vf vs]; [reflexivity|]. destruct (e_branching e); try reflexivity.
      apply bind_ext; [apply ord_tag, HO|reflexivity].
    + intros v b. destruct v; try reflexivity. cbn [enc]. clear H HM HU. generalize 0. revert i.
      induction vs as [|[v fs'] vs IH]; intros i next; [reflexivity|]. cbn [enc_arms]. destruct i as [|i]; [|apply IH].
      cbn [in_order k_vars]. destruct (modifiers (v_attr v) (mkenv [] (k_vars ca))); [|reflexivity].
      apply plus_ext; [apply ord_push_tag, HO|]. reflexivity.
Qed.

(** Structs do not look at the order around them. *)
Lemma struct_own_order named c fs ca fa ca' fa' : k_vars ca = k_vars ca' ->
  (forall d p, dec (TStruct named c fs) ca fa d p = dec (TStruct named c fs) ca' fa' d p)
  /\ (forall v b, enc (TStruct named c fs) ca fa v b = enc (TStruct named c fs) ca' fa' v b).
Proof.
  intros H. split.
  - intros d p. cbn [dec]. rewrite H. reflexivity.
  - intros v b. destruct v; try reflexivity. cbn [enc]. rewrite H. reflexivity.
Qed.

(** Integers. *)
Lemma int_order it ca fa d p : a_length fa = None -> a_bits fa = None -> allocatable d ->
  dec (TInt it) ca fa d p =
    if p + width_bytes it <=? size d
    then Ok (VInt (int_number (order_for ca fa) it (window d p (width_bytes it)))) (p + width_bytes it)
    else Err (mkerr p InvalidByteLength) p.
Proof.
  intros Hl Hb Hd. cbn [dec]. unfold dec_int, bind, ret. rewrite Hl, Hb, take_int_spec by exact Hd.
  unfold ko. change (named_order (KOrder (get_byteorder ca fa))) with (get_byteorder ca fa). rewrite <- order_for_get1.
  destruct (p + width_bytes it <=? size d); reflexivity.
Qed.
Lemma value_inb_in it z : value_in it z -> value_inb it z = true.
Proof. unfold value_in, value_inb. destruct (is_signed it); intros H; apply andb_true_iff; rewrite Z.leb_le, Z.ltb_lt; exact H. Qed.
Lemma int_order_enc it ca fa z : a_length fa = None -> a_bits fa = None -> value_in it z ->
  writes_as (enc (TInt it) ca fa (VInt z)) (digits (order_for ca fa) (N.to_nat (width_bytes it)) (unsigned it z)).
Proof.
  intros Hl Hb Hz. apply encoder_writes; [exact I|]. cbn [wire]. unfold wire_int. rewrite (value_inb_in _ _ Hz), Hb, Hl. reflexivity.
Qed.
(** One field of a struct with nothing but a byte order. *)
Lemma field_order named c o it ca fa d p : allocatable d ->
  let order := match o, c_order c with Some bo, _ => bo | None, Some bo => bo | None, None => Be end in
  let f := match o with Some bo => at_order (OConst bo) plain | None => plain end in
  dec (TStruct named c [(f, TInt it)]) ca fa d p =
    if p + width_bytes it <=? size d
    then Ok (VList [VInt (int_number order it (window d p (width_bytes it)))]) (p + width_bytes it)
    else Err (mkerr p InvalidByteLength) p.
Proof.
  intros Hd order f. cbn [dec]. cbn [dec_fields].
  assert (HM : exists own, modifiers f (mkenv [] (k_vars ca)) = Some own /\ own = set_order o no_fattr) by (subst f; destruct o; eexists; split; reflexivity).
  destruct HM as (own & HM & HO). unfold bind at 1. rewrite HM.
  assert (HP : (if negb named && negb (f_use f) then no_fattr else own) = own) by (subst; destruct named, o; reflexivity).
  rewrite HP. clear HP. unfold bind at 1. unfold dec_field, bind, ret.
  replace (f_offset f) with (@None expr) by (subst f; destruct o; reflexivity).
  replace (f_with_decode f) with (@None (env -> cattr -> fattr -> rd val)) by (subst f; destruct o; reflexivity).
  replace (f_skip_decode f) with (@None val) by (subst f; destruct o; reflexivity).
  replace (f_from_str f) with (@None ((bytes -> option val) * (val -> bytes))) by (subst f; destruct o; reflexivity).
  replace (f_if f) with (@None (env -> bool)) by (subst f; destruct o; reflexivity).
  replace (f_untake f) with false by (subst f; destruct o; reflexivity).
  replace (f_value_decode f) with (@None (env -> val -> val)) by (subst f; destruct o; reflexivity).
  replace (f_check f) with (@None (env -> val)) by (subst f; destruct o; reflexivity).
  cbn [dec_offset eval_opt option_map].
  unfold get_position, ret. rewrite int_order by (subst; auto).
  assert (HF : order_for (own_cattr c) own = order) by (subst own order; destruct o; reflexivity). rewrite HF.
  destruct (p + width_bytes it <=? size d); reflexivity.
Qed.
