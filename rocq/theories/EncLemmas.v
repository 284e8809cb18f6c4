(** The encoder writes the wire format. *)
From Verif Require Import Base Ints Reader Writer Spec SpecOps RunSpec Schema Decode Encode WireSpec.
From Verif Require Import BaseLemmas ReaderLemmas ReaderHist WriterLemmas WriterHist CodecBase BitsLemmas.
From Verif Require Import Schema Decode Encode WireSpec.

(** ** Modifiers that are the same as far as encoding goes *)
Record same_part (t : ty) (fa fb : fattr) : Prop := {
  sp_given : given (a_length fa) = given (a_length fb);
  sp_length : ignores_length t = false -> a_length fa = a_length fb;
  sp_order : a_order fa = a_order fb;
  sp_linend : a_linend fa = a_linend fb;
  sp_linend_value : a_linend_value fa = a_linend_value fb;
  sp_bits : a_bits fa = a_bits fb;
  sp_bits_start : a_bits_start fa = a_bits_start fb;
  sp_byte_count : a_byte_count fa = a_byte_count fb;
  sp_remaining : a_remaining fa = a_remaining fb;
  sp_count : given (a_count fa) = given (a_count fb);
  sp_try_count : given (a_try_count fa) = given (a_try_count fb);
  sp_outside : a_byte_count_outside fa = a_byte_count_outside fb;
  sp_key : a_key fa = a_key fb;
  sp_split : a_split fa = a_split fb;
  sp_branch : given (a_branch fa) = given (a_branch fb);
  sp_loop : a_loop fa = a_loop fb
}.
Lemma part_same t fa fb : encoding_part t fa = encoding_part t fb -> same_part t fa fb.
Proof.
  destruct fa, fb. unfold encoding_part, encoding_part_of; cbn. intros E; injection E; intros; subst.
  split; cbn; try assumption; try reflexivity.
  - destruct (ignores_length t); [assumption|subst; reflexivity].
  - intros Ht; rewrite Ht in *; assumption.
Qed.
Lemma same_user x doc fa fb : same_part (TUser x doc) fa fb -> encoding_part_of false fa = encoding_part_of false fb.
Proof.
  intros [H1 H2 H3 H4 H5 H6 H7 H8 H9 H10 H11 H12 H13 H14 H15 H16]. specialize (H2 eq_refl).
  unfold encoding_part_of. rewrite H2, H3, H4, H5, H6, H7, H8, H9, H10, H11, H12, H13, H14, H15, H16. reflexivity.
Qed.
Lemma same_refl t fa : same_part t fa fa.
Proof. split; auto. Qed.
Lemma same_sub t t1 fa fb : (ignores_length t = true -> ignores_length t1 = true) ->
  same_part t fa fb -> same_part t1 fa fb.
Proof.
  intros H S. destruct S. split; auto. intros H1. apply sp_length0.
  destruct (ignores_length t); [rewrite H in H1 by reflexivity; discriminate|reflexivity].
Qed.
Lemma given_none o o' : given o = given o' -> (o = None <-> o' = None).
Proof. destruct o, o'; cbn; split; congruence. Qed.
Lemma same_for_key t1 t fa fb : (ignores_length t = true -> ignores_length t1 = true) ->
  same_part t fa fb -> same_part t1 (for_key fa) (key_fattr fb).
Proof.
  intros H S. unfold for_key, key_fattr. rewrite <- (sp_split _ _ _ S). destruct (a_split fa).
  - apply same_refl.
  - exact (same_sub _ _ _ _ H S).
Qed.
Lemma same_for_value t1 t fa fb : (ignores_length t = true -> ignores_length t1 = true) ->
  same_part t fa fb -> same_part t1 (for_value fa) (value_fattr fb).
Proof.
  intros H S. unfold for_value, value_fattr.
  rewrite <- (sp_linend_value _ _ _ S), <- (sp_linend _ _ _ S). destruct (a_linend_value fa).
  - apply same_refl.
  - destruct (a_linend fa); [apply same_refl|exact (same_sub _ _ _ _ H S)].
Qed.

Lemma order_for_get ca cb t fa fb : k_order ca = k_order cb -> same_part t fa fb ->
  order_for ca fa = get_byteorder cb fb.
Proof.
  intros Hk S. unfold order_for, get_byteorder. rewrite <- (sp_order _ _ _ S), <- Hk.
  destruct (a_order fa), (k_order ca); reflexivity.
Qed.

Lemma modifiers_inv f en fa : modifiers f en = Some fa ->
  (f_use f = false /\ fa = no_fattr) \/
  (f_use f = true /\ a_length fa = eval_opt (f_length f) en /\ a_bits fa = eval_opt (f_bits f) en /\
   a_bits_start fa = f_bits_start f /\ a_byte_count fa = eval_opt (f_byte_count f) en /\
   a_linend fa = false).
Proof.
  unfold modifiers. destruct (f_use f).
  - intros H. right. destruct (match f_order f with Some _ => _ | None => _ end); [|discriminate].
    injection H as <-. cbn. auto 10.
  - intros H; injection H as <-. auto.
Qed.
Lemma bare_modifiers f en : bare f = true -> modifiers f en = Some no_fattr.
Proof.
  destruct f as [u o l c tc b bi bs bc bo r k s li lo of fu un sd se fs ifx vd ve ch va].
  unfold bare, modifiers; cbn -[no_fattr].
  destruct o; [discriminate|]. destruct l; [discriminate|]. destruct c; [discriminate|].
  destruct tc; [discriminate|]. destruct b; [discriminate|]. destruct bi; [discriminate|].
  destruct bc; [discriminate|]. destruct bo; [discriminate|]. destruct k; [discriminate|].
  destruct s; [discriminate|]. destruct li; [discriminate|]. destruct lo; [discriminate|].
  destruct bs; [discriminate|]. destruct r; [discriminate|]. intros _. destruct u; reflexivity.
Qed.

(** ** Leaves *)

Lemma writes_digits_uint bo v n : n <= 8 -> writes (push_uint (KOrder bo) v n) (digits bo (N.to_nat n) v).
Proof.
  intros Hn. apply (writes_wop (WPushUint (KOrder bo) v n)). cbn [image named_order].
  destruct (N.leb_spec n 8); [reflexivity|lia].
Qed.
Lemma writes_u8 n : writes (push_u8 n) [byte_of n].
Proof. exact (writes_push [byte_of n]). Qed.
Lemma writes_opt s : writes (push_opt s) (optional s).
Proof. destruct s; [apply writes_push|apply writes_ret]. Qed.
Lemma writes_eq {A} (m : wr A) w w' : w = w' -> writes m w -> writes m w'.
Proof. intros ->; auto. Qed.

Lemma enc_int_writes it ca cb fa fb z w : k_order ca = k_order cb -> same_part (TInt it) fa fb ->
  wire_int it ca fa z = Some w -> writes (enc_int it cb fb z) w.
Proof.
  intros Hk S. unfold wire_int, enc_int.
  rewrite <- (order_for_get _ _ _ _ _ Hk S), <- (sp_bits _ _ _ S), <- (sp_length _ _ _ S eq_refl).
  destruct (value_inb it z); [cbn [negb]|discriminate].
  destruct (a_bits fa); [discriminate|].
  intros H. unfold wbind. cbn [wret].
  destruct (a_length fa) as [l|].
  - destruct (N.leb_spec l (width_bytes it)); [|discriminate].
    destruct (N.leb_spec l 8); [|discriminate]. cbn [andb] in H. injection H as <-.
    destruct (N.ltb_spec (sizeN it) l); [rewrite <- width_sizeN in *; lia|].
    rewrite unsigned_raw. apply writes_digits_uint; assumption.
  - injection H as <-. apply (writes_wop (WPushInt (KOrder (order_for ca fa)) it z)). reflexivity.
Qed.

Lemma enc_raw_writes t ca cb fa fb l w : k_order ca = k_order cb -> same_part t fa fb ->
  frame ca fa l = Some w -> writes (enc_raw cb fb l) w.
Proof.
  intros Hk S. unfold frame, enc_raw, ko.
  rewrite <- (order_for_get _ _ _ _ _ Hk S), <- (sp_key _ _ _ S), <- (sp_split _ _ _ S),
    <- (sp_byte_count _ _ _ S), <- (sp_linend _ _ _ S), <- (sp_linend_value _ _ _ S), <- (sp_remaining _ _ _ S).
  pose proof (sp_given _ _ _ S) as Hl.
  intros H.
  destruct (match a_length fa, a_byte_count fa with Some _, _ => _ | _, _ => _ end) as [framed|] eqn:E;
    [|discriminate].
  cbn [option_map] in H. injection H as <-.
  assert (Hn : forall l', writes (plus (push l') (push_opt None)) l').
  { intros l'. apply writes_eq with (l' ++ []); [apply app_nil_r|]. apply writes_plus; [apply writes_push|apply writes_ret]. }
  assert (H0 : forall m w, writes m w -> writes (plus (wret 0) m) w).
  { intros m w Hw. apply (writes_plus (wret 0) m [] w); [apply writes_ret|exact Hw]. }
  destruct (a_length fa), (a_length fb); try discriminate.
  - injection E as <-. do 2 (apply writes_plus; [apply writes_opt|]). apply H0, Hn.
  - destruct (a_byte_count fa) as [k|].
    + destruct (N.leb_spec k 8); [|discriminate]. injection E as <-.
      do 2 (apply writes_plus; [apply writes_opt|]).
      apply writes_plus; [apply writes_digits_uint; assumption|apply Hn].
    + destruct (a_linend fa).
      { injection E as <-. do 2 (apply writes_plus; [apply writes_opt|]). apply H0.
        apply writes_plus; [apply writes_push|]. apply (writes_opt (Some [x0d; x0a])). }
      destruct (a_linend_value fa) as [s|].
      { injection E as <-. do 2 (apply writes_plus; [apply writes_opt|]). apply H0.
        apply writes_plus; [apply writes_push|]. apply (writes_opt (Some s)). }
      destruct (a_remaining fa); injection E as <-; do 2 (apply writes_plus; [apply writes_opt|]).
      * apply H0, Hn.
      * change (byte_of (size l) :: l) with ([byte_of (lenN l)] ++ l).
        apply writes_plus; [apply writes_u8|apply Hn].
Qed.

Lemma octets_to_bytes bo l : octets bo l = to_bytes bo (length l) (be_val l).
Proof.
  destruct bo; cbn [octets to_bytes].
  - symmetry. apply (to_from_bytes Be).
  - symmetry. unfold be_val. rewrite <- (rev_length l). apply to_le_le_val.
Qed.
Lemma enc_mac_writes t ca cb fa fb l : k_order ca = k_order cb -> same_part t fa fb -> size l = 6 ->
  writes (enc_mac cb fb l) (octets (order_for ca fa) l).
Proof.
  intros Hk S Hl. unfold enc_mac, ko. rewrite <- (order_for_get _ _ _ _ _ Hk S), be_val_zeros_app.
  rewrite octets_to_bytes, <- digits_to_bytes. unfold size in Hl.
  replace (length l) with (N.to_nat 6) by lia. apply writes_digits_uint; lia.
Qed.
Lemma enc_ip_writes t ca cb fa fb l : k_order ca = k_order cb -> same_part t fa fb ->
  writes (enc_ip cb fb l) (octets (order_for ca fa) l).
Proof.
  intros Hk S. unfold enc_ip. rewrite <- (order_for_get _ _ _ _ _ Hk S).
  apply (writes_wop (WPushOrderArray l (order_for ca fa))). destruct (order_for ca fa); reflexivity.
Qed.
Lemma count_writes t ca cb fa fb n w : k_order ca = k_order cb -> same_part t fa fb ->
  count_prefix ca fa n = Some w -> writes (push_count_and_try_count cb fb n) w.
Proof.
  intros Hk S. unfold count_prefix, push_count_and_try_count, ko.
  rewrite <- (order_for_get _ _ _ _ _ Hk S), <- (sp_outside _ _ _ S).
  pose proof (sp_count _ _ _ S) as Hc. pose proof (sp_try_count _ _ _ S) as Ht.
  destruct (a_count fa), (a_count fb); try discriminate;
  destruct (a_try_count fa), (a_try_count fb); try discriminate;
  destruct (a_byte_count_outside fa) as [k|]; try discriminate; intros H;
  try (injection H as <-; apply writes_ret).
  - destruct (N.leb_spec k 8); [|discriminate]. injection H as <-. apply writes_digits_uint; assumption.
  - injection H as <-. apply writes_u8.
Qed.

(** ** Sequences *)
Lemma enc_list_writes {A} (e : A -> wr N) (w : A -> option bytes) l : forall out,
  (forall x y, In x l -> w x = Some y -> writes (e x) y) ->
  all_of (map w l) = Some out -> writes (enc_list e l) out.
Proof.
  induction l as [|x l IH]; intros out He H; cbn [map] in H.
  - injection H as <-. apply writes_ret.
  - destruct (all_of_cons _ _ _ H) as (a & b & Ha & Hb & ->).
    apply writes_plus; [apply He; [left; reflexivity|exact Ha]|].
    apply IH; [|exact Hb]. intros y z Hy. apply He. right; exact Hy.
Qed.
Lemma pad_writes b n : writes (enc_list push_u8 (repeat b n)) (repeat (byte_of b) n).
Proof.
  induction n as [|n IH]; [apply writes_ret|].
  cbn [repeat enc_list]. apply (writes_plus _ _ [byte_of b]); [apply writes_u8|exact IH].
Qed.
Lemma offset_writes f en : writes (enc_offset f en) (padding f en).
Proof.
  unfold enc_offset, padding, eval_opt. destruct (f_offset f) as [e|]; cbn [option_map]; [|apply writes_ret].
  generalize (N.to_nat (as_usize (e en))). intros n.
  apply writes_eq with (repeat (byte_of (f_full f)) n ++ []); [apply app_nil_r|].
  apply writes_bind; [apply pad_writes|intros _; apply writes_ret].
Qed.

(** ** Bit fields *)

Definition group_bytes (g : option (ity * byteorder * N)) : bytes :=
  match g with
  | None => []
  | Some (it, bo, word) => digits bo (N.to_nat (width_bytes it)) word
  end.

Lemma same_ity_eq a b : same_ity a b = true -> a = b.
Proof. destruct a, b; cbn; congruence. Qed.
Lemma same_order_eq a b : same_order a b = true -> a = b.
Proof. destruct a, b; cbn; congruence. Qed.

Lemma digits_lenN bo n v : lenN (digits bo n v) = N.of_nat n.
Proof. unfold lenN. rewrite digits_length. reflexivity. Qed.

Lemma push_int_digits bo it u d p : is_signed it = false -> u < 256 ^ width_bytes it ->
  small d -> p + width_bytes it < W63 ->
  push_int (KOrder bo) it (Z.of_N u) (mkbuf d p)
  = Ok (width_bytes it) (mkbuf (overwrite d p (digits bo (N.to_nat (width_bytes it)) u)) (p + width_bytes it)).
Proof.
  intros Hs Hu Hd Hp. pose proof (image_push (WPushInt (KOrder bo) it (Z.of_N u)) (mkbuf d p)) as H.
  cbn [image run_wop named_order] in H. rewrite H. clear H.
  assert (Hun : unsigned it (Z.of_N u) = u).
  { unfold unsigned. rewrite <- imod_width, imod_256, <- N2Z.inj_mod, N2Z.id. apply N.mod_small, Hu. }
  rewrite Hun. pose proof (digits_lenN bo (N.to_nat (width_bytes it)) u) as HL. rewrite N2Nat.id in HL.
  rewrite push_ok; [rewrite HL; reflexivity|exact Hd|rewrite HL; exact Hp|].
  right. intros E. rewrite E, lenN_nil in HL. destruct it; cbn in HL; lia.
Qed.

Lemma overwrite_in d p a : p <= lenN d ->
  overwrite d p a = firstn (N.to_nat p) d ++ a ++ skipn (N.to_nat p + length a) d.
Proof.
  intros Hn. unfold overwrite. change (size d) with (lenN d).
  replace (N.to_nat (p - lenN d)) with O by lia. cbn [repeat]. rewrite app_nil_r. reflexivity.
Qed.
Lemma overwrite_same d p a b : p <= lenN d -> lenN a = lenN b ->
  overwrite (overwrite d p a) p b = overwrite d p b.
Proof.
  intros Hp HL. rewrite (overwrite_in d p a Hp), (overwrite_in d p b Hp).
  set (F := firstn (N.to_nat p) d).
  assert (HF : lenN F = p) by (apply lenN_firstn; exact Hp).
  rewrite <- HF at 2. rewrite overwrite_inside by exact HL.
  do 2 f_equal. f_equal. unfold lenN in HL. lia.
Qed.

(** The loop that reads the word back and the push that puts it in place again. *)
Lemma bits_merge_continues it bo word v d p : is_signed it = false ->
  width_bytes it <= 8 -> word < 256 ^ width_bytes it ->
  let l := digits bo (N.to_nat (width_bytes it)) word in
  room d p l ->
  bits_merge it bo v (mkbuf (overwrite d p l) (p + lenN l))
  = Ok (Z.lor v (Z.of_N word)) (mkbuf (overwrite d p l) p).
Proof.
  intros Hs Hw Hword l (Hp & Hd & Hr).
  assert (HL : lenN l = width_bytes it) by (unfold l; rewrite digits_lenN; lia).
  unfold bits_merge, wbind, on_reader, get_position, set_position. cbn [b_data b_pos].
  rewrite <- width_sizeN, HL in *.
  assert (Hsub : wsub (p + width_bytes it) (width_bytes it) = p).
  { rewrite wsub_small; [lia|lia|]. lia. }
  rewrite Hsub.
  assert (Hov : small (overwrite d p l)) by (unfold small; rewrite overwrite_size, HL; unfold small in Hd; lia).
  pose proof (uint_written (KOrder bo) word (width_bytes it) d p Hw (or_introl Hp)) as HU.
  cbn [order_of] in HU. rewrite <- digits_to_bytes in HU. fold l in HU. cbn zeta in HU. rewrite (HU Hov).
  cbn [b_data b_pos]. rewrite Hsub. rewrite N.mod_small by exact Hword.
  rewrite cast_mask by assumption. reflexivity.
Qed.

Lemma enc_bits_start it ca fa mask z : a_bits fa = Some mask -> a_bits_start fa = true ->
  a_length fa = None -> mask_ok it mask = true -> value_inb it z = true ->
  writes (enc_int it ca fa z)
         (digits (get_byteorder ca fa) (N.to_nat (width_bytes it)) (placed it mask z)).
Proof.
  intros H1 H2 H3 Hm Hz d p (Hp & Hd & Hr). unfold enc_int. rewrite H1, H2, H3.
  apply value_inb_range in Hz. unfold wbind, wret. rewrite bits_place_placed by assumption.
  destruct (mask_ok_inv _ _ Hm) as (Hs & _).
  rewrite digits_lenN, N2Nat.id in *. exists (width_bytes it).
  apply push_int_digits; auto using placed_lt.
Qed.
Lemma enc_bits_next it ca fa mask z word : a_bits fa = Some mask -> a_bits_start fa = false ->
  a_length fa = None -> mask_ok it mask = true -> value_inb it z = true ->
  width_bytes it <= 8 -> word < 256 ^ width_bytes it ->
  continues (enc_int it ca fa z)
            (digits (get_byteorder ca fa) (N.to_nat (width_bytes it)) word)
            (digits (get_byteorder ca fa) (N.to_nat (width_bytes it)) (N.lor word (placed it mask z))).
Proof.
  intros H1 H2 H3 Hm Hz Hw Hword d p Hr0 Hr1. unfold enc_int. rewrite H1, H2, H3.
  apply value_inb_range in Hz. destruct (mask_ok_inv _ _ Hm) as (Hs & _).
  unfold wbind. rewrite bits_merge_continues by assumption.
  rewrite bits_place_placed by assumption. rewrite lor_of_N, N.lor_comm.
  destruct Hr0 as (Hp & Hd & Hr0). destruct Hr1 as (_ & _ & Hr1).
  rewrite digits_lenN, N2Nat.id in *. exists (width_bytes it).
  rewrite push_int_digits; [|exact Hs|apply lor_lt; [exact Hword|apply placed_lt]| |exact Hr1].
  - rewrite overwrite_same; [reflexivity|exact Hp|]. rewrite !digits_lenN. reflexivity.
  - unfold small. rewrite overwrite_size, digits_lenN, N2Nat.id. unfold small in Hd. lia.
Qed.

(** ** Fields *)
Definition E (t : ty) : Prop := forall ca cb fa fb v w, well_formed t ->
  k_order ca = k_order cb -> same_part t fa fb -> wire t ca fa v = Some w -> writes (enc t cb fb v) w.

Lemma wire_nothing f t ca fa v x : writes_nothing f t = true -> (f_byte_count f = None -> a_byte_count fa = None) ->
  wire t ca fa v = Some x -> x = [].
Proof.
  destruct t; try discriminate; cbn [writes_nothing].
  - destruct v; try discriminate. cbn. congruence.
  - destruct (e_branching e) eqn:Eb; try discriminate. destruct (c_byte_count (e_c e)) eqn:Ec; [discriminate|].
    destruct (f_byte_count f); [discriminate|]. rewrite andb_true_iff. intros [Ht Hv] Hbc.
    specialize (Hbc eq_refl). destruct v; try discriminate. cbn [wire].
    generalize (numbering 0 (map fst vs)). revert i Hv.
    induction vs as [|[u us] vs IH]; intros i Hv ns; [destruct i; discriminate|].
    destruct ns as [|n ns]; [discriminate|].
    cbn [forallb] in Hv. apply andb_true_iff in Hv as [Hu Hv]. destruct i; [|apply IH; exact Hv].
    cbn [fst snd] in Hu. destruct us; [|discriminate].
    intros H. destruct (and_then_some _ _ _ H) as (a & b & Ha & Hb & ->).
    destruct (and_then_some _ _ _ Hb) as (b1 & b2 & Hb1 & Hb2 & ->).
    unfold tag_wire in Ha. rewrite Eb, Ec, Hbc, Ht in Ha. 
    assert (a = []) by (destruct (a_branch fa); congruence). subst.
    unfold padding in Hb1. unfold no_offset in Hu. destruct (f_offset (v_attr u)); [discriminate|].
    injection Hb1 as <-. cbn in Hb2. destruct fs; [|discriminate]. injection Hb2 as <-. reflexivity.
Qed.

Lemma field_writes t f ca cb fa fb en en' v w : E t -> well_formed t ->
  k_order ca = k_order cb -> same_part t fa fb ->
  (f_byte_count f = None -> a_byte_count fa = None) ->
  padding f en = padding f en' -> stored f en v = stored f en' v -> from_str_ok f t ->
  f_bits f = None ->
  (no_with f = true \/ exists e doc, f_with_encode f = Some e /\ f_format f = Some doc /\
     exists d, keeps_format (doc en) d (e en') /\ fa = fb) ->
  field_wire (wire t) f ca fa en v = Some w ->
  writes (enc_field (enc t) f cb fb en' v) w.
Proof.
  intros HE Hwf Hk HS Hbc Hpad Hst Hfs Hbits Hwith. unfold field_wire, enc_field.
  destruct Hwith as [Hwith|(e & doc & -> & -> & d & HK & <-)].
  2:{ intros H. exact (writes_as_writes _ _ (kf_write _ _ _ HK ca cb fa fa v w Hk eq_refl H)). }
  unfold no_with in Hwith. destruct (f_with_decode f); [discriminate|]. destruct (f_with_encode f); [discriminate|].
  destruct (f_format f); [discriminate|]. clear Hwith.
  destruct (f_skip_encode f); [intros H; injection H as <-; apply writes_ret|].
  rewrite Hbits.
  destruct (f_from_str f) as [[parse show]|] eqn:Ef.
  - destruct Hfs as [Hfs|(Ho & _ & Hve & Hw)]; [congruence|].
    destruct (wire t ca fa v) as [x|] eqn:Ex; [|discriminate].
    assert (x = []) by (eapply wire_nothing; eauto). subst x.
    unfold padding. rewrite Ho. intros H. destruct (and_then_some _ _ _ H) as (a & b & Ha & Hb & ->).
    injection Ha as <-. cbn [app].
    rewrite <- (app_nil_r b). apply writes_plus; [eapply enc_raw_writes; eauto|].
    destruct (f_untake f); [apply writes_ret|].
    unfold enc_offset. rewrite Ho, Hve. cbn [eval_opt option_map].
    unfold wbind, wret. eapply HE; eauto.
  - intros H. apply (writes_plus _ _ [] w); [apply writes_ret|].
    destruct (f_untake f); [injection H as <-; apply writes_ret|].
    destruct (and_then_some _ _ _ H) as (a & b & Ha & Hb & ->). injection Ha as <-.
    apply writes_bind; [rewrite Hpad; apply offset_writes|]. intros _.
    change (writes (enc t cb fb (stored f en' v)) b). rewrite <- Hst. eapply HE; eauto.
Qed.

Definition word_ok (g : option (ity * byteorder * N)) : Prop :=
  match g with None => True | Some (it, _, word) => word < 256 ^ width_bytes it end.

Lemma fields_continue inherit vars vars' fs : 
  Forall (fun ft => E (snd ft)) fs ->
  every (fun ft : fspec * ty => let (f, t) := ft in
           well_formed t /\ encodes_without_variables f t /\ from_str_ok f t /\ with_ok f) fs ->
  forall group ca cb prev done vs w clear,
  (inherit = true -> nothing_left_over clear (map fst fs) = true /\ (clear = true -> prev = no_fattr)) ->
  k_order ca = k_order cb -> word_ok group ->
  fields_wire wire vars group fs ca done vs = Some w ->
  continues (enc_fields enc inherit vars' cb fs prev done vs) (group_bytes group) w
  /\ (lenN (group_bytes group) <= lenN w).
Proof.
  induction 1 as [|[f t] fs Ht Hfs IH]; intros Hev group ca cb prev done vs w clear Hin Hk Hg H.
  - destruct vs; [|discriminate]. cbn in H. destruct group; [discriminate|]. injection H as <-.
    split; [apply continues_ret|cbn; lia].
  - destruct vs as [|v vs]; [discriminate|]. cbn [every] in Hev. destruct Hev as [(Hwf & Hvar & Hfo & Hwith) Hev].
    cbn [snd] in Ht. cbn [fields_wire] in H. cbn [enc_fields].
    destruct (modifiers f (mkenv done vars)) as [fa|] eqn:Em; [|discriminate].
    destruct (Hvar done vars vars') as (Hmod & Hpad & Hst). rewrite Em in Hmod.
    destruct (modifiers f (mkenv done vars')) as [own|] eqn:Em'; [|discriminate].
    cbn [option_map] in Hmod.
    assert (Hmod' : same_part t fa own) by (apply part_same; congruence). clear Hmod; rename Hmod' into Hmod.
    set (fb := if inherit && negb (f_use f) then prev else own).
    assert (Hfb : fb = own).
    { unfold fb. destruct inherit; [|reflexivity]. destruct (f_use f) eqn:Eu; [reflexivity|]. cbn [negb andb].
      destruct (Hin eq_refl) as [Hn Hp]. cbn [map fst nothing_left_over] in Hn. rewrite Eu in Hn.
      apply andb_true_iff in Hn as [Hc _]. rewrite (Hp Hc).
      unfold modifiers in Em'. rewrite Eu in Em'. congruence. }
    rewrite Hfb. clear fb Hfb.
    assert (Hin' : inherit = true -> nothing_left_over (if f_use f then bare f else clear) (map fst fs) = true
                   /\ ((if f_use f then bare f else clear) = true -> own = no_fattr)).
    { intros Hi. destruct (Hin Hi) as [Hn Hp]. cbn [map fst nothing_left_over] in Hn.
      destruct (f_use f) eqn:Eu.
      - split; [exact Hn|]. intros Hb. pose proof (bare_modifiers f (mkenv done vars') Hb). congruence.
      - apply andb_true_iff in Hn as [_ Hn]. split; [exact Hn|]. intros _.
        unfold modifiers in Em'. rewrite Eu in Em'. congruence. }
    specialize (IH Hev).
    destruct (f_bits f) as [be|] eqn:Ebits.
    + (* a bit field *)
      destruct t as [it| | | | | | | | | | | | | | | | | | | | |]; try discriminate.
      destruct (stored f (mkenv done vars) v) as [z| | | | | | | | | |] eqn:Est; try discriminate.
      destruct (a_bits fa) as [mask|] eqn:Ea; [|discriminate].
      destruct (bits_only f && mask_ok it mask && value_inb it z) eqn:Eok; [|discriminate].
      apply andb_true_iff in Eok as [Eok Hz]. apply andb_true_iff in Eok as [Hbo Hmask].
      assert (Hown : a_bits own = Some mask) by (rewrite <- (sp_bits _ _ _ Hmod); exact Ea).
      assert (Huse : a_bits_start own = f_bits_start f /\ a_length own = None).
      { destruct (modifiers_inv _ _ _ Em') as [[_ ->]|(_ & Hl & _ & Hbs & _)]; [discriminate|].
        split; [exact Hbs|]. rewrite Hl. unfold bits_only in Hbo.
        destruct (f_offset f), (f_skip_decode f), (f_from_str f), (f_if f), (f_length f); try discriminate. reflexivity. }
      destruct Huse as [Hbs Hlen].
      assert (Hord : order_for ca fa = get_byteorder cb own) by (eapply order_for_get; eauto).
      rewrite Hord in H. set (bo := get_byteorder cb own) in *.
      assert (Hfield : forall b, enc_field (enc (TInt it)) f cb own (mkenv done vars') v b
                       = plus (wret 0) (enc_int it cb own z) b).
      { unfold bits_only in Hbo. unfold enc_field, enc_offset.
        destruct (f_offset f), (f_skip_decode f), (f_from_str f), (f_if f), (f_length f); try discriminate.
        apply andb_true_iff in Hbo as [Hbo Hno]. apply negb_true_iff in Hbo. unfold no_with in Hno.
        destruct (f_with_decode f), (f_with_encode f); try discriminate. rewrite Hbo, Ebits. intros b. unfold stored in Hst, Est. rewrite Hst in Est. rewrite Est. reflexivity. }
      assert (Hgo : forall g word', word' < 256 ^ width_bytes it ->
        continues (enc_int it cb own z) (group_bytes g) (digits bo (N.to_nat (width_bytes it)) word') ->
        (lenN (group_bytes g) <= width_bytes it) ->
        (if f_untake f
         then fields_wire wire vars (Some (it, bo, word')) fs (published f (mkenv (done ++ [v]) vars) ca) (done ++ [v]) vs
         else and_then (Some (digits bo (N.to_nat (width_bytes it)) word'))
                (fields_wire wire vars None fs (published f (mkenv (done ++ [v]) vars) ca) (done ++ [v]) vs)) = Some w ->
        continues (plus (enc_field (enc (TInt it)) f cb own (mkenv done vars') v)
                        (enc_fields enc inherit vars' cb fs own (done ++ [v]) vs)) (group_bytes g) w
        /\ lenN (group_bytes g) <= lenN w).
      { intros g word' Hw' Hc HL Hw.
        assert (Hcf : continues (enc_field (enc (TInt it)) f cb own (mkenv done vars') v)
                      (group_bytes g) (digits bo (N.to_nat (width_bytes it)) word')).
        { intros d p R0 R1. rewrite Hfield. unfold plus, wbind, wret.
          destruct (Hc d p R0 R1) as [a Ha]. rewrite Ha. eauto. }
        assert (HLd : lenN (digits bo (N.to_nat (width_bytes it)) word') = width_bytes it)
          by (rewrite digits_lenN; lia).
        destruct (f_untake f).
        - destruct (IH (Some (it, bo, word')) (published f (mkenv (done ++ [v]) vars) ca) cb own (done ++ [v]) vs w _ Hin' Hk Hw' Hw) as [HC HL'].
          cbn [group_bytes] in HC, HL'.
          split; [eapply continues_plus; [left; exact HL'|exact Hcf|exact HC]|lia].
        - destruct (and_then_some _ _ _ Hw) as (a & b & Ha & Hb & ->). injection Ha as <-.
          destruct (IH None (published f (mkenv (done ++ [v]) vars) ca) cb own (done ++ [v]) vs b _ Hin' Hk I Hb) as [HC _].
          cbn [group_bytes] in HC. apply writes_continues in HC.
          split; [eapply continues_plus; [left|exact Hcf|apply writes_after; exact HC]; rewrite lenN_app; lia|].
          rewrite lenN_app; lia. }
      destruct group as [[[it0 bo0] word]|].
      * destruct (f_bits_start f) eqn:Efs; [discriminate|].
        destruct (same_ity it0 it) eqn:E1; [|discriminate].
        destruct (same_order bo0 bo) eqn:E2; [|discriminate].
        destruct (N.leb_spec (width_bytes it) 8); [|discriminate]. cbn [andb] in H.
        apply same_ity_eq in E1. apply same_order_eq in E2. subst it0 bo0.
        apply (Hgo (Some (it, bo, word)) (N.lor word (placed it mask z))); [apply lor_lt; [exact Hg|apply placed_lt]| | |exact H].
        -- apply enc_bits_next; auto.
        -- cbn [group_bytes]. rewrite digits_lenN; lia.
      * destruct (f_bits_start f) eqn:Efs; [|discriminate].
        apply (Hgo None (placed it mask z)); [apply placed_lt| | |exact H].
        -- apply writes_continues. apply enc_bits_start; auto.
        -- cbn [group_bytes]. rewrite lenN_nil; lia.
    + destruct group; [discriminate|].
      destruct (and_then_some _ _ _ H) as (a & b & Ha & Hb & ->).
      assert (Hw1 : writes (enc_field (enc t) f cb own (mkenv done vars') v) a).
      { eapply field_writes; eauto.
        - intros Hnb. destruct (modifiers_inv _ _ _ Em) as [[_ ->]|(_ & _ & _ & _ & Hb' & _)]; [reflexivity|].
          rewrite Hb', Hnb. reflexivity.
        - unfold with_ok in Hwith. unfold no_with.
          destruct (f_with_decode f) as [wd|], (f_with_encode f) as [we|], (f_format f) as [doc|]; try contradiction; auto.
          right. exists we, doc. split; [reflexivity|]. split; [reflexivity|]. destruct Hwith as (_ & Hm & HKF).
          exists (wd (mkenv done vars)). split; [apply HKF|]. specialize (Hm done vars vars'). congruence. }
      destruct (IH None (published f (mkenv (done ++ [v]) vars) ca) cb own (done ++ [v]) vs b _ Hin' Hk I Hb) as [HC _].
      cbn [group_bytes] in *. apply writes_continues in HC. split; [|rewrite lenN_nil; lia].
      apply writes_continues, writes_plus; assumption.
Qed.

(** ** All types *)
Lemma E_leaf t : leaf t = true -> E t.
Proof.
  intros Hl ca cb fa fb v w Hwf Hk HS H.
  pose proof (order_for_get _ _ _ _ _ Hk HS) as Hbo.
  destruct t; try discriminate; cbn [wire] in H; cbn [enc].
  - destruct v; try discriminate. eapply enc_int_writes; eauto.
  - destruct v; try discriminate. injection H as <-.
    apply (writes_wop (WPushBool b)). reflexivity.
  - destruct v; try discriminate. injection H as <-. apply (writes_wop (WPushChar c)). reflexivity.
  - destruct v; try discriminate. injection H as <-. unfold ko. rewrite <- Hbo.
    apply (writes_wop (WPushF32 (KOrder (order_for ca fa)) bits)). reflexivity.
  - destruct v; try discriminate. injection H as <-. unfold ko. rewrite <- Hbo.
    apply (writes_wop (WPushF64 (KOrder (order_for ca fa)) bits)). reflexivity.
  - destruct v; try discriminate. eapply enc_raw_writes; eauto.
  - destruct v; try discriminate. eapply enc_raw_writes; eauto.
  - destruct v; try discriminate. destruct (N.eqb_spec (size l) 6); [|discriminate]. injection H as <-.
    eapply enc_mac_writes; eauto.
  - destruct v; try discriminate. destruct (N.eqb_spec (size l) 4); [|discriminate]. injection H as <-.
    eapply enc_ip_writes; eauto.
  - destruct v; try discriminate. destruct (N.eqb_spec (size l) 16); [|discriminate]. injection H as <-.
    eapply enc_ip_writes; eauto.
  - destruct v; try discriminate. destruct i as [|[|i]]; destruct fs as [|[] [|]]; try discriminate.
    + destruct (N.eqb_spec (size l) 4); [|discriminate]. injection H as <-. eapply enc_ip_writes; eauto.
    + destruct (N.eqb_spec (size l) 16); [|discriminate]. injection H as <-. eapply enc_ip_writes; eauto.
  - destruct v; try discriminate. destruct i as [|[|[|[|i]]]]; destruct fs as [|[] [|]]; try discriminate.
    + destruct (N.eqb_spec (size l) 4); [|discriminate]. injection H as <-. eapply enc_ip_writes; eauto.
    + destruct (N.eqb_spec (size l) 16); [|discriminate]. injection H as <-. eapply enc_ip_writes; eauto.
    + destruct (N.eqb_spec (size l) 6); [|discriminate]. injection H as <-. eapply enc_mac_writes; eauto.
    + eapply enc_int_writes; eauto. eapply same_sub; [|exact HS]. discriminate.
  - destruct v; try discriminate. injection H as <-. apply writes_ret.
  - exact (writes_as_writes _ _ (kf_write _ _ _ Hwf ca cb fa fb v w Hk (same_user _ _ _ _ HS) H)).
Qed.

Lemma zip_writes ts ca cb fa fb : k_order ca = k_order cb ->
  Forall E ts -> every (fun p : Prop => p) (map well_formed ts) ->
  (forall t, In t ts -> same_part t fa fb) ->
  forall l w, zip_wire (fun w x => w x) (map (fun t1 => wire t1 ca fa) ts) l = Some w ->
  writes (enc_seq (map (fun t1 => enc t1 cb fb) ts) l) w.
Proof.
  intros Hk. induction 1 as [|t ts Ht _ IH]; intros Hwf HS l w H.
  - destruct l; [|discriminate]. injection H as <-. apply writes_ret.
  - destruct l as [|v l]; [discriminate|]. cbn [map zip_wire] in H. cbn [map enc_seq].
    destruct Hwf as [Hw1 Hw2].
    destruct (and_then_some _ _ _ H) as (a & b & Ha & Hb & ->).
    apply writes_plus.
    + eapply Ht; eauto. apply HS; left; reflexivity.
    + apply IH; auto. intros t' Hi. apply HS; right; exact Hi.
Qed.

Lemma variant_index_numbering v next vs :
  numbering next (v :: vs) = variant_index v next :: numbering (variant_index v next + 1) vs.
Proof.
  cbn [numbering]. unfold variant_index.
  destruct (v_disc v); [reflexivity|]. destruct (v_range v) as [[[lo hi] incl]|]; [reflexivity|].
  destruct (v_value v); reflexivity.
Qed.
Lemma tag_writes t e v n ca cb fa fb w : k_order ca = k_order cb -> same_part t fa fb ->
  tag_wire e ca fa v n = Some w -> writes (push_tag e v n cb fb) w.
Proof.
  intros Hk HS. unfold tag_wire, push_tag, ko.
  rewrite <- (order_for_get _ _ _ _ _ Hk HS), <- (sp_byte_count _ _ _ HS).
  pose proof (sp_branch _ _ _ HS) as Hb.
  destruct (e_branching e).
  - destruct (a_branch fa), (a_branch fb); try discriminate; intros H; [injection H as <-; apply writes_ret|].
    destruct (a_byte_count fa) as [k|], (c_byte_count (e_c e)) as [k'|]; try discriminate.
    + destruct (N.leb_spec k 8); [|discriminate]. injection H as <-. apply writes_digits_uint; assumption.
    + destruct (N.leb_spec k' 8); [|discriminate]. injection H as <-. apply writes_digits_uint; assumption.
    + destruct (e_no_tag e); injection H as <-; [apply writes_ret|apply writes_u8].
  - intros H; injection H as <-. apply writes_push.
  - intros H; injection H as <-. apply writes_ret.
  - intros H; injection H as <-. apply writes_push.
Qed.

Theorem enc_writes_wire t : E t.
Proof.
  induction t using ty_nested_ind.
  - apply E_leaf; assumption.
  - (* arrays *)
    intros ca cb fa fb v w Hwf Hk HS H. destruct v; try discriminate. cbn [wire] in H. cbn [enc].
    destruct (Nat.eqb (length l) n); [|discriminate].
    eapply enc_list_writes; [|exact H]. intros x y _ Hx.
    eapply IHt; eauto. eapply same_sub; [|exact HS]. auto.
  - (* tuples *)
    intros ca cb fa fb v w Hwf Hk HS Hw. destruct v; try discriminate. cbn [wire] in Hw. cbn [enc].
    eapply zip_writes; eauto. intros t Hi. eapply same_sub; [|exact HS].
    cbn [ignores_length]. rewrite forallb_forall. intros Ha. apply Ha, in_map, Hi.
  - (* vectors *)
    intros ca cb fa fb v w Hwf Hk HS H. destruct v; try discriminate. cbn [wire] in H. cbn [enc].
    assert (HS1 : same_part t fa fb) by (eapply same_sub; [|exact HS]; auto).
    rewrite <- (sp_loop _ _ _ HS). destruct (a_loop fa) as [m|].
    + eapply enc_list_writes; [|exact H]. intros x y _ Hx. cbv beta in Hx.
      destruct (and_then_some _ _ _ Hx) as (a & b & Ha & Hb & ->). injection Ha as <-.
      apply writes_plus; [apply writes_push|]. eapply IHt; eauto.
    + destruct (and_then_some _ _ _ H) as (a & b & Ha & Hb & ->).
      apply writes_plus; [eapply count_writes; eauto|].
      eapply enc_list_writes; [|exact Hb]. intros x y _ Hx. eapply IHt; eauto.
  - (* sets *)
    intros ca cb fa fb v w Hwf Hk HS H. destruct v; discriminate.
  - (* maps *)
    intros ca cb fa fb v w Hwf Hk HS H. destruct v; try discriminate. cbn [wire] in H. cbn [enc].
    destruct Hwf as [Hw1 Hw2].
    destruct (and_then_some _ _ _ H) as (a & b & Ha & Hb & ->).
    apply writes_plus; [eapply count_writes; eauto|].
    eapply enc_list_writes; [|exact Hb]. intros x y _ Hx. cbv beta in Hx.
    destruct (and_then_some _ _ _ Hx) as (c & d & Hc & Hd & ->).
    apply writes_plus.
    + eapply IHt1; eauto. eapply same_for_key; [|exact HS]. cbn. rewrite andb_true_iff. tauto.
    + eapply IHt2; eauto. eapply same_for_value; [|exact HS]. cbn. rewrite andb_true_iff. tauto.
  - (* options *)
    intros ca cb fa fb v w Hwf Hk HS H. destruct v; try discriminate. destruct o as [v|]; cbn [wire] in H; cbn [enc].
    + eapply IHt; eauto. eapply same_sub; [|exact HS]. auto.
    + injection H as <-. apply writes_ret.
  - (* structs *)
    intros ca cb fa fb v w [Hwf1 Hwf2] Hk HS Hw. destruct v; try discriminate. cbn [wire] in Hw. cbn [enc].
    apply writes_continues.
    change (@nil byte) with (group_bytes None).
    eapply fields_continue with (clear := true); [exact H|exact Hwf2|discriminate|reflexivity|exact I|exact Hw].
  - (* enums *)
    intros ca cb fa fb v w Hwf Hk HS Hw. destruct v; try discriminate. cbn [wire] in Hw. cbn [enc].
    rename fs into xs. cbn [well_formed] in Hwf.
    apply (same_sub _ TUnit) in HS; [|reflexivity].
    match type of Hw with ?P vs (numbering 0 (map fst vs)) i = _ => set (pick := P) in Hw end.
    revert i w Hw Hwf. generalize 0.
    induction H as [|[u fs] vs Hu _ IH]; intros next i w Hw Hwf; [destruct i; discriminate|].
    cbn [map fst] in Hw. rewrite variant_index_numbering in Hw.
    cbn [every] in Hwf. destruct Hwf as [(Hbare & Hpad & Hf1 & Hf2) Hwf].
    destruct i as [|i]; [|apply IH; assumption].
    destruct (and_then_some _ _ _ Hw) as (a & b & Ha & Hb & ->).
    destruct (and_then_some _ _ _ Hb) as (b1 & b2 & Hb1 & Hb2 & ->). injection Hb1 as <-.
    cbn [enc_arms]. rewrite bare_modifiers by exact Hbare.
    apply writes_plus; [eapply tag_writes; eauto|].
    apply writes_bind; [rewrite Hpad, <- (Hpad (k_vars cb)); apply offset_writes|]. intros _.
    apply writes_continues. change (@nil byte) with (group_bytes None).
    eapply fields_continue with (clear := true);
      [exact Hu|exact Hf2|intros _; split; [apply Hf1; reflexivity|reflexivity]|reflexivity|exact I|exact Hb2].
Qed.
