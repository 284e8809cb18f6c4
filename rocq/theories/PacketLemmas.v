(** Proofs about the packets of the examples. *)
From Coq Require Import Lia.
From Verif Require Import Base Ints Reader Writer Spec SpecOps RunSpec BaseLemmas WriterLemmas Schema Utf8 Decode Encode Sugar WireSpec CodecBase FieldLemmas RoundTrip EncLemmas DecWire Packets PacketSpec.

Lemma num_in t x : is_signed t = false -> x < 256 ^ width_bytes t -> value_inb t (Z.of_N x) = true.
Proof. apply value_inb_small. Qed.
Lemma placed_small t mask x : x * 2 ^ lowest mask < 256 ^ width_bytes t -> placed t mask (Z.of_N x) = x * 2 ^ lowest mask.
Proof. intros H. unfold placed. rewrite N2Z.id. apply N.mod_small, H. Qed.

(** ** Two numbers in one word *)
Lemma land_high_low x y k : y < 2 ^ k -> N.land (x * 2 ^ k) y = 0.
Proof.
  intros H. apply N.bits_inj. intros i. rewrite N.land_spec, N.bits_0. destruct (N.lt_ge_cases i k) as [L|L].
  - rewrite N.mul_pow2_bits_low by exact L. reflexivity.
  - replace (N.testbit y i) with false; [apply andb_false_r|]. symmetry.
    destruct (N.eq_dec y 0) as [->|Hy]; [apply N.bits_0|]. apply N.bits_above_log2.
    apply N.lt_le_trans with k; [|exact L]. apply N.log2_lt_pow2; lia.
Qed.
Lemma lor_high_low x y k : y < 2 ^ k -> N.lor (x * 2 ^ k) y = x * 2 ^ k + y.
Proof.
  intros H. pose proof (land_high_low x y k H) as L. rewrite <- N.lxor_lor by exact L.
  symmetry. apply N.add_nocarry_lxor, L.
Qed.
Lemma under_high x y a k mask : lowest mask = k -> mask = N.ones a * 2 ^ k -> x < 2 ^ a -> y < 2 ^ k -> under mask (x * 2 ^ k + y) = x.
Proof.
  intros Hl Hm Hx Hy. unfold under. rewrite Hl, <- N.shiftr_div_pow2, N.shiftr_land, Hm, <- N.shiftl_mul_pow2 at 1.
  rewrite <- (N.shiftl_mul_pow2 (N.ones a)), N.shiftr_shiftl_l by lia. rewrite N.sub_diag, N.shiftl_0_r, N.land_ones, N.shiftr_div_pow2.
  rewrite N.shiftl_mul_pow2, N.div_add_l by (apply N.pow_nonzero; lia). rewrite N.div_small by exact Hy.
  rewrite N.add_0_r. apply N.mod_small, Hx.
Qed.
Lemma under_low x y k mask : lowest mask = 0 -> mask = N.ones k -> y < 2 ^ k -> under mask (x * 2 ^ k + y) = y.
Proof.
  intros Hl Hm Hy. unfold under. rewrite Hl, Hm, N.land_ones, N.pow_0_r, N.div_1_r, N.add_comm, N.mod_add by (apply N.pow_nonzero; lia).
  apply N.mod_small, Hy.
Qed.

(** ** The fields of a container, one after the other *)
Definition seg (vars : list (nat * N)) (fs : list (fspec * ty)) (ca : cattr) (done vs : list val) (w rest : bytes) : Prop :=
  fields_wire wire vars None fs ca done vs = Some w /\ fields_fit wire fits vars None fs ca done vs rest = true.
Lemma published_none f en ca : f_vars f = [] -> published f en ca = ca.
Proof. intros H. unfold published. rewrite H. destruct ca. reflexivity. Qed.
Lemma seg_nil vars ca done rest : seg vars [] ca done [] [] rest.
Proof. split; reflexivity. Qed.
Lemma seg_field vars f t r ca done v vs w1 w2 rest fa : f_bits f = None -> f_vars f = [] ->
  modifiers f (mkenv done vars) = Some fa ->
  field_wire (wire t) f ca fa (mkenv done vars) v = Some w1 ->
  field_fits (wire t) (fits t) f ca fa (mkenv done vars) v (w2 ++ rest) = true ->
  seg vars r ca (done ++ [v]) vs w2 rest -> seg vars ((f, t) :: r) ca done (v :: vs) (w1 ++ w2) rest.
Proof.
  intros Hb Hv Hm Hw Hf [H1 H2]. split.
  - cbn [fields_wire]. cbv zeta. rewrite Hm, Hb, Hw, published_none, H1 by exact Hv. unfold and_then. cbn [all_of]. rewrite app_nil_r. reflexivity.
  - cbn [fields_fit]. cbv zeta. rewrite Hm, Hb, published_none, H1 by exact Hv. cbn [optional]. rewrite Hf, H2. reflexivity.
Qed.
(** A field without modifiers. *)
Lemma seg_plain vars t r ca done v vs w1 w2 rest :
  wire t ca no_fattr v = Some w1 -> fits t ca no_fattr v (w2 ++ rest) = true ->
  seg vars r ca (done ++ [v]) vs w2 rest -> seg vars ((plain, t) :: r) ca done (v :: vs) (w1 ++ w2) rest.
Proof.
  intros Hw Hf H. eapply seg_field; try reflexivity; [| |exact H].
  - unfold field_wire, padding, and_then. cbn [plain f_format f_skip_encode f_from_str f_untake f_offset all_of stored f_value_encode]. unfold stored. cbn [f_value_encode plain].
    rewrite Hw, app_nil_r. reflexivity.
  - unfold field_fits, restored, stored, checked. cbn [plain f_format f_skip_decode f_skip_encode f_from_str f_value_encode f_value_decode f_check f_if f_untake negb andb].
    rewrite (proj2 (val_eqb_eq v v) eq_refl), Hf. reflexivity.
Qed.
(** Two numbers that share a word. *)
Lemma seg_pair vars f1 f2 it m1 m2 r ca done v1 v2 vs x1 x2 w2 rest fa1 fa2 bo word :
  f_bits f1 <> None -> f_bits f2 <> None -> f_vars f1 = [] -> f_vars f2 = [] -> bits_only f1 = true -> bits_only f2 = true ->
  f_bits_start f1 = true -> f_bits_start f2 = false -> f_untake f1 = true -> f_untake f2 = false ->
  f_check f1 = None -> f_check f2 = None ->
  modifiers f1 (mkenv done vars) = Some fa1 -> modifiers f2 (mkenv (done ++ [v1]) vars) = Some fa2 ->
  a_bits fa1 = Some m1 -> a_bits fa2 = Some m2 -> order_for ca fa1 = bo -> order_for ca fa2 = bo ->
  mask_ok it m1 = true -> mask_ok it m2 = true -> width_bytes it <= 8 ->
  stored f1 (mkenv done vars) v1 = num x1 -> restored f1 (mkenv done vars) (num x1) = v1 ->
  stored f2 (mkenv (done ++ [v1]) vars) v2 = num x2 -> restored f2 (mkenv (done ++ [v1]) vars) (num x2) = v2 ->
  value_inb it (Z.of_N x1) = true -> value_inb it (Z.of_N x2) = true ->
  N.lor (placed it m1 (Z.of_N x1)) (placed it m2 (Z.of_N x2)) = word -> word < 256 ^ width_bytes it ->
  under m1 word = x1 -> under m2 word = x2 ->
  seg vars r ca ((done ++ [v1]) ++ [v2]) vs w2 rest ->
  seg vars ((f1, TInt it) :: (f2, TInt it) :: r) ca done (v1 :: v2 :: vs) (digits bo (N.to_nat (width_bytes it)) word ++ w2) rest.
Proof.
  intros B1 B2 V1 V2 O1 O2 S1 S2 U1 U2 C1 C2 M1 M2 A1 A2 R1 R2 K1 K2 W8 T1 E1 T2 E2 I1 I2 HW HL N1 N2 [H1 H2].
  assert (HWire : fields_wire wire vars None ((f1, TInt it) :: (f2, TInt it) :: r) ca done (v1 :: v2 :: vs)
                  = Some (digits bo (N.to_nat (width_bytes it)) word ++ w2)).
  { cbn [fields_wire]. cbv zeta. rewrite M1. destruct (f_bits f1) as [b1|]; [|congruence]. rewrite T1, A1. unfold num at 1.
    rewrite O1, K1, I1, S1, U1, (published_none f1) by exact V1. cbn [andb]. rewrite M2. destruct (f_bits f2) as [b2|]; [|congruence].
    rewrite T2, A2. unfold num at 1. rewrite O2, K2, I2, S2, U2, R1, R2. cbn [andb].
    replace (same_ity it it) with true by (destruct it; reflexivity). replace (same_order bo bo) with true by (destruct bo; reflexivity).
    rewrite (proj2 (N.leb_le _ _) W8). cbn [andb]. rewrite (published_none f2) by exact V2. rewrite H1, HW. unfold and_then. cbn [all_of].
    rewrite app_nil_r. reflexivity. }
  split; [exact HWire|]. cbn [fields_fit]. cbv zeta. rewrite M1. destruct (f_bits f1) as [b1|]; [|congruence]. rewrite T1, A1. unfold num at 1.
  rewrite HWire. cbn [optional]. rewrite U1, R1, (published_none f1) by exact V1.
  assert (HN : number bo (firstn (N.to_nat (width_bytes it)) (digits bo (N.to_nat (width_bytes it)) word ++ w2)) = word).
  { rewrite firstn_app, digits_length, PeanoNat.Nat.sub_diag, firstn_O, app_nil_r.
    rewrite <- (digits_length bo (N.to_nat (width_bytes it)) word) at 1. rewrite firstn_all, number_digits, N2Nat.id.
    apply N.mod_small, HL. }
  rewrite HN, N1, N2Z.id, N.eqb_refl. unfold num in E1, E2. rewrite E1, (proj2 (val_eqb_eq v1 v1) eq_refl).
  unfold checked at 1. rewrite C1. cbn [andb]. rewrite M2. destruct (f_bits f2) as [b2|]; [|congruence].
  rewrite T2, A2. unfold num at 1. rewrite N2, N2Z.id, N.eqb_refl, E2, (proj2 (val_eqb_eq v2 v2) eq_refl).
  unfold checked. rewrite C2, U2, (published_none f2) by exact V2. cbn [andb]. exact H2.
Qed.

(** ** Numbers and addresses without modifiers *)
Lemma wire_num it ca x : k_order ca = None -> is_signed it = false -> x < 256 ^ width_bytes it ->
  wire (TInt it) ca no_fattr (num x) = Some (be (N.to_nat (width_bytes it)) x).
Proof.
  intros Hc Hs Hx. cbn [wire num]. unfold wire_int, num. rewrite num_in by assumption. cbn [negb no_fattr a_bits a_length].
  unfold order_for, be. rewrite Hc. cbn [no_fattr a_order]. f_equal. f_equal. unfold unsigned. rewrite <- (N2Z.id x) at 2. f_equal.
  apply Z.mod_small. split; [lia|]. replace (2 ^ (8 * Z.of_N (width_bytes it)))%Z with (Z.of_N (256 ^ width_bytes it)) by (destruct it; reflexivity). lia.
Qed.
Lemma wire_mac ca l : k_order ca = None -> size l = 6 -> wire TMac ca no_fattr (VBytes l) = Some l.
Proof. intros Hc H. cbn [wire]. rewrite H. unfold order_for. rewrite Hc. reflexivity. Qed.
Lemma wire_ip ca l : k_order ca = None -> size l = 4 -> wire TIpv4 ca no_fattr (VBytes l) = Some l.
Proof. intros Hc H. cbn [wire]. rewrite H. unfold order_for. rewrite Hc. reflexivity. Qed.

(** A byte string whose length is computed. *)
Lemma seg_bytes vars e r ca done l vs w2 rest : k_order ca = None -> as_usize (e (mkenv done vars)) = size l ->
  seg vars r ca (done ++ [VBytes l]) vs w2 rest -> seg vars ((at_length e plain, TBytes) :: r) ca done (VBytes l :: vs) (l ++ w2) rest.
Proof.
  intros Hc He H. eapply seg_field; try reflexivity; [| |exact H].
  - unfold field_wire, padding, and_then, stored. cbn. rewrite app_nil_r. reflexivity.
  - unfold field_fits, restored, stored, checked. cbn -[fits_frame N.eqb val_eqb]. rewrite (proj2 (val_eqb_eq (VBytes l) (VBytes l)) eq_refl).
    unfold fits_frame. cbn -[N.eqb]. rewrite He, N.eqb_refl. reflexivity.
Qed.
Lemma seg_last vars fs ca done vs w rest : seg vars fs ca done vs (w ++ []) rest -> seg vars fs ca done vs w rest.
Proof. rewrite app_nil_r. auto. Qed.

(** ** IPv4 *)
Lemma shift_back w : w < 16 -> Z.shiftr (Z.of_N (4 * w)) 2 = Z.of_N w.
Proof. intros H. rewrite Z.shiftr_div_pow2 by lia. change (2 ^ 2)%Z with 4%Z. rewrite N2Z.inj_mul, Z.mul_comm. apply Z.div_mul. lia. Qed.
Lemma shift_out w : w < 16 -> wrapped U8 (Z.shiftl (Z.of_N w) 2) = Z.of_N (4 * w).
Proof.
  intros H. unfold wrapped. rewrite Z.shiftl_mul_pow2 by lia. change (2 ^ 2)%Z with 4%Z. change (2 ^ Z.of_N (8 * sizeN U8))%Z with 256%Z.
  rewrite Z.mod_small by lia. lia.
Qed.
Lemma announced_ip w : wrapped U8 (Z.of_N (4 * w) - 20) = Z.of_N (ipv4_announced w).
Proof.
  unfold wrapped, ipv4_announced. change (2 ^ Z.of_N (8 * sizeN U8))%Z with 256%Z. rewrite N2Z.inj_mod. change (Z.of_N 256) with 256%Z.
  rewrite <- (Z_mod_plus_full _ 1). f_equal. lia.
Qed.
Lemma announced_tcp w : wrapped U16 (Z.of_N (4 * w) - 20) = Z.of_N (tcp_announced w).
Proof.
  unfold wrapped, tcp_announced. change (2 ^ Z.of_N (8 * sizeN U16))%Z with 65536%Z. rewrite N2Z.inj_mod. change (Z.of_N 65536) with 65536%Z.
  rewrite <- (Z_mod_plus_full _ 1). f_equal. lia.
Qed.
Lemma ipv4_announced_small w : ipv4_announced w < 256.
Proof. apply N.mod_lt. discriminate. Qed.
Lemma tcp_announced_small w : tcp_announced w < 65536.
Proof. apply N.mod_lt. discriminate. Qed.

Ltac seg_num := apply seg_plain; [apply wire_num; [reflexivity|reflexivity|assumption]|reflexivity|].
Lemma ipv4_seg vars h rest : ipv4_accepted h ->
  seg vars (match Ipv4 with TStruct _ _ fs => fs | _ => [] end) (inner no_cspec) [] (match ipv4_value h with VList l => l | _ => [] end) (ipv4_layout h) rest.
Proof.
  intros ((H1 & H2 & H3 & H4 & H5 & H6 & H7 & H8 & H9 & H10 & H11 & H12) & HO).
  unfold Ipv4, ipv4_value, a_struct, ipv4_layout.
  eapply (seg_pair vars _ _ U8 0xf0 0x0f _ (inner no_cspec) [] (num (ip_version h)) (num (4 * ip_words h)) _ (ip_version h) (ip_words h)); try reflexivity; try discriminate.
  all: try (unfold num; apply num_in; [reflexivity|cbn; lia]).
  - unfold stored. cbn [at_value_encode f_value_encode on_number num]. rewrite shift_back by assumption. reflexivity.
  - unfold restored. cbn [at_value_encode at_value_decode f_value_decode on_number num]. rewrite shift_out by assumption. reflexivity.
  - rewrite !placed_small by (cbn; lia). cbn [lowest low_zeros]. rewrite N.mul_1_r. rewrite lor_high_low by (cbn; lia). cbn; lia.
  - cbn; lia.
  - replace (16 * ip_version h + ip_words h) with (ip_version h * 2 ^ 4 + ip_words h) by (cbn; lia).
    apply (under_high _ _ 4 4); [reflexivity|reflexivity|cbn; lia|cbn; lia].
  - replace (16 * ip_version h + ip_words h) with (ip_version h * 2 ^ 4 + ip_words h) by (cbn; lia).
    apply (under_low _ _ 4); [reflexivity|reflexivity|cbn; lia].
  - cbn [app]. do 3 seg_num. cbn [app].
    eapply (seg_pair vars _ _ U16 0xe000 0x1fff _ (inner no_cspec) _ (num (ip_flags h)) (num (ip_fragment h)) _ (ip_flags h) (ip_fragment h)); try reflexivity; try discriminate.
    all: try (unfold num; apply num_in; [reflexivity|cbn; lia]).
    + rewrite !placed_small by (cbn; lia). cbn [lowest low_zeros]. rewrite N.mul_1_r. rewrite lor_high_low by (cbn; lia). cbn; lia.
    + cbn; lia.
    + replace (8192 * ip_flags h + ip_fragment h) with (ip_flags h * 2 ^ 13 + ip_fragment h) by (cbn; lia).
      apply (under_high _ _ 3 13); [reflexivity|reflexivity|cbn; lia|cbn; lia].
    + replace (8192 * ip_flags h + ip_fragment h) with (ip_flags h * 2 ^ 13 + ip_fragment h) by (cbn; lia).
      apply (under_low _ _ 13); [reflexivity|reflexivity|cbn; lia].
    + do 3 seg_num. apply seg_plain; [apply wire_ip; auto|reflexivity|]. apply seg_plain; [apply wire_ip; auto|reflexivity|].
      cbn [app]. apply seg_last. apply seg_bytes; [reflexivity| |apply seg_nil].
      unfold field_ref. cbn [ev_fields nth_error num]. rewrite announced_ip, as_usize_small by (pose proof (ipv4_announced_small (ip_words h)); cbn; lia).
      symmetry. exact HO.
Qed.

(** ** Values of a type *)
Definition carries (t : ty) (ca : cattr) (fa : fattr) (v : val) (w rest : bytes) : Prop :=
  wire t ca fa v = Some w /\ fits t ca fa v rest = true.
Lemma carries_struct n c fs ca fa l w rest : seg (k_vars ca) fs (inner c) [] l w rest -> carries (TStruct n c fs) ca fa (VList l) w rest.
Proof. intros H. exact H. Qed.
(** Fields with no other attributes than modifiers. *)
Definition simple (f : fspec) : Prop :=
  f_bits f = None /\ f_vars f = [] /\ f_format f = None /\ f_skip_encode f = false /\ f_skip_decode f = None /\ f_from_str f = None
  /\ f_untake f = false /\ f_offset f = None /\ f_value_encode f = None /\ f_value_decode f = None /\ f_check f = None /\ f_if f = None.
Lemma seg_simple vars f t r ca done v vs w1 w2 rest fa : simple f -> modifiers f (mkenv done vars) = Some fa ->
  carries t ca fa v w1 (w2 ++ rest) -> seg vars r ca (done ++ [v]) vs w2 rest -> seg vars ((f, t) :: r) ca done (v :: vs) (w1 ++ w2) rest.
Proof.
  intros (B & V & F & SE & SD & FS & U & O & VE & VD & C & I) Hm [Hw Hf] H. eapply seg_field; try eassumption.
  - unfold field_wire, padding, and_then, stored. rewrite F, SE, FS, U, O, VE, Hw. cbn [all_of app]. rewrite app_nil_r. reflexivity.
  - unfold field_fits, restored, stored, checked. rewrite F, SD, SE, FS, VE, VD, C, I, U, Hf, (proj2 (val_eqb_eq v v) eq_refl). reflexivity.
Qed.
Lemma seg_final vars f t ca done v w rest fa : simple f -> modifiers f (mkenv done vars) = Some fa ->
  carries t ca fa v w rest -> seg vars [(f, t)] ca done [v] w rest.
Proof. intros S M C. apply seg_last. eapply seg_simple; [exact S|exact M|exact C|apply seg_nil]. Qed.
Ltac simple_now := repeat split; reflexivity.

(** The contents of an enum whose variant is known already. *)
Lemma carries_branch e vs ca fa i xs w rest b v fs : e_branching e = ByTag -> a_branch fa = Some b -> nth_error vs i = Some (v, fs) ->
  f_offset (v_attr v) = None ->
  first_such (fun vn => accepts (fst vn) (snd vn) b) (combine (map fst vs) (numbering 0 (map fst vs))) = Some i ->
  seg (k_vars ca) fs (inner (e_c e)) [] xs w rest -> carries (TEnum e vs) ca fa (VVariant i xs) w rest.
Proof.
  intros He Hb Hv Ho Hs [H1 H2]. destruct (nth_error (numbering 0 (map fst vs)) i) as [n|] eqn:Hn.
  2: { apply nth_error_None in Hn. rewrite numbering_length, map_length in Hn. apply nth_error_None in Hn. congruence. }
  split.
  - rewrite wire_enum, Hv, Hn, H1. unfold tag_wire, padding, and_then. rewrite He, Hb, Ho. cbn [all_of app]. rewrite !app_nil_r. reflexivity.
  - rewrite fits_enum, Hv, Hn, H2. unfold tag_fits, tag_read. rewrite He, Hb, Hs. cbn [is_index]. rewrite PeanoNat.Nat.eqb_refl. reflexivity.
Qed.
(** One whose tag has one byte. *)
Lemma carries_tag e vs ca fa i xs w rest v fs n : e_branching e = ByTag -> a_branch fa = None -> a_byte_count fa = None ->
  c_byte_count (e_c e) = Some 1 -> order_for ca fa = Be ->
  nth_error vs i = Some (v, fs) -> nth_error (numbering 0 (map fst vs)) i = Some n -> n < 256 -> f_offset (v_attr v) = None ->
  first_such (fun vn => accepts (fst vn) (snd vn) n) (combine (map fst vs) (numbering 0 (map fst vs))) = Some i ->
  seg (k_vars ca) fs (inner (e_c e)) [] xs w rest -> carries (TEnum e vs) ca fa (VVariant i xs) (be 1 n ++ w) rest.
Proof.
  intros He Hb Hbc Hc Hor Hv Hn Hlt Ho Hs [H1 H2].
  split.
  - rewrite wire_enum, Hv, Hn, H1. unfold tag_wire, padding, and_then. rewrite He, Hb, Hbc, Hc, Ho, Hor. cbn [N.leb N.compare Pos.compare Pos.compare_cont all_of app].
    rewrite !app_nil_r. reflexivity.
  - rewrite fits_enum, Hv, Hn, H2. unfold tag_fits, tag_read. rewrite He, Hb, Hbc, Hc, N.pow_1_r, N.mod_small, Hs by exact Hlt. cbn [is_index].
    rewrite PeanoNat.Nat.eqb_refl. reflexivity.
Qed.

(** ** The headers *)
Lemma carries_num it ca x rest : k_order ca = None -> is_signed it = false -> x < 256 ^ width_bytes it ->
  carries (TInt it) ca no_fattr (num x) (be (N.to_nat (width_bytes it)) x) rest.
Proof. intros. split; [apply wire_num; assumption|reflexivity]. Qed.
Lemma carries_ipv4 ca fa h rest : ipv4_accepted h -> carries Ipv4 ca fa (ipv4_value h) (ipv4_layout h) rest.
Proof. intros H. apply carries_struct. exact (ipv4_seg (k_vars ca) h rest H). Qed.
Lemma quot_back w : Z.quot (Z.of_N (4 * w)) 4 = Z.of_N w.
Proof. rewrite N2Z.inj_mul, Z.mul_comm. apply Z.quot_mul. lia. Qed.
Lemma times_out w : w < 16 -> wrapped U16 (Z.of_N w * 4) = Z.of_N (4 * w).
Proof. intros H. unfold wrapped. change (2 ^ Z.of_N (8 * sizeN U16))%Z with 65536%Z. rewrite Z.mod_small by lia. lia. Qed.
Lemma carries_tcp ca fa h rest : tcp_accepted h -> carries Tcp ca fa (tcp_value h) (tcp_layout h) rest.
Proof.
  intros ((H1 & H2 & H3 & H4 & H5 & H6 & H7 & H8 & H9) & HO). apply carries_struct. unfold tcp_layout. do 4 seg_num. cbn [app].
  eapply (seg_pair _ _ _ U16 0xf000 0x0fff _ (inner no_cspec) _ (num (4 * tcp_words h)) (num (tcp_flags h)) _ (tcp_words h) (tcp_flags h)); try reflexivity; try discriminate.
  all: try (unfold num; apply num_in; [reflexivity|cbn; lia]).
  - unfold stored. cbn [at_value_encode at_untake f_value_encode on_number num]. rewrite quot_back. reflexivity.
  - unfold restored. cbn [at_value_encode at_untake at_value_decode f_value_decode on_number num]. rewrite times_out by assumption. reflexivity.
  - rewrite !placed_small by (cbn; lia). cbn [lowest low_zeros]. rewrite N.mul_1_r. rewrite lor_high_low by (cbn; lia). cbn; lia.
  - cbn; lia.
  - replace (4096 * tcp_words h + tcp_flags h) with (tcp_words h * 2 ^ 12 + tcp_flags h) by (cbn; lia).
    apply (under_high _ _ 4 12); [reflexivity|reflexivity|cbn; lia|cbn; lia].
  - replace (4096 * tcp_words h + tcp_flags h) with (tcp_words h * 2 ^ 12 + tcp_flags h) by (cbn; lia).
    apply (under_low _ _ 12); [reflexivity|reflexivity|cbn; lia].
  - cbn [app]. do 3 seg_num. cbn [app]. apply seg_last. apply seg_bytes; [reflexivity| |apply seg_nil].
    unfold field_ref. cbn [ev_fields nth_error num]. rewrite announced_tcp, as_usize_small by (pose proof (tcp_announced_small (tcp_words h)); cbn; lia).
    symmetry. exact HO.
Qed.
Lemma carries_unit ca fa rest : carries TUnit ca fa VUnit [] rest.
Proof. split; reflexivity. Qed.
Lemma carries_udp ca fa h rest : udp_ok h -> carries Udp ca fa (udp_marked h) (udp_layout h) rest.
Proof.
  intros (H1 & H2 & H3 & H4). apply carries_struct. unfold udp_layout. do 3 seg_num.
  rewrite <- (app_nil_r (be 2 (udp_checksum h))). seg_num. eapply seg_final; [simple_now|reflexivity|apply carries_unit].
Qed.
Ltac seg_mac := apply seg_plain; [apply wire_mac; [reflexivity|assumption]|reflexivity|].
Lemma carries_ethernet ca fa h rest : ethernet_ok h -> carries Ethernet ca fa (ethernet_value h) (ethernet_layout h) rest.
Proof.
  intros (H1 & H2 & H3). apply carries_struct. unfold ethernet_layout. do 2 seg_mac.
  eapply seg_final; [simple_now|reflexivity|]. apply (carries_num U16); [reflexivity|reflexivity|exact H3].
Qed.
Lemma carries_ethernet_header ca fa h rest : ethernet_ok h -> carries EthernetHeader ca fa (ethernet_marked h) (ethernet_layout h) rest.
Proof.
  intros (H1 & H2 & H3). apply carries_struct. unfold ethernet_layout. do 2 seg_mac.
  rewrite <- (app_nil_r (be 2 (eth_type h))). seg_num. eapply seg_final; [simple_now|reflexivity|apply carries_unit].
Qed.

(** ** Whole frames *)
Lemma eqb_off a b : a <> b -> (a =? b) = false.
Proof. apply N.eqb_neq. Qed.
Definition layer_head : list (fspec * ty) := match Layer with TStruct _ _ fs => firstn 3 fs | _ => [] end.
Definition frame_head (f : frame) : bytes := frame_layout (mkframe (f_link f) (f_network f) []).
Definition head_values (f : frame) : list val := match frame_value f with VList l => firstn 3 l | _ => [] end.
Lemma frame_seg vars f tail tv tw rest : frame_accepted f ->
  (forall done, seg vars tail (inner no_cspec) done tv tw rest) ->
  seg vars (layer_head ++ tail) (inner no_cspec) [] (head_values f ++ tv) (frame_head f ++ tw) rest.
Proof.
  destruct f as [e n pay]. intros [He Hn] HP. cbn [f_link f_network] in He, Hn. pose proof He as (_ & _ & Ht).
  replace (head_values (mkframe e n pay) ++ tv)
    with (ethernet_marked e :: (match n with OverIpv4 h t => [VVariant 0 [ipv4_value h]; transport_value t]
    | OverUnknown => [VVariant 1 []; VVariant 2 []] end ++ tv)) by (destruct n; reflexivity).
  unfold layer_head, Layer, a_struct, frame_head, frame_layout. cbn [f_link f_network f_payload app firstn].
  rewrite !app_nil_r, <- !app_assoc. cbn [app].
  eapply seg_simple; [simple_now|reflexivity|apply carries_ethernet_header, He|]. cbn [app].
  destruct n as [h t|].
  - destruct Hn as (E & Hh & Ht'). pose proof Hh as ((_ & _ & _ & _ & _ & _ & _ & _ & HPr & _) & _). cbn [app]. rewrite <- app_assoc.
    eapply seg_simple; [simple_now|reflexivity| |].
    { eapply carries_branch; [reflexivity|reflexivity|reflexivity|reflexivity| |].
      - cbn [at_branch ethernet_type ev_fields nth_error ethernet_marked num]. unfold ethernet_type. cbn [ev_fields nth_error ethernet_marked num].
        rewrite E. reflexivity.
      - eapply seg_final; [simple_now|reflexivity|]. apply carries_ipv4, Hh. }
    cbn [app].
    assert (HB : as_usize (protocol_above (mkenv [ethernet_marked e; VVariant 0 [ipv4_value h]] vars)) = ip_protocol h).
    { unfold protocol_above. cbn [ev_fields nth_error ipv4_value num]. apply as_usize_small. cbn in HPr |- *. lia. }
    eapply seg_simple; [simple_now|reflexivity| |apply HP].
    destruct t as [ht|hu|].
    + destruct Ht' as [Ep Ha]. eapply carries_branch; [reflexivity|reflexivity|reflexivity|reflexivity| |].
      * rewrite HB, Ep. reflexivity.
      * eapply seg_final; [simple_now|reflexivity|]. apply carries_tcp, Ha.
    + destruct Ht' as [Ep Ha]. eapply carries_branch; [reflexivity|reflexivity|reflexivity|reflexivity| |].
      * rewrite HB, Ep. reflexivity.
      * eapply seg_final; [simple_now|reflexivity|]. apply carries_udp, Ha.
    + destruct Ht' as [Ep1 Ep2]. eapply carries_branch; [reflexivity|reflexivity|reflexivity|reflexivity| |apply seg_nil].
      rewrite HB. cbn [map fst combine numbering variant_value v_disc v_range v_value first_such accepts snd v_default v_bits].
      cbn [variant_value variant_default v_default v_bits v_value v_range option_map]. rewrite (eqb_off _ _ Ep1), (eqb_off _ _ Ep2). reflexivity.
  - cbn [app]. cbn [network_with] in Hn.
    eapply (seg_simple _ _ _ _ _ _ _ _ []); [simple_now|reflexivity| |].
    { eapply carries_branch; [reflexivity|reflexivity|reflexivity|reflexivity| |apply seg_nil].
      unfold ethernet_type. cbn [ev_fields nth_error ethernet_marked num]. rewrite as_usize_small by (cbn in Ht |- *; lia).
      cbn -[N.eqb].
      rewrite (eqb_off _ _ Hn). reflexivity. }
    eapply (seg_simple _ _ _ _ _ _ _ _ []); [simple_now|reflexivity| |apply HP].
    eapply carries_branch; [reflexivity|reflexivity|reflexivity|reflexivity|reflexivity|apply seg_nil].
Qed.
Lemma frame_layout_head f : frame_layout f = frame_head f ++ f_payload f.
Proof. destruct f as [e n pay]. unfold frame_head, frame_layout. cbn [f_link f_network f_payload]. rewrite app_nil_r, app_assoc. reflexivity. Qed.
Lemma frame_value_head f : frame_value f = VList (head_values f ++ [VBytes (f_payload f)]).
Proof. destruct f as [e [h t|] pay]; reflexivity. Qed.
Lemma carries_frame ca fa f : frame_accepted f -> carries Layer ca fa (frame_value f) (frame_layout f) [].
Proof.
  intros H. rewrite frame_layout_head, frame_value_head. apply carries_struct. apply (frame_seg _ f [(at_remaining plain, TBytes)]); [exact H|].
  intros done. eapply seg_final; [simple_now|reflexivity|]. split; reflexivity.
Qed.
Lemma carries_head ca fa f rest : frame_accepted f -> carries (a_struct layer_head) ca fa (VList (head_values f)) (frame_head f) rest.
Proof.
  intros H. apply carries_struct. rewrite <- (app_nil_r layer_head), <- (app_nil_r (head_values f)), <- (app_nil_r (frame_head f)).
  apply frame_seg; [exact H|]. intros. apply seg_nil.
Qed.
