(** Property C53: the modifiers written on a field reach the codec of its type. *)
From Verif Require Import Base Ints Reader Writer Spec SpecOps Decode Encode ReaderLemmas WriterLemmas
  EncLemmas RunSpec WireSpec CodecSpec Collections Containers Schema Sugar Examples FieldSpec.

Lemma amount_eval o en : eval_opt o en = amount o en.
Proof. destruct o; reflexivity. Qed.
Lemma isize_number z k : k = 0%Z \/ k = 1%Z -> Z.eqb (cast Isize z) k = N.eqb (unsigned Usize z) (Z.to_N k).
Proof.
  intros Hk. unfold cast, int_of_raw, raw_of_int, unsigned. cbn [signed andb].
  change (imod Isize) with 18446744073709551616%Z.
  change (2 ^ (8 * Z.of_N (width_bytes Usize)))%Z with 18446744073709551616%Z.
  change (18446744073709551616 / 2)%Z with 9223372036854775808%Z.
  pose proof (Z.mod_pos_bound z 18446744073709551616 eq_refl) as B.
  generalize dependent (z mod 18446744073709551616)%Z. intros y B.
  rewrite Z2N.id by lia. destruct (Z.leb_spec 9223372036854775808 y).
  - transitivity false; [apply Z.eqb_neq; lia|symmetry; apply N.eqb_neq; lia].
  - destruct (Z.eqb_spec y k) as [->|H1]; symmetry; [apply N.eqb_eq; reflexivity|apply N.eqb_neq; lia].
Qed.
Lemma modifiers_convey f en fa : written f -> modifiers f en = Some fa <-> conveys f en fa.
Proof.
  intros W. unfold modifiers. destruct (f_use f) eqn:U.
  2:{ destruct W as [W|W]; [congruence|]. subst f. split.
      - intros H. injection H as <-. constructor; try reflexivity. split; reflexivity.
      - intros [? ? [? ?] ? ? ? ? ? ? ? ? ? ? ?]. destruct fa. cbn in *. unfold no_fattr. subst. reflexivity. }
  clear W. rewrite !amount_eval.
  assert (K : forall b, Some (mkfattr (amount (f_length f) en) b false (f_linend f) (amount (f_bits f) en) (f_bits_start f)
              (amount (f_byte_count f) en) (f_remaining f) (amount (f_count f) en) (amount (f_try_count f) en)
              (amount (f_byte_count_outside f) en) (f_key f) (f_split f) (amount (f_branch f) en) (f_loop f)) = Some fa ->
            says_order (f_order f) en b -> conveys f en fa).
  { intros b E Hb. injection E as <-. constructor; try reflexivity; [exact Hb|split; reflexivity]. }
  split.
  - intros H. destruct (f_order f) as [[b|e]|] eqn:O.
    + exact (K _ H eq_refl).
    + rewrite (isize_number _ 0), (isize_number _ 1) in H by auto. cbn [Z.to_N] in H.
      destruct (N.eqb_spec (unsigned Usize (e en)) 0) as [Z0|Z0]; [exact (K _ H (or_introl (conj Z0 eq_refl)))|].
      destruct (N.eqb_spec (unsigned Usize (e en)) 1) as [Z1|Z1]; [|discriminate].
      exact (K _ H (or_intror (conj Z1 eq_refl))).
    + exact (K _ H eq_refl).
  - intros [H1 H2 [H3 H4] H5 H6 H7 H8 H9 H10 H11 H12 H13 H14 H15]. destruct fa. cbn in H1, H2, H3, H4, H5, H6, H7, H8, H9, H10, H11, H12, H13, H14, H15.
    subst. destruct (f_order f) as [[b|e]|]; cbn [says_order] in H2.
    + subst. reflexivity.
    + rewrite (isize_number _ 0), (isize_number _ 1) by auto. cbn [Z.to_N].
      destruct H2 as [[E ->]|[E ->]]; rewrite E; reflexivity.
    + subst. reflexivity.
Qed.
Lemma no_order_panics f en : f_use f = true -> (forall fa, ~ conveys f en fa) -> modifiers f en = None.
Proof.
  intros U H. destruct (modifiers f en) as [fa|] eqn:E; [|reflexivity].
  exfalso. apply (H fa). apply (modifiers_convey f en fa (or_introl U)). exact E.
Qed.

Lemma publish_variables f en ca : publish f en ca = mkcattr (k_order ca) (k_byte_count ca)
  (rev (map (fun nx => (fst nx, unsigned Usize (snd nx en))) (f_vars f)) ++ k_vars ca).
Proof.
  unfold publish. f_equal. generalize (k_vars ca). induction (f_vars f) as [|[x e] l IH]; intros k; [reflexivity|].
  cbn [fold_left map rev fst snd]. rewrite IH, <- app_assoc. reflexivity.
Qed.
Lemma ca_after_published vars fs : forall vs done ca,
  ca_after vars fs vs done ca = mkcattr (k_order ca) (k_byte_count ca) (rev (published vars (map fst fs) done vs) ++ k_vars ca).
Proof.
  induction fs as [|[f t] fs IH]; intros vs done ca; [destruct ca; reflexivity|].
  destruct vs as [|v vs]; [destruct ca; reflexivity|]. cbn [ca_after map fst published]. rewrite IH, publish_variables.
  cbn [k_order k_byte_count k_vars]. rewrite rev_app_distr, <- app_assoc. reflexivity.
Qed.
Lemma codec_field_dec d f ca fa en : for_the_codec f -> forall s p, dec_field d f ca fa en s p = d ca fa s p.
Proof.
  intros (H1 & H2 & H3 & H4 & H5 & H6 & H7 & H8 & H9 & H10 & H11) s p. unfold dec_field, dec_offset.
  rewrite H1, H2, H3, H5, H6, H7, H9, H10. unfold bind, ret, get_position, eval_opt. cbn [option_map].
  destruct (d ca fa s p); reflexivity.
Qed.
Lemma codec_field_enc e f ca fa en v : for_the_codec f -> forall b, enc_field e f ca fa en v b = e ca fa v b.
Proof.
  intros (H1 & H2 & H3 & H4 & H5 & H6 & H7 & H8 & H9 & H10 & H11) b. unfold enc_field, enc_offset.
  rewrite H1, H2, H4, H5, H8, H11. unfold plus, wbind, wret, eval_opt. cbn [option_map].
  destruct (f_bits f); destruct (e ca fa v b) as [n b'|? ?| |]; reflexivity.
Qed.

(** C53. Decoding: after the fields [fs], the type of [f] is decoded with what the
    modifiers of [f] say, evaluated on the fields before, and with the variables that those
    fields publish. *)
Theorem C53_decode : forall c fs f t ca fa0 d p vs q,
  written f -> for_the_codec f ->
  dec (TStruct true c fs) ca fa0 d p = Ok (VList vs) q ->
  (forall fa, conveys f (mkenv vs (k_vars ca)) fa ->
     dec (TStruct true c (fs ++ [(f, t)])) ca fa0 d p =
       match dec t (container_with c (published (k_vars ca) (map fst fs) [] vs)) fa d q with
       | Ok v r => Ok (VList (vs ++ [v])) r
       | Err e r => Err e r
       | Panic => Panic
       | Hang => Hang
       end)
  /\ ((forall fa, ~ conveys f (mkenv vs (k_vars ca)) fa) ->
      dec (TStruct true c (fs ++ [(f, t)])) ca fa0 d p = Panic).
Proof.
  intros c fs f t ca fa0 d p vs q W F H. cbn [dec negb] in *. apply map_ok in H as (l & H & E). injection E as ->.
  unfold bind. rewrite dec_fields_app, H, ca_after_published. cbn [skipn length k_vars own_cattr k_order k_byte_count].
  rewrite app_nil_r. cbn [dec_fields andb]. fold (container_with c (published (k_vars ca) (map fst fs) [] l)). split.
  - intros fa C. apply (modifiers_convey f _ fa W) in C. rewrite C. unfold bind, ret.
    rewrite (codec_field_dec _ _ _ _ _ F). destruct (dec t _ fa d q); reflexivity.
  - intros C. destruct W as [U| ->].
    + rewrite (no_order_panics _ _ U C). reflexivity.
    + exfalso. apply (C no_fattr). apply modifiers_convey; [right; reflexivity|reflexivity].
Qed.
Theorem C53_encode : forall named c fs f t ca fa0 b vs v n b1,
  written f -> for_the_codec f ->
  enc (TStruct named c fs) ca fa0 (VList vs) b = Ok n b1 ->
  (forall fa, conveys f (mkenv vs (k_vars ca)) fa ->
     enc (TStruct named c (fs ++ [(f, t)])) ca fa0 (VList (vs ++ [v])) b =
       match enc t (container_of c) fa v b1 with
       | Ok m b2 => Ok (n + m) b2
       | Err e b2 => Err e b2
       | Panic => Panic
       | Hang => Hang
       end)
  /\ ((forall fa, ~ conveys f (mkenv vs (k_vars ca)) fa) ->
      enc (TStruct named c (fs ++ [(f, t)])) ca fa0 (VList (vs ++ [v])) b = Panic).
Proof.
  intros named c fs f t ca fa0 b vs v n b1 W F H. cbn [enc] in *.
  rewrite enc_fields_app, H by (eapply enc_fields_length; exact H). cbn [app enc_fields andb]. split.
  - intros fa C. apply (modifiers_convey f _ fa W) in C. rewrite C. unfold plus, wbind, wret.
    rewrite (codec_field_enc _ _ _ _ _ _ F). change (own_cattr c) with (container_of c).
    destruct (enc t (container_of c) fa v b1) as [m b2|? ?| |]; try reflexivity. rewrite N.add_0_r. reflexivity.
  - intros C. destruct W as [U| ->].
    + rewrite (no_order_panics _ _ U C). reflexivity.
    + exfalso. apply (C no_fattr). apply modifiers_convey; [right; reflexivity|reflexivity].
Qed.
(** So an order given by a number other than 0 and 1 is a panic, not an error. *)
Theorem C53_order_number_refuted : exists t d e, t = struct [(plain, u8); (at_order (OVar e) plain, u16)]
  /\ d = hex [2; 0; 1] /\ decode t d 0 = Panic
  /\ encode t (VList [vi 2; vi 1]) = Panic.
Proof. do 2 eexists. exists (field_ref 0). repeat split. Qed.

(** [struct { #[jbytes(variable_name="n")] a: u8, #[jbytes(variable_name="m")] b: u8, body: .. }] *)
Example C53_variables_case :
  published [] (map fst [(at_variable 0 (field_ref 0) plain, u8); (at_variable 1 (field_ref 1) plain, u8)]) [] [vi 3; vi 4] = [(0%nat, 3); (1%nat, 4)]
  /\ decode (struct [(at_variable 0 (field_ref 0) plain, u8); (at_variable 1 (field_ref 1) plain, u8);
                     (plain, struct [(at_length (var_ref 1) plain, TBytes); (at_length (var_ref 0) plain, TBytes)])])
       (hex [1; 2; 7; 8; 9]) 0 = Ok (VList [vi 1; vi 2; VList [VBytes (hex [7; 8]); VBytes (hex [9])]]) 5.
Proof. split; vm_compute; reflexivity. Qed.
(** [struct { order: u8, #[jbytes(byteorder="order", count=2)] items: Vec<u16> }] *)
Example C53_case :
  let f := at_count (const 2) (at_order (OVar (field_ref 0)) plain) in
  let t := struct [(plain, u8); (f, TVec u16)] in
  written f /\ for_the_codec f
  /\ conveys f (mkenv [vi 1] []) (mkfattr None (Some Le) false None None false None false (Some 2) None None None None None None)
  /\ decode t (hex [1; 1; 0; 2; 0]) 0 = Ok (VList [vi 1; VList [vi 1; vi 2]]) 5
  /\ decode t (hex [0; 1; 0; 2; 0]) 0 = Ok (VList [vi 0; VList [vi 256; vi 512]]) 5
  /\ encode t (VList [vi 1; VList [vi 1; vi 2]]) = Ok (hex [1; 1; 0; 2; 0]) tt.
Proof.
  cbv zeta. split; [left; reflexivity|]. split; [repeat split|].
  split; [constructor; try reflexivity; [right; split; reflexivity|split; reflexivity]|]. repeat split.
Qed.

Print Assumptions C53_decode.
Print Assumptions C53_encode.
Print Assumptions C53_order_number_refuted.
