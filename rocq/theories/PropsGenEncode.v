(** C69: what a derived encoder writes does not depend on what the fields are called, and
    which declarations have no encoder at all. *)
From Coq Require Import Ascii String.
From Verif Require Import Base BaseLemmas Ints Reader Writer Spec Text TextSpec Sugar AttrParse Decode Encode
  NetLemmas GenDecode GenSpec GenLemmas GenEncode GenEncodeSpec GenEncodeLemmas PropsGen PropsContainers WireSpec Schema.
Close Scope string_scope.

(** ** Structs *)

(** The statements of the derived encoder write the fields, in order, as their attributes
    and types say, and return the number the type's encoder returns, if the code compiles.
    [b]: what has been written before, and where. *)
Theorem C69_struct : forall d fs ca fa vs b,
  d_fields d = Some fs -> encoder_compiles d (k_vars ca) = true -> length vs = length fs ->
  run_encoder enc d ca fa vs b = enc (TStruct (d_named d) (container_of d) (nameless fs)) ca fa (VList vs) b.
Proof.
  intros d fs ca fa vs b Hf Hc Hl. unfold encoder_compiles in Hc. unfold run_encoder. rewrite Hf in *.
  destruct (check_estmts _ encode_scope) as [g|] eqn:Hk; [|discriminate].
  change (enc (TStruct (d_named d) (container_of d) (nameless fs)) ca fa (VList vs))
    with (enc_fields enc false (k_vars ca) (own_cattr (container_of d)) (map (fun f => (n_spec f, n_type f)) fs) no_fattr [] vs).
  rewrite (@returned enc (gen_struct (k_vars ca) 0 fs) _
             (enc_fields enc false (k_vars ca) (own_cattr (container_of d)) (map (fun f => (n_spec f, n_type f)) fs) no_fattr [] vs) 0).
  - unfold wbind, wret. destruct (enc_fields _ _ _ _ _ _ _ _ b); [|reflexivity..]. now rewrite N.add_0_l.
  - intros y n [H|[H|[H|[H|[H|[H|[]]]]]]]; try discriminate. now injection H.
  - apply (@struct_sim enc (k_vars ca) (own_cattr (container_of d)) fs [] vs _ no_fattr 0); try reflexivity; [exact Hl|].
    intros f Hin Hr. destruct (struct_checked _ _ _ _ Hk f Hin Hr) as [F N]. split; [exact F|now apply is_name_self].
Qed.
(** [struct S;] has an encoder, though it has no decoder ([C65_unit_refuted]): it writes
    nothing and succeeds. *)
Theorem C69_unit : forall named c ca fa b,
  encoder_compiles (mkdecl named c None) (k_vars ca) = true /\
  run_encoder enc (mkdecl named c None) ca fa [] b = Ok 0 b.
Proof. now split. Qed.
(** So names do not matter to what is written. *)
Theorem C69_names : forall d d' fs fs' ca fa vs b,
  d_fields d = Some fs -> d_fields d' = Some fs' -> renamed fs fs' ->
  d_named d = d_named d' -> container_of d = container_of d' ->
  encoder_compiles d (k_vars ca) = true -> encoder_compiles d' (k_vars ca) = true -> length vs = length fs ->
  run_encoder enc d ca fa vs b = run_encoder enc d' ca fa vs b.
Proof.
  intros d d' fs fs' ca fa vs b F F' R N C K K' L.
  assert (L' : length fs = length fs').
  { unfold renamed, nameless in R. rewrite <- (map_length (fun f => (n_spec f, n_type f)) fs), R. apply map_length. }
  rewrite (C69_struct d fs ca fa vs b F K L), (C69_struct d' fs' ca fa vs b F' K') by congruence. congruence.
Qed.
(** Every struct compiles, whatever its fields are called, as long as those with a
    [value_encode] have names of their own. *)
Theorem C69_compiles : forall d fs vars, d_fields d = Some fs ->
  (forall f, In f fs -> rewritten (n_spec f) -> ~ In (n_name f) encoder_names /\ n_name f <> list_byte_of_string "self" /\
     exists c r, n_name f = c :: r /\ ~ (48 <= Byte.to_N c <= 57)) ->
  encoder_compiles d vars = true.
Proof.
  intros d fs vars Hf H. unfold encoder_compiles. rewrite Hf.
  destruct (@struct_check vars fs 0 encode_scope) as (g & ->); [now repeat split| |reflexivity].
  intros f Hin Hr. destruct (H f Hin Hr) as (F & S & c & r & E & N). split; [exact F|].
  unfold is_name. rewrite E. rewrite <- E. apply andb_true_iff. split; apply negb_true_iff.
  - apply andb_false_iff. rewrite !N.leb_gt. lia.
  - apply eqb_neq. exact S.
Qed.

(** [struct S { n: u8, #[jbytes(length="n")] body: Vec<u8>, #[jbytes(untake)] next: u8 }],
    and the same with names that the encoder uses itself. *)
Example C69_names_example :
  encoder_compiles (message "n" "body" "next") [] = true /\ encoder_compiles (message "buffer" "r_nbytes" "fattr_new") [] = true /\
  (forall fa b, run_encoder enc (message "n" "body" "next") no_cattr fa [VInt 2; VBytes ["061"; "062"]%byte; VInt 7] b
    = run_encoder enc (message "buffer" "r_nbytes" "fattr_new") no_cattr fa [VInt 2; VBytes ["061"; "062"]%byte; VInt 7] b) /\
  run_encoder enc (message "buffer" "r_nbytes" "fattr_new") no_cattr no_fattr [VInt 2; VBytes ["061"; "062"]%byte; VInt 7] buf_new
    = Ok 3 (mkbuf ["002"; "061"; "062"]%byte 3).
Proof.
  split; [reflexivity|]. split; [reflexivity|]. split; [|reflexivity].
  intros fa b. eapply C69_names; reflexivity.
Qed.
(** [value_encode] makes a variable of the field; [struct S { #[jbytes(value_encode="n + 1")] n: u8, .. }] *)
Definition plus_one : env -> val -> val := fun _ v => match v with VInt z => VInt (z + 1) | _ => v end.
Definition more (name : bytes) : decl :=
  mkdecl true None (Some [mkfield name (at_value_encode plus_one plain) (TInt U8); mkfield (txt "x") plain (TInt U8)]).
Example C69_struct_example :
  encoder_compiles (more (txt "n")) [] = true /\
  run_encoder enc (more (txt "n")) no_cattr no_fattr [VInt 2; VInt 7] buf_new = Ok 2 (mkbuf ["003"; "007"]%byte 2).
Proof. split; reflexivity. Qed.

(** The generated encoder and the generated decoder together: what the one writes, the
    other reads back ([wire], [fits], [well_formed]: as in C30). *)
Theorem C69_round_trip : forall d fs vs w rest, let t := TStruct (d_named d) (container_of d) (nameless fs) in
  d_fields d = Some fs -> encoder_compiles d [] = true -> struct_compiles d [] = true -> ~ position_taken fs ->
  length vs = length fs -> well_formed t ->
  wire t no_cattr no_fattr (VList vs) = Some w -> fits t no_cattr no_fattr (VList vs) rest = true -> allocatable (w ++ rest) ->
  (exists n pos, run_encoder enc d no_cattr no_fattr vs buf_new = Ok n (mkbuf w pos)) /\
  run_struct dec d no_cattr (w ++ rest) 0 = Ok (VList vs) (size w).
Proof.
  intros d fs vs w rest t F E S P L W HW HF HA.
  destruct (C30_round_trip t (VList vs) w rest W HW HF HA) as [He Hd]. split.
  - rewrite (C69_struct d fs no_cattr no_fattr vs buf_new F E L). fold t.
    unfold encode, encode_into in He. destruct (enc t no_cattr no_fattr (VList vs) buf_new) as [n b| | |]; try discriminate.
    injection He as He. exists n, (b_pos b). destruct b. cbn in *. now subst.
  - rewrite (C65_struct d fs no_cattr no_fattr (w ++ rest) 0 F S P). exact Hd.
Qed.

(** [struct S { n: u8, #[jbytes(length="n")] body: Vec<u8> }] *)
Definition counted_body : list field :=
  [mkfield (txt "n") plain (TInt U8); mkfield (txt "body") (at_length (field_ref 0) plain) TBytes].
Example C69_round_trip_example :
  let d := mkdecl true None (Some counted_body) in
  let t := TStruct true no_cspec (nameless counted_body) in
  let vs := [VInt 2; VBytes ["061"; "062"]%byte] in
  encoder_compiles d [] = true /\ struct_compiles d [] = true /\ ~ position_taken counted_body /\ well_formed t /\
  wire t no_cattr no_fattr (VList vs) = Some ["002"; "061"; "062"]%byte /\ fits t no_cattr no_fattr (VList vs) ["009"]%byte = true.
Proof.
  split; [reflexivity|]. split; [reflexivity|]. split.
  - intros (i & j & f & g & _ & Hi & _ & (Hn & _) & _).
    destruct i as [|[|i]]; cbn in Hi; [injection Hi as <-; discriminate Hn..|destruct i; discriminate].
  - split; [|split; reflexivity]. unfold counted_body, nameless. well.
Qed.

(** ** Variants *)

(** The arm of a variant likewise, if moreover fields that are not written do not take the
    names of the code, and no expression mentions a field that is written as something
    else. *)
Definition arm_in_order (fs : list field) : Prop :=
  NoDup (map n_name fs) /\ rewritten_unused fs /\
  forall f, In f fs -> unwritten (n_spec f) -> ~ In (n_name f) encoder_names /\ n_name f <> list_byte_of_string "cr_byte_count".
Theorem C69_arm : forall e v index fs ca fa xs b,
  encode_arm_compiles (k_vars ca) e v index fs = true -> arm_in_order fs -> length xs = length fs ->
  run_encode_arm enc e v index fs ca fa xs b =
  match modifiers (v_attr v) (mkenv [] (k_vars ca)) with
  | None => Panic
  | Some prev =>
      plus (push_tag e v index ca fa)
           (_ <~ enc_offset (v_attr v) (mkenv [] (k_vars ca)) ;;
            enc_fields enc true (k_vars ca) (own_cattr (e_c e)) (nameless fs) prev [] xs) b
  end.
Proof.
  intros e v index fs ca fa xs b Hc (D & U & I) L.
  unfold encode_arm_compiles in Hc. destruct (check_estmts _ _) as [gz|] eqn:Hk; [|discriminate]. clear Hc.
  unfold run_encode_arm, gen_encode_arm in *.
  set (s0 := pattern_store fs xs ++ encode_store (Some (e_c e)) ca fa EOther).
  set (g0 := pattern_scope 0 fs ++ encode_scope) in *.
  cbn [check_estmts check_estmt] in Hk. cbn [run_estmts run_estmt].
  destruct (modifiers (v_attr v) (mkenv [] (k_vars ca))) as [prev|]; [|reflexivity].
  set (s1 := (FATTR_NEW, EFattr prev) :: s0). set (g1 := (FATTR_NEW, XFattr) :: g0) in *.
  rewrite check_eapp in Hk. destruct (check_estmts (gen_tag e v index) g1) as [g2|] eqn:Ht; [|discriminate].
  rewrite check_eapp in Hk. destruct (check_estmts (gen_padding _ (v_attr v)) g2) as [g3|] eqn:Hp; [|discriminate].
  apply padding_check in Hp. subst g3.
  (* the names *)
  assert (F : forall f, In f fs -> free_name (n_name f)).
  { intros f Hin Hx. assert (X : ~ ~ ~ In (n_name f) encoder_names); [|tauto].
    intros Y. assert (Z : ~ unwritten (n_spec f)) by (intros Z; apply Y; now apply I).
    apply Y. apply (variant_checked _ _ _ _ _ Hk f Hin Z). }
  assert (Fn : forall y, In y encoder_names -> ~ In y (map n_name fs)).
  { intros y Hy Hin. apply in_map_iff in Hin as (f & <- & Hf). now apply (F f Hf). }
  assert (R1 : ready s1 (own_cattr (e_c e)) prev 0).
  { split.
    - subst s1. rewrite look_cons, eqb_neq by discriminate. subst s0. rewrite pattern_look; [reflexivity|]. apply Fn. cbn. auto.
    - subst s1. rewrite look_cons, eqb_neq by discriminate. subst s0. rewrite pattern_look; [reflexivity|]. apply Fn. cbn. auto.
    - subst s1. rewrite look_cons, eqb_neq by discriminate. subst s0. rewrite pattern_look; [reflexivity|]. apply Fn. cbn. auto.
    - reflexivity. }
  assert (B1 : Forall2 (bound_at s1) fs xs).
  { apply bound_under; [now apply pattern_bound|]. intros f Hin. specialize (F f Hin). apply free_ne in F. intuition. }
  (* the tag *)
  assert (T : wsim (run_estmts enc (gen_tag e v index) s1) (push_tag e v index ca fa)
                   (fun s' k => ready s' (own_cattr (e_c e)) prev k /\ Forall2 (bound_at s') fs xs)).
  { assert (Add : forall k, ready (add_count k s1) (own_cattr (e_c e)) prev k /\ Forall2 (bound_at (add_count k s1)) fs xs).
    { intros k. split; [rewrite <- (N.add_0_l k) at 2; now apply ready_add|].
      apply (@bound_same s1 _ R_NBYTES); [exact B1|apply same_but_add|].
      intros f Hin. specialize (F f Hin). apply free_ne in F. intuition. }
    unfold gen_tag, push_tag in *. destruct (e_branching e).
    - cbn [run_estmts run_estmt check_estmts check_estmt] in *.
      destruct (has_count g1 && _) eqn:Ec in Ht; [|discriminate]. injection Ht as <-.
      apply andb_true_iff in Ec as [_ Ec].
      assert (Lk : forall y, y = FATTR \/ y = CATTR -> look y s1 = look y (encode_store (Some (e_c e)) ca fa EOther)).
      { intros y Hy. subst s1. rewrite look_cons, eqb_neq by (destruct Hy as [-> | ->]; discriminate). subst s0. apply pattern_look.
        intros Hin. apply (pattern_scope_in _ 0 y encode_scope) in Hin as (k & Lf). fold g0 in Lf.
        destruct (look CATTR_NEW g1) as [[]|]; try discriminate. subst g1.
        rewrite !look_cons, !eqb_neq in Ec by discriminate. destruct Hy as [-> | ->]; rewrite Lf in Ec; [discriminate|].
        destruct (look FATTR g0) as [[]|]; discriminate. }
      rewrite (r_cattr R1), (Lk FATTR), (Lk CATTR) by auto.
      change (look FATTR (encode_store (Some (e_c e)) ca fa EOther)) with (Some (EFattr fa)).
      change (look CATTR (encode_store (Some (e_c e)) ca fa EOther)) with (Some (ECattr ca)). cbv iota beta.
      set (tag := match a_branch fa, k_byte_count (own_cattr (e_c e)), a_byte_count fa with
                  | Some _, _, _ => wret 0
                  | None, Some n, _ => push_uint (ko ca fa) index n
                  | None, None, Some n => push_uint (ko ca fa) index n
                  | None, None, None => if e_no_tag e then wret 0 else push_u8 index
                  end).
      eapply wsim_ext with (m := s' <~ adds s1 tag ;; wret ((CR_BYTE_COUNT, EOther) :: s')) (n := k <~ tag ;; wret k).
      { intros b0. unfold wbind, wret. now destruct (adds s1 tag b0). }
      { intros b0. rewrite wbind_ret. subst tag. cbn [own_cattr k_byte_count].
        destruct (a_branch fa), (c_byte_count (e_c e)), (a_byte_count fa); reflexivity. }
      eapply wsim_bind; [apply (adds_sim tag R1)|]. cbv beta. intros s' k ->. apply wsim_ret.
      destruct (Add k) as [RA BA].
      assert (Nc : forall f, In f fs -> n_name f <> CR_BYTE_COUNT).
      { intros f Hin E. apply (@variant_not_field (k_vars ca) fs [] 0 ((CR_BYTE_COUNT, XOther) :: g1) gz CR_BYTE_COUNT Hk) with (f := f); [|exact Hin|exact E|].
        - intros k0 b0. rewrite look_cons, eqb_refl. discriminate.
        - intros Z. apply (I f Hin) in Z as [_ Z]. now apply Z. }
      split.
      + destruct RA as [X1 X2 X3 X4]. split; rewrite look_cons, eqb_neq by discriminate; assumption.
      + now apply bound_under.
    - cbn [run_estmts run_estmt].
      eapply wsim_ext with (m := s' <~ adds s1 (push (variant_bytes v)) ;; wret s') (n := k <~ push (variant_bytes v) ;; wret k);
        [reflexivity|intros b0; now rewrite wbind_ret|].
      eapply wsim_bind; [apply (adds_sim _ R1)|]. cbv beta. intros s' k ->. apply wsim_ret. apply Add.
    - apply wsim_ret. split; assumption.
    - cbn [run_estmts run_estmt].
      eapply wsim_ext with (m := s' <~ adds s1 (push (variant_bytes v)) ;; wret s') (n := k <~ push (variant_bytes v) ;; wret k);
        [reflexivity|intros b0; now rewrite wbind_ret|].
      eapply wsim_bind; [apply (adds_sim _ R1)|]. cbv beta. intros s' k ->. apply wsim_ret. apply Add. }
  (* everything *)
  set (whole := plus (push_tag e v index ca fa)
           (_ <~ enc_offset (v_attr v) (mkenv [] (k_vars ca)) ;;
            enc_fields enc true (k_vars ca) (own_cattr (e_c e)) (nameless fs) prev [] xs)).
  transitivity ((s' <~ run_estmts enc (gen_tag e v index ++ gen_padding (fun _ => mkenv [] (k_vars ca)) (v_attr v) ++
                        gen_variant (k_vars ca) [] 0 fs) s1 ;; wret (count_of s')) b); [reflexivity|].
  rewrite (@returned enc _ s1 whole 0).
  - unfold wbind, wret. destruct (whole b); [|reflexivity..]. now rewrite N.add_0_l.
  - subst s1. apply counted_bind; [discriminate|]. apply pattern_counted.
    intros y n [H|[H|[H|[H|[H|[H|[]]]]]]]; try discriminate. now injection H.
  - eapply wsim_ext; [intros b0; symmetry; apply run_eapp|reflexivity|]. unfold whole, plus.
    eapply wsim_bind; [exact T|]. cbv beta. intros s2 k [R2 B2].
    eapply wsim_ext; [intros b0; symmetry; apply run_eapp|intros b0; symmetry; apply wbind_assoc|].
    eapply wsim_bind; [eapply padding_sim; [exact R2|reflexivity]|]. cbv beta. intros s3 _ ->.
    eapply wsim_ext with (m := s' <~ run_estmts enc (gen_variant (k_vars ca) [] 0 fs) s2 ;; wret s'); [intros b0; apply wbind_ret|reflexivity|].
    eapply wsim_bind.
    + apply (@variant_sim enc (k_vars ca) (own_cattr (e_c e)) fs [] s2 prev k [] [] xs); auto. now repeat split.
    + cbv beta. intros s4 k4 H4. apply wsim_ret. now rewrite N.add_0_l.
Qed.

(** The whole encoder of an enum: the arm of the variant, numbered as the declaration says. *)
Theorem C69_enum : forall e vs ca fa i xs b,
  (forall v fs, nth_error vs i = Some (v, fs) ->
     encode_arm_compiles (k_vars ca) e v 0 fs = true /\ arm_in_order fs /\ length xs = length fs) ->
  run_encode_enum enc e vs 0 ca fa i xs b =
  enc (TEnum e (map (fun vf => (fst vf, nameless (snd vf))) vs)) ca fa (VVariant i xs) b.
Proof.
  intros e vs ca fa i xs b H. cbn [enc]. generalize 0 at 1 2. revert i H.
  induction vs as [|[v fs] vs IH]; intros i H next; [reflexivity|]. cbn [run_encode_enum map fst snd enc_arms].
  destruct i as [|i].
  - destruct (H v fs eq_refl) as (Hc & Ho & Hl).
    rewrite (C69_arm e v (variant_index v next) fs ca fa xs b); [now destruct (modifiers (v_attr v) (mkenv [] (k_vars ca)))| |exact Ho|exact Hl].
    rewrite <- Hc. unfold encode_arm_compiles, gen_encode_arm, gen_tag. destruct (e_branching e); reflexivity.
  - exact (IH i H (variant_index v next + 1)).
Qed.
(** With names of their own the fields of a variant compile, unless they are [from_str]. *)
Theorem C69_arm_compiles : forall vars e v index fs,
  NoDup (map n_name fs) ->
  (forall f, In f fs -> ~ In (n_name f) (encoder_names ++ tag_names) /\ n_name f <> list_byte_of_string "self" /\
     (exists c r, n_name f = c :: r /\ ~ (48 <= Byte.to_N c <= 57)) /\
     (f_from_str (n_spec f) = None \/ f_with_encode (n_spec f) <> None \/ f_skip_encode (n_spec f) = true)) ->
  encode_arm_compiles vars e v index fs = true.
Proof.
  intros vars e v index fs D H. unfold encode_arm_compiles, gen_encode_arm. cbn [check_estmts check_estmt].
  set (g0 := pattern_scope 0 fs ++ encode_scope). set (g1 := (FATTR_NEW, XFattr) :: g0).
  assert (Out : forall y, In y (encoder_names ++ tag_names) -> look y g0 = look y encode_scope).
  { intros y Hy. apply pattern_scope_look. intros Hin. apply in_map_iff in Hin as (f & <- & Hf). destruct (H f Hf) as [X _]. contradiction. }
  assert (G1 : has_names g1).
  { subst g1. repeat split; (rewrite look_cons, eqb_neq by discriminate; rewrite Out; [reflexivity|cbn; auto 9]). }
  assert (T : exists g2, check_estmts (gen_tag e v index) g1 = Some g2 /\ (g2 = g1 \/ g2 = (CR_BYTE_COUNT, XOther) :: g1)).
  { assert (C : has_count g1 = true) by (destruct G1 as (B & C & _); unfold has_count, has_buffer; now rewrite B, C).
    assert (LF : look FATTR g1 = Some XFattr /\ look CATTR g1 = Some XCattr).
    { subst g1. split; (rewrite look_cons, eqb_neq by discriminate; rewrite Out; [reflexivity|cbn; auto 12]). }
    unfold gen_tag. destruct (e_branching e); cbn [check_estmts check_estmt]; rewrite ?C; [|now exists g1; auto..].
    destruct G1 as (_ & _ & ->). destruct LF as [-> ->]. cbn [andb]. eexists. split; [reflexivity|auto]. }
  destruct T as (g2 & T & G). rewrite check_eapp, T. rewrite check_eapp.
  assert (G2 : has_names g2) by (destruct G as [-> | ->]; exact G1).
  replace (check_estmts (gen_padding _ (v_attr v)) g2) with (Some g2).
  2: { unfold gen_padding. destruct (f_offset (v_attr v)); [|reflexivity]. cbn [check_estmts check_estmt].
       destruct G2 as (B & _). unfold has_buffer. now rewrite B. }
  destruct (@variant_check vars fs [] 0 g2) as (g3 & ->); auto.
  - destruct G as [-> | ->]; reflexivity.
  - intros j f Hj. pose proof (nth_error_In _ _ Hj) as Hin. destruct (H f Hin) as (N & S & (c & r & E & Nd) & Tx).
    rewrite in_app_iff in N. split; [|split; [|split]].
    + intros X. apply N. now left.
    + unfold is_name. rewrite E. rewrite <- E. apply andb_true_iff. split; apply negb_true_iff; [|now apply eqb_neq].
      apply andb_false_iff. rewrite !N.leb_gt. lia.
    + intros (T1 & T2 & T3). destruct Tx as [Tx|[Tx|Tx]]; congruence.
    + assert (L : look (n_name f) g1 = Some (XField (0 + j) false)).
      { subst g1. rewrite look_cons, eqb_neq by (intros X; apply N; rewrite X; cbn; auto 6). now apply pattern_scope_nth. }
      destruct G as [-> | ->]; [exact L|]. rewrite look_cons, eqb_neq; [exact L|]. intros X. apply N. rewrite X. cbn. auto 8.
Qed.

(** [enum E { A(u8), #[jbytes(offset=1)] B { n: u8, #[jbytes(length="n")] body: Vec<u8> } }] *)
Definition letters : list (vspec * list field) :=
  [(mkvspec false plain (txt "a") None false None None None None, [mkfield (tuple_name 0) plain (TInt U8)]);
   (mkvspec true (at_offset (const 1) plain) (txt "b") None false None None None None,
    [mkfield (txt "n") plain (TInt U8); mkfield (txt "body") (at_length (field_ref 0) plain) TBytes])].
Definition tagged : espec := mkespec no_cspec ByTag false.
Example C69_enum_example :
  (forall v fs, nth_error letters 1 = Some (v, fs) ->
     encode_arm_compiles [] tagged v 0 fs = true /\ arm_in_order fs /\ length [VInt 2; VBytes ["061"; "062"]%byte] = length fs) /\
  run_encode_enum enc tagged letters 0 no_cattr no_fattr 1 [VInt 2; VBytes ["061"; "062"]%byte] buf_new
    = Ok 4 (mkbuf ["001"; "000"; "002"; "061"; "062"]%byte 5).
Proof.
  split; [|reflexivity]. intros v fs [= <- <-]. split; [reflexivity|]. split; [|reflexivity]. split; [|split].
  - repeat constructor; cbn; intros X; repeat (destruct X as [X|X]; [discriminate X|]); exact X.
  - assert (X : forall T : nat -> Prop, (forall i, ~ T i) -> forall en en', differ_at T en en' -> en = en').
    { intros T HT [a x] [a' x'] (E1 & E2 & E3). cbn in *. subst x'. f_equal. clear E2.
      revert a' E3. induction a as [|v a IH]; intros [|v' a'] E3; [reflexivity|specialize (E3 O (HT O)); discriminate|specialize (E3 O (HT O)); discriminate|].
      f_equal; [specialize (E3 O (HT O)); now injection E3|]. apply IH. intros i Hi. exact (E3 (S i) (HT (S i))). }
    intros j f Hj en en' Hd. assert (E : en = en').
    { eapply X; [|exact Hd]. cbv beta. intros i (_ & h & Hh & (_ & _ & Hv & _)).
      destruct i as [|[|i]]; cbn in Hh; [injection Hh as <-; now apply Hv|injection Hh as <-; now apply Hv|destruct i; discriminate]. }
    rewrite E. repeat split.
  - intros f [<-|[<-|[]]] (_ & [H|(_ & _ & H)]); discriminate.
Qed.

(** ** What goes wrong *)

(** A field with [value_encode] under a name of the encoder's own, or in a tuple struct:
    no encoder. *)
Theorem C69_reserved_refuted : forall d fs vars f, d_fields d = Some fs -> In f fs -> rewritten (n_spec f) ->
  In (n_name f) encoder_names -> encoder_compiles d vars = false.
Proof.
  intros d fs vars f Hf Hin Hr Hn. unfold encoder_compiles. rewrite Hf.
  destruct (check_estmts _ _) as [g|] eqn:E; [|reflexivity]. destruct (struct_checked _ _ _ _ E f Hin Hr) as [F _]. contradiction.
Qed.
Theorem C69_tuple_refuted : forall d fs vars i f, d_fields d = Some fs -> nth_error fs i = Some f ->
  decimal_text (n_name f) (N.of_nat i) -> rewritten (n_spec f) -> encoder_compiles d vars = false.
Proof.
  intros d fs vars i f Hf Hi (Hn & Hd & _) Hr. unfold encoder_compiles. rewrite Hf.
  destruct (check_estmts _ _) as [g|] eqn:E; [|reflexivity].
  destruct (struct_checked _ _ _ _ E f (nth_error_In _ _ Hi) Hr) as [_ N]. exfalso.
  unfold is_name in N. destruct (n_name f) as [|c r]; [now apply Hn|]. inversion Hd; subst.
  apply andb_true_iff in N as [N _]. apply negb_true_iff, andb_false_iff in N. rewrite !N.leb_gt in N. lia.
Qed.
Example C69_struct_refuted_example :
  encoder_compiles (more (txt "buffer")) [] = false /\ struct_compiles (more (txt "buffer")) [] = true /\
  decimal_text (txt "0") 0 /\ encoder_compiles (mkdecl false None (Some [mkfield (txt "0") (at_value_encode plus_one plain) (TInt U8)])) [] = false.
Proof. repeat split; try discriminate. repeat constructor; discriminate. Qed.

(** In a variant, any field that is written under such a name; [struct S { buffer: u8 }] is
    fine, [enum E { V { buffer: u8 } }] is not. *)
Theorem C69_arm_reserved_refuted : forall vars e v index fs f, In f fs -> ~ unwritten (n_spec f) ->
  In (n_name f) encoder_names -> encode_arm_compiles vars e v index fs = false.
Proof.
  intros vars e v index fs f Hin Hu Hn. unfold encode_arm_compiles, gen_encode_arm. cbn [check_estmts check_estmt].
  rewrite check_eapp. destruct (check_estmts (gen_tag e v index) _) as [g2|]; [|reflexivity].
  rewrite check_eapp. destruct (check_estmts (gen_padding _ _) g2) as [g3|]; [|reflexivity].
  destruct (check_estmts (gen_variant vars [] 0 fs) g3) as [g|] eqn:E; [|reflexivity].
  exfalso. apply (variant_checked _ _ _ _ _ E f Hin Hu Hn).
Qed.
(** With a numeric tag also [cattr] and [fattr], and [cr_byte_count]. *)
Theorem C69_arm_tag_refuted : forall vars e v index fs f, e_branching e = ByTag -> In f fs -> ~ unwritten (n_spec f) ->
  In (n_name f) tag_names -> encode_arm_compiles vars e v index fs = false.
Proof.
  intros vars e v index fs f He Hin Hu Hn. unfold encode_arm_compiles, gen_encode_arm, gen_tag. rewrite He.
  cbn [app check_estmts check_estmt].
  destruct (has_count _ && _) eqn:Ec; [|reflexivity]. apply andb_true_iff in Ec as [_ Ec].
  rewrite !look_cons, !(eqb_neq (y := FATTR_NEW)) in Ec by discriminate.
  assert (Lf : In (n_name f) (map n_name fs)) by now apply in_map.
  apply (pattern_scope_in _ 0 _ encode_scope) in Lf as (k & Lf).
  destruct Hn as [Hn|[Hn|[Hn|[]]]]; rewrite <- Hn in Lf.
  - change (list_byte_of_string "cattr") with CATTR in Lf. rewrite Lf in Ec.
    destruct (look CATTR_NEW _) as [[]|]; try discriminate. destruct (look FATTR _) as [[]|]; discriminate.
  - change (list_byte_of_string "fattr") with FATTR in Lf. rewrite Lf in Ec.
    destruct (look CATTR_NEW _) as [[]|]; discriminate.
  - rewrite check_eapp. destruct (check_estmts (gen_padding _ _) _) as [g3|] eqn:Ep; [|reflexivity].
    apply padding_check in Ep. subst g3.
    destruct (check_estmts (gen_variant vars [] 0 fs) _) as [g|] eqn:E; [|reflexivity]. exfalso.
    apply (@variant_not_field vars fs [] 0 _ g CR_BYTE_COUNT E) with (f := f); auto.
    intros k0 b0. rewrite look_cons, eqb_refl. discriminate.
Qed.
(** And a field with [from_str], whatever its name. *)
Theorem C69_from_str_refuted : forall vars e v index fs f, In f fs -> f_from_str (n_spec f) <> None ->
  f_with_encode (n_spec f) = None -> f_skip_encode (n_spec f) = false -> encode_arm_compiles vars e v index fs = false.
Proof.
  intros vars e v index fs f Hin Hf Hw Hs. unfold encode_arm_compiles, gen_encode_arm. cbn [check_estmts check_estmt].
  rewrite check_eapp. destruct (check_estmts (gen_tag e v index) _) as [g2|]; [|reflexivity].
  rewrite check_eapp. destruct (check_estmts (gen_padding _ _) g2) as [g3|]; [|reflexivity].
  rewrite (variant_texted vars fs [] 0 g3 f Hin); [reflexivity|]. now repeat split.
Qed.
Example C69_arm_refuted_example :
  let v := mkvspec true plain (txt "v") None false None None None None in
  let arm name f := encode_arm_compiles [] tagged v 0 [mkfield (txt name) f (TInt U8)] in
  arm "buffer"%string plain = false /\ arm "fattr"%string plain = false /\ arm "cr_byte_count"%string plain = false /\
  arm "x"%string (at_from_str (fun _ => None) (fun _ => []) plain) = false /\ arm "x"%string plain = true /\
  encoder_compiles (mkdecl true None (Some [mkfield (txt "x") (at_from_str (fun _ => None) (fun _ => []) plain) (TInt U8)])) [] = true /\
  arm_compiles true None [] plain [mkfield (txt "buffer") plain (TInt U8)] = true.
Proof. repeat split. Qed.

(** An expression that mentions a field with [value_encode] means the field in the encoder
    of a struct, and what is written for it in the encoder of a variant:
    [V(#[jbytes(value_encode="*v0 + 1")] u8, #[jbytes(length="v0")] u16)]. *)
Definition rewritten_length (x : bytes) : list field :=
  [mkfield x (at_value_encode plus_one plain) (TInt U8); mkfield (txt "y") (at_length (field_ref 0) plain) (TInt U16)].
Theorem C69_rewritten_refuted :
  let v := mkvspec false plain (txt "v") None false None None None None in
  let e := mkespec no_cspec ByPrefixUntake false in
  encode_arm_compiles [] e v 0 (rewritten_length (txt "x")) = true /\
  encoder_compiles (mkdecl true None (Some (rewritten_length (txt "x")))) [] = true /\
  run_encoder enc (mkdecl true None (Some (rewritten_length (txt "x")))) no_cattr no_fattr [VInt 1; VInt 7] buf_new
    = Ok 2 (mkbuf ["002"; "007"]%byte 2) /\
  run_encode_arm enc e v 0 (rewritten_length (txt "x")) no_cattr no_fattr [VInt 1; VInt 7] buf_new
    = Ok 3 (mkbuf ["002"; "000"; "007"]%byte 3).
Proof. repeat split. Qed.

Print Assumptions C69_struct.
Print Assumptions C69_unit.
Print Assumptions C69_names.
Print Assumptions C69_compiles.
Print Assumptions C69_round_trip.
Print Assumptions C69_arm.
Print Assumptions C69_enum.
Print Assumptions C69_arm_compiles.
Print Assumptions C69_reserved_refuted.
Print Assumptions C69_tuple_refuted.
Print Assumptions C69_arm_reserved_refuted.
Print Assumptions C69_arm_tag_refuted.
Print Assumptions C69_from_str_refuted.
Print Assumptions C69_rewritten_refuted.
