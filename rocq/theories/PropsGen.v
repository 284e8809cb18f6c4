(** C65: what the fields of a derived decoder are called does not matter. *)
From Coq Require Import Ascii String.
From Verif Require Import Base BaseLemmas Ints Reader Writer Text TextSpec Sugar AttrParse Decode NetLemmas
  GenDecode GenSpec GenLemmas Schema.
Close Scope string_scope.

(** Two declarations that differ in the names of the fields only. *)
Definition renamed (fs fs' : list field) : Prop := nameless fs = nameless fs'.

Lemma sim_eq {A B} (m : rd A) (n : rd B) (h : A -> B) (k : B -> val) d p :
  sim m n (fun a b => h a = b) -> (a <- m ;; ret (k (h a))) d p = (b <- n ;; ret (k b)) d p.
Proof.
  intros H. specialize (H d p). unfold bind, ret. destruct (m d p), (n d p); try easy.
  - destruct H as [-> ->]. reflexivity.
  - destruct H as [-> ->]. reflexivity.
Qed.

(** ** Structs *)

(** The statements of the derived decoder do to the fields, in order, what their
    attributes and types say, if the code compiles and no [position: usize] meets an
    [untake]. *)
Theorem C65_struct : forall d fs ca fa dt p,
  d_fields d = Some fs -> struct_compiles d (k_vars ca) = true -> ~ position_taken fs ->
  run_struct dec d ca dt p = dec (TStruct (d_named d) (container_of d) (nameless fs)) ca fa dt p.
Proof.
  intros d fs ca fa dt p Hf Hc Hp. unfold struct_compiles in Hc. unfold run_struct. rewrite Hf in *.
  destruct (check_stmts _ (struct_scope d)) as [g|] eqn:Hk; [|discriminate].
  change (dec (TStruct (d_named d) (container_of d) (nameless fs)) ca fa)
    with (l <- dec_fields dec (negb (d_named d)) (k_vars ca) (nameless fs) (own_cattr (container_of d)) no_fattr [] ;; ret (VList l)).
  apply sim_eq with (h := run_return (binders 0 fs)) (k := VList).
  assert (G : good (struct_store d) (struct_scope d) [] [] (own_cattr (container_of d)) no_fattr).
  { split.
    - repeat constructor.
    - reflexivity.
    - discriminate.
    - constructor. }
  eapply (@fields_sim dec (k_vars ca) (d_named d) fs [] 0 (struct_store d) (struct_scope d) g [] _ _ []); [exact G|reflexivity|reflexivity|easy|exact Hk|exact Hc|easy|exact Hp].
Qed.
(** So names do not matter: neither to what is decoded, nor to the errors, nor to where
    reading stops. *)
Theorem C65_names : forall d d' fs fs' ca dt p,
  d_fields d = Some fs -> d_fields d' = Some fs' -> renamed fs fs' ->
  d_named d = d_named d' -> container_of d = container_of d' ->
  struct_compiles d (k_vars ca) = true -> struct_compiles d' (k_vars ca) = true ->
  ~ position_taken fs -> ~ position_taken fs' ->
  run_struct dec d ca dt p = run_struct dec d' ca dt p.
Proof.
  intros d d' fs fs' ca dt p F F' R N C K K' P P'.
  rewrite (C65_struct d fs ca no_fattr dt p F K P), (C65_struct d' fs' ca no_fattr dt p F' K' P'). congruence.
Qed.
(** With names of their own the fields compile: different from each other and from the
    five names the generated code uses. *)
Theorem C65_compiles : forall d fs vars,
  d_fields d = Some fs ->
  NoDup (map n_name fs) -> (forall f, In f fs -> ~ In (n_name f) reserved) ->
  (d_container d <> None -> forall f, In f fs -> f_vars (n_spec f) = []) ->
  (d_named d = true \/ match fs with [] => True | f :: _ => f_use (n_spec f) = true end) ->
  struct_compiles d vars = true /\ ~ position_taken fs.
Proof.
  intros d fs vars Hf Hd Hn Hv H1. split.
  - unfold struct_compiles. rewrite Hf.
    destruct (@fields_check (d_named d) vars fs (match d_container d with Some _ => false | None => true end) [] 0 (struct_scope d))
      as (g & -> & Hr); auto.
    intros E. apply Hv. destruct (d_container d); [discriminate|discriminate E].
  - intros (i & j & f & h & _ & Hi & _ & (Hx & _) & _). apply nth_error_In in Hi. apply (Hn f Hi). rewrite Hx.
    unfold reserved. apply (in_map list_byte_of_string). cbn. auto 8.
Qed.
(** The fields of a tuple struct are called [v0], [v1] and so on, which is fine. *)
Theorem C65_numbers : forall fs, numbered fs -> N.of_nat (length fs) < 2 ^ 64 ->
  NoDup (map n_name fs) /\ forall f, In f fs -> ~ In (n_name f) reserved.
Proof.
  intros fs Hn Hl. split.
  - apply NoDup_nth_error. intros i j Hi E. rewrite map_length in Hi.
    rewrite !nth_error_map in E.
    destruct (nth_error fs i) as [f|] eqn:Ei; [|apply nth_error_None in Ei; lia].
    destruct (nth_error fs j) as [h|] eqn:Ej; [|discriminate].
    assert (Hj : (j < length fs)%nat) by (apply nth_error_Some; congruence).
    cbn in E. injection E as E. rewrite (Hn _ _ Ei), (Hn _ _ Ej) in E. unfold tuple_name in E. injection E as E.
    assert (X : Some (N.of_nat i) = Some (N.of_nat j)).
    { rewrite <- (usize_round_trip (N.of_nat i)), <- (usize_round_trip (N.of_nat j)) by lia. now rewrite E. }
    injection X as X. lia.
  - intros f Hin Hr. apply In_nth_error in Hin as (i & Hi). rewrite (Hn _ _ Hi) in Hr. unfold tuple_name in Hr.
    cbn in Hr. repeat (destruct Hr as [Hr|Hr]; [discriminate Hr|]). exact Hr.
Qed.

(** [struct S { n: u8, #[jbytes(length="n")] body: Vec<u8>, #[jbytes(untake)] next: u8 }],
    and the same with other names. *)
Definition message (a b c : string) : decl :=
  mkdecl true None (Some [mkfield (txt a) plain (TInt U8);
                          mkfield (txt b) (at_length (field_ref 0) plain) TBytes;
                          mkfield (txt c) (at_untake plain) (TInt U8)]).
Example C65_names_example :
  struct_compiles (message "n" "body" "next") [] = true /\ struct_compiles (message "length" "rest" "kind") [] = true /\
  forall dt p, run_struct dec (message "n" "body" "next") no_cattr dt p = run_struct dec (message "length" "rest" "kind") no_cattr dt p.
Proof.
  assert (H : forall a b c, NoDup [txt a; txt b; txt c] -> (forall x, In x [txt a; txt b; txt c] -> ~ In x reserved) ->
              struct_compiles (message a b c) [] = true /\
              ~ position_taken [mkfield (txt a) plain (TInt U8);
                          mkfield (txt b) (at_length (field_ref 0) plain) TBytes;
                          mkfield (txt c) (at_untake plain) (TInt U8)]).
  { intros a b c D R. apply C65_compiles with (vars := []); [reflexivity|exact D| |easy|now left].
    intros f [<-|[<-|[<-|[]]]]; apply R; cbn; auto. }
  destruct (H "n" "body" "next")%string as [K1 P1];
    [repeat constructor; cbn; intros X; repeat (destruct X as [X|X]; [discriminate X|]); exact X
    |intros x [<-|[<-|[<-|[]]]] X; repeat (destruct X as [X|X]; [discriminate X|]); exact X|].
  destruct (H "length" "rest" "kind")%string as [K2 P2];
    [repeat constructor; cbn; intros X; repeat (destruct X as [X|X]; [discriminate X|]); exact X
    |intros x [<-|[<-|[<-|[]]]] X; repeat (destruct X as [X|X]; [discriminate X|]); exact X|].
  split; [exact K1|]. split; [exact K2|]. intros dt p. eapply C65_names; try reflexivity; assumption.
Qed.
Example C65_struct_example :
  run_struct dec (message "n" "body" "next") no_cattr ["002"; "061"; "062"; "007"]%byte 0
  = Ok (VList [VInt 2; VBytes ["061"; "062"]%byte; VInt 7]) 3.
Proof. reflexivity. Qed.
Example C65_numbers_example :
  let fs := [mkfield (tuple_name 0) (at_untake plain) (TInt U8); mkfield (tuple_name 1) plain TBool] in
  numbered fs /\ struct_compiles (mkdecl false None (Some fs)) [] = true.
Proof. split; [|reflexivity]. intros [|[|i]] f; cbn; intros [= <-] || idtac; try reflexivity. destruct i; discriminate. Qed.

(** ** Variants *)

(** The arm of a variant likewise, after the modifiers and the offset of the variant. *)
Theorem C65_arm : forall named c vars v fs ca dt p,
  ca = own_cattr (match c with Some c => c | None => no_cspec end) ->
  arm_compiles named c vars v fs = true -> ~ position_taken fs ->
  run_arm dec named c vars v fs dt p =
  match modifiers v (mkenv [] vars) with
  | None => Panic
  | Some prev =>
      (_ <- dec_offset (f_offset v) (mkenv [] vars) ;; dec_fields dec (negb named) vars (nameless fs) ca prev []) dt p
  end.
Proof.
  intros named c vars v fs ca dt p -> Hc Hp. unfold arm_compiles in Hc. unfold run_arm, gen_arm in *.
  destruct (check_stmts _ (arm_scope c)) as [g|] eqn:Hk; [|discriminate].
  set (S0 := arm_store c) in *. set (G0 := arm_scope c) in *. set (ca := own_cattr _).
  change (sees [] vars) with (fun s : store => mkenv [] vars) in *.
  cbn [check_stmts check_stmt] in Hk. cbn [run_stmts run_stmt].
  unfold bind at 1 2. destruct (modifiers v (mkenv [] vars)) as [prev|]; [|reflexivity]. cbn [ret].
  assert (G : good ((FATTR_NEW, LFattr prev) :: S0) ((FATTR_NEW, KFattr) :: G0) [] [] ca prev).
  { split.
    - repeat constructor.
    - reflexivity.
    - reflexivity.
    - constructor. }
  change (match f_offset v with
          | Some e => [Advance (fun _ : store => e (mkenv [] vars))]
          | None => []
          end) with (offset_part vars [] (f_offset v)) in *.
  rewrite check_app in Hk.
  destruct (check_stmts (offset_part vars [] (f_offset v)) ((FATTR_NEW, KFattr) :: G0)) as [g0|] eqn:Hk0; [|discriminate].
  destruct (offset_sim dec vars (f_offset v) G Hk0) as [-> Hs].
  rewrite run_app. specialize (Hs dt p). unfold bind.
  destruct (run_stmts dec (offset_part vars [] (f_offset v)) _ dt p) as [s1 q|e q| |],
    (dec_offset (f_offset v) (mkenv [] vars) dt p) as [u q'|e' q'| |]; try easy.
  - destruct Hs as [-> ->].
    assert (H : sim (run_stmts dec (gen_fields named vars [] 0 fs) ((FATTR_NEW, LFattr prev) :: S0))
                    (dec_fields dec (negb named) vars (nameless fs) ca prev []) (fun s vs => run_return ([] ++ binders 0 fs) s = vs)).
    { eapply (@fields_sim dec vars named fs [] 0 _ _ g [] _ _ []); [exact G|reflexivity|reflexivity|easy|exact Hk|exact Hc|easy|exact Hp]. }
    specialize (H dt q').
    destruct (run_stmts dec (gen_fields named vars [] 0 fs) _ dt q'), (dec_fields dec (negb named) vars (nameless fs) ca prev [] dt q'); try easy.
    + destruct H as [-> <-]. reflexivity.
    + destruct H as [-> ->]. reflexivity.
  - destruct Hs as [-> ->]. reflexivity.
Qed.
Theorem C65_arm_names : forall named c vars v fs fs' dt p,
  renamed fs fs' -> arm_compiles named c vars v fs = true -> arm_compiles named c vars v fs' = true ->
  ~ position_taken fs -> ~ position_taken fs' ->
  run_arm dec named c vars v fs dt p = run_arm dec named c vars v fs' dt p.
Proof.
  intros named c vars v fs fs' dt p R K K' P P'.
  rewrite (C65_arm named c vars v fs _ dt p eq_refl K P), (C65_arm named c vars v fs' _ dt p eq_refl K' P').
  unfold renamed in R. now rewrite R.
Qed.
(** In a variant the first field of a tuple needs no attributes: the modifiers of the
    variant are in scope. *)
Theorem C65_arm_compiles : forall named c vars v fs,
  NoDup (map n_name fs) -> (forall f, In f fs -> ~ In (n_name f) reserved) ->
  (c <> None -> forall f, In f fs -> f_vars (n_spec f) = []) ->
  arm_compiles named c vars v fs = true.
Proof.
  intros named c vars v fs Hd Hn Hv. unfold arm_compiles, gen_arm. cbn [check_stmts check_stmt].
  rewrite check_app.
  replace (check_stmts _ ((FATTR_NEW, KFattr) :: arm_scope c)) with (Some ((FATTR_NEW, KFattr) :: arm_scope c)).
  2: { destruct (f_offset v); reflexivity. }
  destruct (@fields_check named vars fs (match c with Some _ => false | None => true end) [] 0 ((FATTR_NEW, KFattr) :: arm_scope c))
    as (g & -> & Hr); auto.
  intros E. apply Hv. destruct c; [discriminate|discriminate E].
Qed.

(** [B { n: u8, rest: u8 }] with [#[jbytes(offset=1)]], and a tuple variant whose field
    has no attributes. *)
Example C65_arm_example :
  let fs := [mkfield (txt "n") plain (TInt U8); mkfield (txt "rest") (at_untake plain) (TInt U8)] in
  arm_compiles true None [] (at_offset (const 1) plain) fs = true /\
  run_arm dec true None [] (at_offset (const 1) plain) fs ["000"; "002"; "007"]%byte 0 = Ok [VInt 2; VInt 7] 2 /\
  arm_compiles false (Some no_cspec) [] plain [mkfield (tuple_name 0) plain (TInt U8)] = true.
Proof. repeat split. Qed.

(** ** What goes wrong *)

(** [struct S { #[jbytes(untake)] position: usize }] reads eight bytes, and then goes to
    where they say instead of back. *)
Definition restore_to (name : string) : decl :=
  mkdecl true None (Some [mkfield (txt name) (at_untake plain) (TInt Usize)]).
Definition eight : bytes := ["000"; "000"; "000"; "000"; "000"; "000"; "000"; "003"]%byte.
Theorem C65_position_refuted :
  struct_compiles (restore_to "position") [] = true /\ struct_compiles (restore_to "pos") [] = true /\
  run_struct dec (restore_to "pos") no_cattr eight 0 = Ok (VList [VInt 3]) 0 /\
  run_struct dec (restore_to "position") no_cattr eight 0 = Ok (VList [VInt 3]) 3.
Proof. repeat split. Qed.
(** [struct S { position: usize, #[jbytes(untake)] kind: u8 }] loses the decoded number. *)
Definition peek_after (name : string) : decl :=
  mkdecl true None (Some [mkfield (txt name) plain (TInt Usize); mkfield (txt "kind") (at_untake plain) (TInt U8)]).
Theorem C65_position_lost_refuted :
  struct_compiles (peek_after "position") [] = true /\ struct_compiles (peek_after "pos") [] = true /\
  run_struct dec (peek_after "pos") no_cattr (eight ++ ["007"%byte]) 0 = Ok (VList [VInt 3; VInt 7]) 8 /\
  run_struct dec (peek_after "position") no_cattr (eight ++ ["007"%byte]) 0 = Ok (VList [VInt 8; VInt 7]) 8.
Proof. repeat split. Qed.
(** The other names of the generated code do not compile, if a field follows. *)
Theorem C65_reserved_refuted : forall d fs vars i j f h,
  d_fields d = Some fs -> nth_error fs i = Some f -> nth_error fs j = Some h -> (i < j)%nat ->
  In (n_name f) (map list_byte_of_string ["input"; "cattr_new"]%string) -> f_skip_decode (n_spec h) = None ->
  struct_compiles d vars = false.
Proof.
  intros d fs vars i j f h Hf Hi Hj Hij Hn Hs. unfold struct_compiles. rewrite Hf.
  destruct (check_stmts _ (struct_scope d)) as [g|] eqn:Hk; [|reflexivity]. exfalso.
  apply nth_error_split in Hi as (l1 & l2 & -> & Hl1).
  rewrite nth_error_app2, Hl1 in Hj by lia. destruct (j - i)%nat as [|k] eqn:Ek; [lia|]. cbn in Hj.
  apply nth_error_split in Hj as (m1 & m2 & -> & _).
  rewrite gen_fields_app, check_app in Hk. destruct (check_stmts _ (struct_scope d)) as [g1|]; [|discriminate].
  cbn [gen_fields] in Hk. rewrite check_app in Hk. destruct (check_stmts _ g1) as [g2|]; [|discriminate].
  rewrite check_app in Hk. destruct (check_stmts _ g2) as [g3|] eqn:H3; [|discriminate].
  rewrite gen_fields_app, check_app in Hk. destruct (check_stmts _ g3) as [g4|] eqn:H4; [|discriminate].
  cbn [gen_fields] in Hk. rewrite check_app in Hk. destruct (check_stmts _ g4) as [g5|] eqn:H5; [|discriminate].
  rewrite check_app in Hk.
  assert (B3 : broken (n_name f) g3) by (apply (own_broken _ _ _ _ _ H3)).
  assert (N : n_name f = INPUT \/ n_name f = CATTR_NEW) by (destruct Hn as [<-|[<-|[]]]; auto).
  assert (NF : n_name f <> FATTR_NEW) by (destruct N as [-> | ->]; discriminate).
  assert (B4 : broken (n_name f) g4) by (eapply fields_broken; [exact NF|exact B3|exact H4]).
  assert (B5 : broken (n_name f) g5).
  { eapply broken_more; [exact B4|exact H5|]. intros y k0 Hin.
    destruct (d_named d || f_use (n_spec h)); [|easy]. destruct Hin as [[= <- <-]|[]]. auto. }
  rewrite (field_lacking vars _ _ _ _ (broken_lacks N B5) Hs) in Hk. discriminate.
Qed.
Theorem C65_fattr_refuted : forall d fs vars i j f h,
  d_fields d = Some fs -> nth_error fs i = Some f -> nth_error fs j = Some h -> (i < j)%nat ->
  n_name f = list_byte_of_string "fattr_new" -> d_named d = true ->
  struct_compiles d vars = false.
Proof.
  intros d fs vars i j f h Hf Hi Hj Hij Hn Hd. unfold struct_compiles. rewrite Hf.
  destruct (check_stmts _ (struct_scope d)) as [g|] eqn:Hk; [|reflexivity].
  destruct (check_return (binders 0 fs) g) eqn:Hr; [|reflexivity]. exfalso.
  apply nth_error_split in Hj as (l1 & l2 & -> & Hl1). subst j.
  rewrite gen_fields_app, check_app in Hk. destruct (check_stmts _ (struct_scope d)) as [g1|]; [|discriminate].
  set (b := mkbinder (n_name f) i (n_type f)).
  assert (Hb : In b (binders 0 (l1 ++ h :: l2))).
  { assert (X : forall l k m e, nth_error l m = Some e -> In (mkbinder (n_name e) (k + m) (n_type e)) (binders k l)).
    { induction l as [|e0 l IH]; intros k [|m] e He; try discriminate; cbn in *.
      - injection He as ->. left. now rewrite Nat.add_0_r.
      - right. replace (k + S m)%nat with (S k + m)%nat by lia. now apply IH. }
    apply (X _ 0%nat i f Hi). }
  unfold check_return in Hr. rewrite forallb_forall in Hr. specialize (Hr b Hb).
  assert (A : look (b_name b) (all_binds (gen_fields (d_named d) vars ([] ++ map n_name l1) (0 + length l1) (h :: l2))) = None).
  { eapply not_hidden; [exact Hk|cbn; lia|exact Hr|]. cbn [b_name b]. rewrite Hn. discriminate. }
  rewrite look_none in A. apply (A FATTR_NEW KFattr).
  - cbn [gen_fields]. rewrite Hd, !all_binds_app, !in_app_iff. right. left. reflexivity.
  - cbn [b_name b]. rewrite Hn. reflexivity.
Qed.
(** [struct S(u8);] without attributes on the field does not compile, [struct S { x: u8 }] does. *)
Theorem C65_tuple_refuted : forall c f rest vars, f_use (n_spec f) = false -> f_skip_decode (n_spec f) = None ->
  struct_compiles (mkdecl false c (Some (f :: rest))) vars = false.
Proof.
  intros c f rest vars Hu Hs. unfold struct_compiles. cbn [d_fields d_named gen_fields orb]. rewrite Hu. cbn [app].
  rewrite check_app, (field_lacking vars [] _ (n_spec f)); [reflexivity|reflexivity|exact Hs].
Qed.
(** [struct S;]: the code returns [Ok(Self {{}})]. *)
Theorem C65_unit_refuted : forall named c vars, struct_compiles (mkdecl named c None) vars = false.
Proof. reflexivity. Qed.
Example C65_unit_example : struct_compiles (mkdecl true None None) [] = false /\ struct_compiles (mkdecl true None (Some [])) [] = true.
Proof. now split. Qed.
(** A field with [variable_name] in a struct that has attributes of its own does not
    compile. *)
Theorem C65_variable_refuted : forall named c fs vars f, In f fs -> f_vars (n_spec f) <> [] ->
  struct_compiles (mkdecl named (Some c) (Some fs)) vars = false.
Proof.
  intros named c fs vars f Hin Hv. unfold struct_compiles. cbn [d_fields d_named].
  rewrite frozen; [reflexivity|discriminate|]. apply publishes_in with (f := f); assumption.
Qed.
Example C65_refuted_example :
  struct_compiles (mkdecl true None (Some [mkfield (txt "input") plain (TInt U8); mkfield (txt "x") plain (TInt U8)])) [] = false /\
  struct_compiles (mkdecl true None (Some [mkfield (txt "x") plain (TInt U8); mkfield (txt "input") plain (TInt U8)])) [] = true /\
  struct_compiles (mkdecl true None (Some [mkfield (txt "fattr_new") plain (TInt U8); mkfield (txt "x") plain (TInt U8)])) [] = false /\
  struct_compiles (mkdecl false None (Some [mkfield (tuple_name 0) plain (TInt U8)])) [] = false /\
  struct_compiles (mkdecl true None (Some [mkfield (txt "x") plain (TInt U8)])) [] = true.
Proof. repeat split. Qed.

Print Assumptions C65_struct.
Print Assumptions C65_names.
Print Assumptions C65_compiles.
Print Assumptions C65_numbers.
Print Assumptions C65_arm.
Print Assumptions C65_arm_names.
Print Assumptions C65_arm_compiles.
Print Assumptions C65_position_refuted.
Print Assumptions C65_position_lost_refuted.
Print Assumptions C65_reserved_refuted.
Print Assumptions C65_fattr_refuted.
Print Assumptions C65_tuple_refuted.
Print Assumptions C65_unit_refuted.
Print Assumptions C65_variable_refuted.
