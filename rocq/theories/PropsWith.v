(** Property C51: hand-written codecs and [with], [with_decode], [with_encode],
    [with_args]. *)
From Coq Require Import String.
From Verif Require Import Base Ints Reader Writer Spec SpecOps.
From Verif Require Import BaseLemmas ReaderLemmas WriterLemmas CodecBase BitsLemmas EncLemmas DecLemmas DecWire.
From Verif Require Import RunSpec Utf8 Sugar Decode Encode WireSpec SafetySpec TypeSpec CanonSpec SizeSpec CodecSpec RoundTrip Collections Containers.
From Verif Require Import Bounds Locality Counting EncSafe Canonical Sizes Robust FieldEffects Examples PropsContainers PropsRobust PropsValues Schema.

Lemma ca_after_order vars fs : forall vs done ca, k_order (ca_after vars fs vs done ca) = k_order ca.
Proof.
  induction fs as [|[f t] fs IH]; intros [|v vs] done ca; try reflexivity. cbn [ca_after]. rewrite IH, publish_published. reflexivity.
Qed.

(** ** The field is what its functions make of it

    The function runs behind the fields before it; it is given their values, the
    modifiers written on the field and the container's byte order, and its result is
    the field. *)
Theorem C51_decode : forall cs fs1 f t fs2 ca fa d p g vs1 q1 own,
  f_with_decode f = Some g -> f_offset f = None ->
  dec (TStruct true cs fs1) ca fa d p = Ok (VList vs1) q1 ->
  modifiers f (mkenv vs1 (k_vars ca)) = Some own ->
  exists ca1, k_order ca1 = c_order cs /\
  match g (mkenv vs1 (k_vars ca)) ca1 own d q1 with
  | Ok v q => dec (TStruct true cs (fs1 ++ [(f, t)])) ca fa d p = Ok (VList (vs1 ++ [v])) q
  | Err e q => dec (TStruct true cs (fs1 ++ (f, t) :: fs2)) ca fa d p = Err e q
  | Panic => dec (TStruct true cs (fs1 ++ (f, t) :: fs2)) ca fa d p = Panic
  | Hang => dec (TStruct true cs (fs1 ++ (f, t) :: fs2)) ca fa d p = Hang
  end.
Proof.
  intros cs fs1 f t fs2 ca fa d p g vs1 q1 own Hg Ho H1 Hm. cbn [dec negb] in *.
  apply map_ok in H1 as (l & H1 & E). injection E as <-.
  exists (ca_after (k_vars ca) fs1 vs1 [] (own_cattr cs)). split; [apply ca_after_order|].
  unfold bind at 1 2 3 4. rewrite !dec_fields_one, H1, Hm. cbn [andb]. unfold dec_field, dec_offset. rewrite Ho, Hg. cbn [eval_opt option_map].
  unfold bind, ret. destruct (g _ _ own d q1); reflexivity.
Qed.
Theorem C51_encode : forall cs fs1 f t ca fa b g vs1 v n b1 own,
  f_with_encode f = Some g ->
  enc (TStruct true cs fs1) ca fa (VList vs1) b = Ok n b1 ->
  modifiers f (mkenv vs1 (k_vars ca)) = Some own ->
  enc (TStruct true cs (fs1 ++ [(f, t)])) ca fa (VList (vs1 ++ [v])) b =
  match g (mkenv vs1 (k_vars ca)) (inner cs) own v b1 with
  | Ok m b2 => Ok (n + m) b2
  | Err e b2 => Err e b2
  | Panic => Panic
  | Hang => Hang
  end.
Proof.
  intros cs fs1 f t ca fa b g vs1 v n b1 own Hg H1 Hm. cbn [enc] in *.
  rewrite enc_fields_app by (eapply enc_fields_length; exact H1). rewrite H1. cbn [enc_fields app]. rewrite Hm. cbn [andb].
  unfold enc_field. rewrite Hg. unfold plus, wbind, wret. change (own_cattr cs) with (inner cs).
  destruct (g _ (inner cs) own v b1); try reflexivity. rewrite N.add_0_r. reflexivity.
Qed.

(** ** Functions that keep to a format may stand anywhere

    [keeps_format] (WireSpec.v): the encoder writes the documented bytes of a value
    and the decoder reads them back. Then every container around them round trips. *)
Theorem C51_round_trip : forall cs fs1 d e doc t fs2 v w rest, let S := TStruct true cs (fs1 ++ (at_with d e doc plain, t) :: fs2) in
  well_formed (TStruct true cs (fs1 ++ fs2)) -> well_formed t ->
  (forall done vars vars', keeps_format (doc (mkenv done vars)) (d (mkenv done vars)) (e (mkenv done vars'))) ->
  wire S no_cattr no_fattr v = Some w -> fits S no_cattr no_fattr v rest = true -> allocatable (w ++ rest) ->
  encode S v = Ok w tt /\ decode S (w ++ rest) 0 = Ok v (size w).
Proof.
  intros cs fs1 d e doc t fs2 v w rest S [_ H2] Ht Hk HW HF Ha. apply round_trip; try assumption.
  split; [discriminate|]. clear - H2 Ht Hk. revert H2. induction fs1 as [|[f1 t1] fs1 IH]; cbn [app every].
  - intros H2. split; [|exact H2]. split; [exact Ht|]. split; [|split; [left; reflexivity|]].
    + well.
    + split; [reflexivity|]. split; [reflexivity|exact Hk].
  - intros [H1 H2]. split; [exact H1|exact (IH H2)].
Qed.

(** The struct of tests/test_modifier_with.rs: "get" is 1 and "put" is 2. *)
Definition verb_decode (ca : cattr) (fa : fattr) : rd val :=
  l <- take_bytes 3 ;;
  if bytes_eqb l (str "get") then ret (vi 1) else if bytes_eqb l (str "put") then ret (vi 2) else fail Fail.
Definition verb_encode (ca : cattr) (fa : fattr) (v : val) : wr N :=
  match v with
  | VInt 1 => push_bytes (str "get")
  | VInt 2 => push_bytes (str "put")
  | _ => wret 0
  end.
Definition verb_format : format := mkformat
  (fun _ _ v => match v with VInt 1 => Some (str "get") | VInt 2 => Some (str "put") | _ => None end)
  (fun _ _ _ _ => true) (fun _ _ => true) (fun v => match v with VInt 1 | VInt 2 => true | _ => false end).
Definition WithExample : ty := struct
  [(at_with (fun _ => verb_decode) (fun _ => verb_encode) (fun _ => verb_format) plain, u8); (plain, u32)].
(** tests/test_modifier_with_args.rs: the number of bytes is another field. *)
Definition counted_decode (en : env) (ca : cattr) (fa : fattr) : rd val :=
  x <- take_uint (KOrder Be) (as_usize (field_ref 0 en)) ;; ret (VInt (cast U32 (Z.of_N x))).
Definition counted_encode (en : env) (ca : cattr) (fa : fattr) (v : val) : wr N :=
  match v with VInt z => push_uint (KOrder Be) (raw_of_int U64 z) (as_usize (field_ref 0 en)) | _ => ill_typed end.
Definition counted_format (en : env) : format := mkformat
  (fun _ _ v => match v with
     | VInt z => if value_inb U32 z && (as_usize (field_ref 0 en) <=? 8)
                 then Some (digits Be (N.to_nat (as_usize (field_ref 0 en))) (Z.to_N z)) else None
     | _ => None end)
  (fun _ _ v _ => match v with VInt z => (Z.to_N z <? 256 ^ as_usize (field_ref 0 en)) | _ => false end)
  (fun _ _ => false) (fun v => match v with VInt z => value_inb U32 z | _ => false end).
Definition WithArgs : ty := struct [(plain, u8); (at_with counted_decode counted_encode counted_format plain, u32)].
(** The same codec as a type of its own, in a vector. *)
Definition Verbs : ty := struct [(plain, TVec (TUser (mkcodec verb_decode verb_encode) verb_format)); (plain, u8)].

Lemma verb_keeps : keeps_format verb_format verb_decode verb_encode.
Proof.
  split.
  - intros ca cb fa fb v w _ _ E. cbn [d_wire verb_format] in E. destruct v as [[|[[]|[]|]|]| | | | | | | | | |]; try discriminate; injection E as <-;
      apply writes_writes_as, writes_push.
  - intros ca fa v w rest E _. cbn [d_wire verb_format] in E. apply reads_reads_as. unfold verb_decode. rewrite <- (app_nil_r w).
    eapply reads_bind; [|].
    + replace 3 with (lenN w); [apply take_bytes_reads|]. destruct v as [[|[[]|[]|]|]| | | | | | | | | |]; try discriminate; injection E as <-; reflexivity.
    + destruct v as [[|[[]|[]|]|]| | | | | | | | | |]; try discriminate; injection E as <-; apply reads_ret.
  - intros ca fa _ d Hd. unfold verb_decode, bind. change (@size) with (@lenN byte). rewrite take_bytes_out by lia. eexists. reflexivity.
Qed.
Lemma counted_keeps done vars vars' : keeps_format (counted_format (mkenv done vars)) (counted_decode (mkenv done vars)) (counted_encode (mkenv done vars')).
Proof.
  split.
  - intros ca cb fa fb v w _ _ E. cbn [d_wire counted_format] in E. destruct v; try discriminate.
    destruct (value_inb U32 z) eqn:Ev; [|discriminate]. cbn [andb] in E.
    destruct (N.leb_spec (as_usize (field_ref 0 (mkenv done vars))) 8); [|discriminate]. injection E as <-.
    apply writes_writes_as. cbn [counted_encode].
    change (field_ref 0 (mkenv done vars')) with (field_ref 0 (mkenv done vars)).
    apply value_inb_range in Ev. replace (raw_of_int U64 z) with (Z.to_N z); [apply writes_digits_uint; assumption|].
    symmetry. unfold raw_of_int. rewrite Z.mod_small; [reflexivity|]. change (0 <= z <= 4294967295)%Z in Ev. change (imod U64) with 18446744073709551616%Z. lia.
  - intros ca fa v w rest E F. cbn [d_wire d_fits counted_format] in E, F. destruct v; try discriminate.
    destruct (value_inb U32 z) eqn:Ev; [|discriminate]. cbn [andb] in E.
    destruct (N.leb_spec (as_usize (field_ref 0 (mkenv done vars))) 8); [|discriminate]. injection E as <-.
    apply reads_reads_as. unfold counted_decode. apply N.ltb_lt in F.
    eapply reads_map_eq; [apply take_uint_reads; assumption|]. cbv beta. rewrite N.mod_small by exact F.
    apply value_inb_range in Ev. f_equal. rewrite Z2N.id by (change (0 <= z <= 4294967295)%Z in Ev; lia). apply cast_id, Ev.
  - discriminate.
Qed.

Example C51_case : well_formed WithExample /\ well_formed WithArgs /\ well_formed Verbs
  /\ both WithExample (str "get" ++ hex [0; 0; 0; 1]) (VList [vi 1; vi 1])
  /\ both WithArgs (hex [3; 0; 0; 1]) (VList [vi 3; vi 1])
  /\ both Verbs (hex [2] ++ str "putget" ++ hex [7]) (VList [VList [vi 2; vi 1]; vi 7])
  /\ wire WithArgs no_cattr no_fattr (VList [vi 3; vi 1]) = Some (hex [3; 0; 0; 1])
  /\ fits WithArgs no_cattr no_fattr (VList [vi 3; vi 1]) [] = true
  /\ decode WithExample (str "got" ++ hex [0; 0; 0; 1]) 0 = Err (mkerr 3 Fail) 3.
Proof.
  split; [|split; [|split]].
  - split; [discriminate|]. split; [|well]. split; [exact I|]. split; [well|]. split; [left; reflexivity|].
    split; [reflexivity|]. split; [reflexivity|]. intros. exact verb_keeps.
  - split; [discriminate|]. split; [well|]. split; [|exact I]. split; [exact I|]. split; [well|]. split; [left; reflexivity|].
    split; [reflexivity|]. split; [reflexivity|]. intros. apply counted_keeps.
  - split; [discriminate|]. split; [|well]. split; [exact verb_keeps|]. split; [well|]. split; [left; reflexivity|exact I].
  - repeat split; vm_compute; reflexivity.
Qed.

(** ** The other properties of containers

    C32-C35, C41, C44 and C45 ask of hand-written functions what they say about
    containers; these functions do it. *)
Example C51_contracts : forall ca fa, total_inside (verb_decode ca fa) /\ self_delimiting (verb_decode ca fa)
  /\ consumes_a_byte (verb_decode ca fa) /\ returns (verb_decode ca fa) (value_of u8)
  /\ reads_what_is_documented verb_format verb_decode
  /\ (forall v, counts_bytes (verb_encode ca fa v) /\ writes_at_position (verb_encode ca fa v)).
Proof.
  intros ca fa.
  assert (T : total_inside (verb_decode ca fa)).
  { assert (H : tame true (verb_decode ca fa)).
    { apply tame_bind; [apply tame_bytes|]. intros l.
      destruct (bytes_eqb l (str "get")); [apply tame_ret|]. destruct (bytes_eqb l (str "put")); [apply tame_ret|apply tame_fail]. }
    intros d p Hs Hp. specialize (H d p Hs Hp). destruct (verb_decode ca fa d p); try exact H; discriminate. }
  assert (D : delim (verb_decode ca fa)).
  { apply delim_bind; [apply delim_bytes|]. intros l.
    destruct (bytes_eqb l (str "get")); [apply delim_ret|]. destruct (bytes_eqb l (str "put")); [apply delim_ret|apply delim_fail]. }
  split; [exact T|]. split; [|split; [|split; [|split]]].
  - split.
    + intros d p Hd Hp. specialize (T d p Hd Hp). destruct (verb_decode ca fa d p); auto.
    + intros pre w rest a Hs E rest'. apply reads_reads_as. exact (proj2 (proj2 D pre w rest a Hs E) rest').
  - intros d p a q Hs Hp E.
    assert (H : eats (verb_decode ca fa)).
    { apply eats_first; [apply eats_bytes; discriminate|]. intros l.
      destruct (bytes_eqb l (str "get")); [apply tame_ret|]. destruct (bytes_eqb l (str "put")); [apply tame_ret|apply tame_fail]. }
    destruct (H d p a q Hs Hp E) as (_ & _ & H1). cbv beta in H1. lia.
  - intros d p v q E. unfold verb_decode, bind in E. destruct (take_bytes 3 d p) as [l q1|? ?| |]; try discriminate.
    destruct (bytes_eqb l (str "get")); [injection E as <- <-; cbn; split; [discriminate|reflexivity]|].
    destruct (bytes_eqb l (str "put")); [injection E as <- <-; cbn; split; [discriminate|reflexivity]|discriminate].
  - intros ca' fa' pre w rest v q Hs E Hq. apply bind_ok in E as (l & q1 & E1 & E).
    destruct (consumes_bytes 3 _ _ _ _ Hs (in_pre _ _ _) E1) as (_ & _ & Hl & _).
    assert (q1 = q) as ->.
    { destruct (bytes_eqb l (str "get")); [injection E as <- <-; reflexivity|].
      destruct (bytes_eqb l (str "put")); [injection E as <- <-; reflexivity|discriminate]. }
    subst q. change (@size) with (@lenN byte) in *. replace (lenN pre + lenN w - lenN pre) with (lenN w) in Hl by lia. rewrite sub_app in Hl. subst l.
    destruct (bytes_eqb w (str "get")) eqn:Eg; [apply bytes_eqb_eq in Eg as ->; injection E as <-; reflexivity|].
    destruct (bytes_eqb w (str "put")) eqn:Ep; [apply bytes_eqb_eq in Ep as ->; injection E as <-; reflexivity|discriminate].
  - intros v. split.
    + assert (C : counts (verb_encode ca fa v)).
      { unfold verb_encode. destruct v as [[|[[]|[]|]|]| | | | | | | | | |]; try apply counts_ret; apply counts_push. }
      exact C.
    + assert (C : calm (verb_encode ca fa v)).
      { unfold verb_encode. destruct v as [[|[[]|[]|]|]| | | | | | | | | |]; try apply calm_ret; apply calm_push. }
      exact C.
Qed.
Example C51_safe : offset_free WithExample = true /\ each_decoder total_inside WithExample /\ safe WithExample
  /\ each_decoder self_delimiting WithExample /\ typed WithExample.
Proof.
  split; [reflexivity|]. split; [|split; [|split]].
  - cbn. repeat split; try discriminate. intros d E en ca fa. injection E as <-. apply C51_contracts.
  - unfold WithExample, struct. safe_by.
  - cbn. repeat split; try discriminate; injection H as <-; apply (C51_contracts ca fa).
  - unfold WithExample, struct. split; [|typed_by]. split; [|exact I]. split; [|repeat split; intros; cbn in *; congruence].
    intros d en ca fa E. injection E as <-. apply (C51_contracts ca fa).
Qed.

(** ** What a field with [with] does not do

    The other entries on it do nothing: neither [skip], [untake], [value], [check_value],
    [from_str] nor [if_expr] changes what is decoded or encoded. *)
Definition only_with (f : fspec) : fspec :=
  mkfspec (f_use f) (f_order f) (f_length f) (f_count f) (f_try_count f) (f_branch f) (f_bits f) (f_bits_start f) (f_byte_count f)
          (f_byte_count_outside f) (f_remaining f) (f_key f) (f_split f) (f_linend f) (f_loop f) (f_offset f) (f_full f)
          false None false None None None None None (f_vars f) (f_with_decode f) (f_with_encode f) (f_format f).
Theorem C51_others_ignored : forall named cs fs1 f t fs2 ca fa, f_with_decode f <> None -> f_with_encode f <> None ->
  (forall d p, dec (TStruct named cs (fs1 ++ (f, t) :: fs2)) ca fa d p
               = dec (TStruct named cs (fs1 ++ (only_with f, t) :: fs2)) ca fa d p) /\
  (forall v b, enc (TStruct named cs (fs1 ++ (f, t) :: fs2)) ca fa v b
               = enc (TStruct named cs (fs1 ++ (only_with f, t) :: fs2)) ca fa v b).
Proof.
  intros named cs fs1 f t fs2 ca fa HD HE.
  assert (M : forall en, modifiers (only_with f) en = modifiers f en) by reflexivity.
  split.
  - intros d p. cbn [dec]. unfold bind. rewrite !dec_fields_one.
    assert (F : forall ca' fa' en, dec_field (dec t) (only_with f) ca' fa' en = dec_field (dec t) f ca' fa' en).
    { intros ca' fa' en. unfold dec_field. cbn [only_with f_with_decode f_offset]. destruct (f_with_decode f); [reflexivity|congruence]. }
    destruct (dec_fields dec (negb named) (k_vars ca) fs1 (own_cattr cs) no_fattr [] d p) as [l q|e q| |]; try reflexivity.
    rewrite M. destruct (modifiers f (mkenv l (k_vars ca))) as [own|]; [|reflexivity]. cbv zeta. rewrite F. reflexivity.
  - intros v b. destruct v; try reflexivity. cbn [enc]. revert l b. generalize (@nil val), no_fattr.
    assert (F : forall ca' fa' en v, enc_field (enc t) (only_with f) ca' fa' en v = enc_field (enc t) f ca' fa' en v).
    { intros ca' fa' en v. unfold enc_field. cbn [only_with f_with_encode]. destruct (f_with_encode f); [reflexivity|congruence]. }
    induction fs1 as [|[f1 t1] fs1 IH]; intros done prev [|v vs] b; try reflexivity; cbn [app enc_fields].
    + rewrite M. destruct (modifiers f (mkenv done (k_vars ca))); [|reflexivity]. cbn [andb]. rewrite F. reflexivity.
    + destruct (modifiers f1 (mkenv done (k_vars ca))); [|reflexivity]. unfold plus, wbind.
      destruct (enc_field (enc t1) f1 _ _ _ v b); try reflexivity. rewrite IH. reflexivity.
Qed.
Theorem C51_check_refuted : exists f, f_check f = Some (fun _ => vi 1) /\ f_skip_encode f = true /\ f_untake f = true
  /\ both (struct [(f, u8); (plain, u8)]) (str "put" ++ hex [9]) (VList [vi 2; vi 9]).
Proof.
  exists (at_skip_encode (at_untake (at_check (fun _ => vi 1) (at_with (fun _ => verb_decode) (fun _ => verb_encode) (fun _ => verb_format) plain)))).
  repeat split.
Qed.
(** [offset] is heeded by the decoder and ignored by the encoder. *)
Theorem C51_offset_refuted : exists f w, f = at_offset (const 2) (at_with (fun _ => verb_decode) (fun _ => verb_encode) (fun _ => verb_format) plain)
  /\ encode (struct [(f, u8)]) (VList [vi 1]) = Ok w tt
  /\ (exists e q, decode (struct [(f, u8)]) w 0 = Err e q)
  /\ decode (struct [(f, u8)]) (hex [0; 0] ++ w) 0 = Ok (VList [vi 1]) 5.
Proof. eexists. exists (str "get"). repeat split. do 2 eexists. reflexivity. Qed.

Print Assumptions C51_decode.
Print Assumptions C51_encode.
Print Assumptions C51_round_trip.
Print Assumptions C51_others_ignored.
Print Assumptions C51_check_refuted.
Print Assumptions C51_offset_refuted.
