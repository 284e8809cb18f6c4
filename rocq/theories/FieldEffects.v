(** [check_value] and [untake]. *)
From Verif Require Import Base Ints Spec SpecOps Reader BaseLemmas ReaderLemmas ReaderHist.
From Verif Require Import Schema Utf8 Decode Encode WireSpec CodecBase RunSpec CodecSpec Collections Containers Locality.

Fixpoint fa_after (inherit : bool) (vars : list (nat * N)) (fs : list (fspec * ty)) (vs done : list val) (prev : fattr) : fattr :=
  match fs, vs with
  | (f, _) :: fs', v :: vs' =>
      fa_after inherit vars fs' vs' (done ++ [v])
        (match modifiers f (mkenv done vars) with
         | Some own => if inherit && negb (f_use f) then prev else own
         | None => prev
         end)
  | _, _ => prev
  end.
Lemma dec_fields_split inherit vars fs2 fs1 : forall ca prev done d p,
  dec_fields dec inherit vars (fs1 ++ fs2) ca prev done d p =
  match dec_fields dec inherit vars fs1 ca prev done d p with
  | Ok l q => dec_fields dec inherit vars fs2 (ca_after vars fs1 (skipn (length done) l) done ca)
                         (fa_after inherit vars fs1 (skipn (length done) l) done prev) l d q
  | Err e q => Err e q
  | Panic => Panic
  | Hang => Hang
  end.
Proof.
  induction fs1 as [|[f t] fs1 IH]; intros ca prev done d p.
  - cbn [app dec_fields]. unfold ret. reflexivity.
  - cbn [app dec_fields]. destruct (modifiers f (mkenv done vars)) as [own|] eqn:Em; [|reflexivity].
    set (fa := if inherit && negb (f_use f) then prev else own).
    unfold bind. destruct (dec_field (dec t) f ca fa (mkenv done vars) d p) as [v p'|e p'| |]; try reflexivity.
    rewrite IH. destruct (dec_fields dec inherit vars fs1 _ fa (done ++ [v]) d p') as [l q|e q| |] eqn:E; try reflexivity.
    destruct (dec_fields_length _ _ _ _ _ _ _ _ _ _ E) as (vs & -> & Hl).
    rewrite skipn_app, skipn_all, Nat.sub_diag. cbn [app skipn].
    rewrite <- app_assoc. cbn [app]. rewrite skipn_app, skipn_all, Nat.sub_diag. cbn [app skipn ca_after fa_after].
    rewrite Em. reflexivity.
Qed.

(** One field after others. *)
Lemma dec_fields_one inherit vars fs1 f t fs2 ca prev d p :
  dec_fields dec inherit vars (fs1 ++ (f, t) :: fs2) ca prev [] d p =
  match dec_fields dec inherit vars fs1 ca prev [] d p with
  | Ok l q =>
      match modifiers f (mkenv l vars) with
      | None => Panic
      | Some own =>
          let fa := if inherit && negb (f_use f) then fa_after inherit vars fs1 l [] prev else own in
          let ca1 := ca_after vars fs1 l [] ca in
          match dec_field (dec t) f ca1 fa (mkenv l vars) d q with
          | Ok v q' => dec_fields dec inherit vars fs2 (publish f (mkenv (l ++ [v]) vars) ca1) fa (l ++ [v]) d q'
          | Err e q' => Err e q'
          | Panic => Panic
          | Hang => Hang
          end
      end
  | Err e q => Err e q
  | Panic => Panic
  | Hang => Hang
  end.
Proof.
  rewrite dec_fields_split. destruct (dec_fields dec inherit vars fs1 ca prev [] d p) as [l q|e q| |]; try reflexivity.
  cbn [length skipn dec_fields]. destruct (modifiers f (mkenv l vars)); [|reflexivity]. unfold bind.
  destruct (dec_field _ _ _ _ _ _ _); reflexivity.
Qed.

(** ** check_value *)
Lemma field_checked (d : cattr -> fattr -> rd val) f ca fa en dt p v q c :
  f_with_decode f = None -> f_skip_decode f = None -> f_from_str f = None -> f_check f = Some c ->
  dec_field d f ca fa en dt p = Ok v q -> v = c en.
Proof.
  intros H0 H1 H2 H3 H. unfold dec_field in H. rewrite H0, H1, H2, H3 in H.
  apply bind_ok in H as (? & ? & _ & H). apply bind_ok in H as (? & ? & _ & H).
  apply bind_ok in H as (v0 & ? & _ & H). apply bind_ok in H as (? & ? & _ & H).
  destruct (val_eqb _ _) eqn:E; [|discriminate]. injection H as <- _. apply val_eqb_eq. exact E.
Qed.
Lemma field_unchecked (d : cattr -> fattr -> rd val) f ca fa en dt p v q c :
  f_with_decode f = None -> f_skip_decode f = None -> f_from_str f = None -> f_check f = Some c ->
  dec_field d (unchecked f) ca fa en dt p = Ok v q ->
  dec_field d f ca fa en dt p = if val_eqb v (c en) then Ok v q else Err (mkerr q InvalidValue) q.
Proof.
  intros H0 H1 H2 H3 H. unfold dec_field in *. cbn [unchecked f_offset f_with_decode f_skip_decode f_from_str f_if f_untake f_value_decode f_check] in H.
  rewrite H0, H1, H2, H3 in *.
  unfold bind in *. destruct (dec_offset (f_offset f) en dt p) as [u p1|? ?| |]; try discriminate.
  unfold get_position in *.
  destruct (match f_if f with Some c0 => if c0 en then d ca fa else ret (VOpt None) | None => d ca fa end dt p1)
    as [v0 p2|? ?| |]; try discriminate.
  destruct ((if f_untake f then set_position p1 else ret tt) dt p2) as [u' p3|? ?| |]; try discriminate.
  injection H as <- <-. destruct (val_eqb _ _); reflexivity.
Qed.

Lemma fields_checked inherit vars fs1 f t fs2 ca prev d p xs q c :
  f_with_decode f = None -> f_skip_decode f = None -> f_from_str f = None -> f_check f = Some c ->
  dec_fields dec inherit vars (fs1 ++ (f, t) :: fs2) ca prev [] d p = Ok xs q ->
  exists vs1 v vs2, xs = vs1 ++ v :: vs2 /\ length vs1 = length fs1 /\ v = c (mkenv vs1 vars).
Proof.
  intros H0 H1 H2 H3 H. rewrite dec_fields_one in H.
  destruct (dec_fields dec inherit vars fs1 ca prev [] d p) as [l q1|? ?| |] eqn:E1; try discriminate.
  destruct (modifiers f (mkenv l vars)) as [own|]; [|discriminate].
  cbv zeta in H. destruct (dec_field (dec t) f _ _ (mkenv l vars) d q1) as [v q2|? ?| |] eqn:E2; try discriminate.
  apply dec_fields_length in H as (vs2 & -> & _). apply dec_fields_length in E1 as (vs1 & -> & Hl). cbn [app] in *.
  exists vs1, v, vs2. rewrite <- app_assoc. split; [reflexivity|]. split; [exact Hl|].
  exact (field_checked _ _ _ _ _ _ _ _ _ _ H0 H1 H2 H3 E2).
Qed.
Lemma unchecked_modifiers f en : modifiers (unchecked f) en = modifiers f en.
Proof. reflexivity. Qed.
Lemma fields_mismatch inherit vars fs1 f t fs2 ca prev d p vs1 v q c :
  f_with_decode f = None -> f_skip_decode f = None -> f_from_str f = None -> f_check f = Some c ->
  dec_fields dec inherit vars (fs1 ++ [(unchecked f, t)]) ca prev [] d p = Ok (vs1 ++ [v]) q ->
  v <> c (mkenv vs1 vars) ->
  dec_fields dec inherit vars (fs1 ++ (f, t) :: fs2) ca prev [] d p = Err (mkerr q InvalidValue) q.
Proof.
  intros H0 H1 H2 H3 H Hne. rewrite dec_fields_one in *.
  destruct (dec_fields dec inherit vars fs1 ca prev [] d p) as [l q1|? ?| |] eqn:E1; try discriminate.
  rewrite unchecked_modifiers in H.
  destruct (modifiers f (mkenv l vars)) as [own|]; [|discriminate]. cbv zeta in *.
  change (f_use (unchecked f)) with (f_use f) in H.
  destruct (dec_field (dec t) (unchecked f) _ _ (mkenv l vars) d q1) as [v1 q2|? ?| |] eqn:E2; try discriminate.
  cbn [dec_fields] in H. unfold ret in H. injection H as E <-. apply app_inj_tail in E as [<- <-].
  rewrite (field_unchecked _ _ _ _ _ _ _ _ _ _ H0 H1 H2 H3 E2).
  destruct (val_eqb v1 _) eqn:Ev; [apply val_eqb_eq in Ev; contradiction|reflexivity].
Qed.

(** ** untake *)
Lemma field_untaken_ok (d : cattr -> fattr -> rd val) f ca fa en dt p :
  f_with_decode f = None -> f_from_str f = None -> f_offset f = None -> f_untake f = true -> forall v,
  (exists q, dec_field d (taken f) ca fa en dt p = Ok v q) <-> dec_field d f ca fa en dt p = Ok v p.
Proof.
  intros H0 H1 H2 H3 v. unfold dec_field. cbn [taken f_offset f_with_decode f_skip_decode f_from_str f_if f_untake f_value_decode f_check].
  unfold dec_offset. rewrite H0, H1, H2, H3. cbn [eval_opt option_map]. unfold bind, ret, get_position, set_position.
  destruct (f_skip_decode f).
  { split; [intros [q H]; congruence|eauto]. }
  destruct (match f_if f with Some c0 => if c0 en then d ca fa else _ | None => d ca fa end dt p)
    as [v0 p2|e p2| |]; try (split; [intros [q H]|intros H]; discriminate).
  destruct (f_check f); [destruct (val_eqb _ _)|]; (split; [intros [q H]|intros H]; try discriminate; inversion H; eauto).
Qed.
Lemma field_untaken_pos (d : cattr -> fattr -> rd val) f ca fa en dt p v q :
  f_with_decode f = None -> f_from_str f = None -> f_offset f = None -> f_untake f = true ->
  dec_field d f ca fa en dt p = Ok v q -> q = p.
Proof.
  intros H0 H1 H2 H3 H. unfold dec_field, dec_offset in H. rewrite H0, H1, H2, H3 in H. cbn [eval_opt option_map] in H.
  unfold bind, ret, get_position, set_position in H.
  destruct (f_skip_decode f); [congruence|].
  destruct (match f_if f with Some c0 => if c0 en then d ca fa else _ | None => d ca fa end dt p)
    as [v0 p2|e p2| |]; try discriminate.
  destruct (f_check f); [destruct (val_eqb _ _)|]; try discriminate; inversion H; reflexivity.
Qed.

Lemma fields_untaken inherit vars fs1 f t ca prev d p xs q :
  f_with_decode f = None -> f_from_str f = None -> f_offset f = None -> f_untake f = true ->
  dec_fields dec inherit vars (fs1 ++ [(f, t)]) ca prev [] d p = Ok xs q <->
  exists vs1 v q', xs = vs1 ++ [v] /\ dec_fields dec inherit vars fs1 ca prev [] d p = Ok vs1 q
    /\ dec_fields dec inherit vars (fs1 ++ [(taken f, t)]) ca prev [] d p = Ok (vs1 ++ [v]) q'.
Proof.
  intros H0 H1 H2 H3. rewrite !dec_fields_one. change (modifiers (taken f)) with (modifiers f).
  change (f_use (taken f)) with (f_use f).
  destruct (dec_fields dec inherit vars fs1 ca prev [] d p) as [l q1|? ?| |] eqn:E1;
    try (split; [discriminate|intros (? & ? & ? & _ & X & _); discriminate]).
  destruct (modifiers f (mkenv l vars)) as [own|]; [|split; [discriminate|intros (? & ? & ? & _ & _ & X); discriminate]].
  cbv zeta. set (fa := if inherit && negb (f_use f) then _ else _). set (ca1 := ca_after vars fs1 l [] ca).
  pose proof (field_untaken_ok (dec t) f ca1 fa (mkenv l vars) d q1 H0 H1 H2 H3) as Q.
  split.
  - intros H. destruct (dec_field (dec t) f ca1 fa (mkenv l vars) d q1) as [v q2|? ?| |] eqn:E2; try discriminate.
    pose proof (field_untaken_pos _ _ _ _ _ _ _ _ _ H0 H1 H2 H3 E2) as Hq. rewrite Hq in *.
    destruct (proj2 (Q v) eq_refl) as [q' Hq']. rewrite Hq'. cbn [dec_fields] in *. unfold ret in *.
    injection H as <- <-. exists l, v, q'. auto.
  - intros (vs1 & v & q' & -> & E & X). injection E as -> ->.
    destruct (dec_field (dec t) (taken f) ca1 fa (mkenv vs1 vars) d q) as [v1 q2|? ?| |] eqn:E2; try discriminate.
    rewrite (proj1 (Q v1) (ex_intro _ q2 eq_refl)). cbn [dec_fields] in *. unfold ret in *.
    injection X as X ->. rewrite X. reflexivity.
Qed.

(** ** Structs and variants *)
Lemma arms_select hit eat nomatch ca vars l v fs r : forall i0 next d p xs q,
  dec_arms dec hit eat nomatch ca vars (l ++ (v, fs) :: r) i0 next d p = Ok (VVariant (i0 + length l) xs) q ->
  forall fs', dec_arms dec hit eat nomatch ca vars (l ++ (v, fs') :: r) i0 next d p
    = (_ <- advance (eat v) ;; arm_body ca vars v fs' (i0 + length l)) d p.
Proof.
  induction l as [|[w ws] l IH]; intros i0 next d p xs q H fs'.
  - cbn [app dec_arms length] in *. rewrite Nat.add_0_r in *. destruct (hit v (variant_index v next)); [reflexivity|].
    exfalso. revert H. generalize (variant_index v next + 1). generalize (S i0) (Nat.lt_succ_diag_r i0).
    clear. induction r as [|[w ws] r IH]; intros j Hj m H; cbn [dec_arms] in H; [discriminate|].
    destruct (hit w (variant_index w m)).
    + apply bind_ok in H as (? & ? & _ & H). destruct (modifiers (v_attr w) _); [|discriminate].
      apply bind_ok in H as (? & ? & _ & H). apply map_ok in H as (? & _ & H). injection H as H _. lia.
    + apply (IH (S j)) in H; [exact H|lia].
  - cbn [app dec_arms length] in *. destruct (hit w (variant_index w next)).
    + exfalso. apply bind_ok in H as (? & ? & _ & H). destruct (modifiers (v_attr w) _); [|discriminate].
      apply bind_ok in H as (? & ? & _ & H). apply map_ok in H as (? & _ & H). injection H as H _. lia.
    + replace (i0 + S (length l))%nat with (S i0 + length l)%nat in * by lia. exact (IH _ _ _ _ _ _ H fs').
Qed.
Lemma body_ok ca vars v fs i d p j xs q : arm_body ca vars v fs i d p = Ok (VVariant j xs) q ->
  exists prev p', modifiers (v_attr v) (mkenv [] vars) = Some prev /\
    dec_offset (f_offset (v_attr v)) (mkenv [] vars) d p = Ok tt p' /\
    dec_fields dec (negb (v_named v)) vars fs ca prev [] d p' = Ok xs q.
Proof.
  unfold arm_body. destruct (modifiers (v_attr v) _) as [prev|]; [|discriminate]. intros H.
  apply bind_ok in H as ([] & p' & Ho & H). apply map_ok in H as (ys & H & E). injection E as _ <-. eauto 6.
Qed.

(** The decoder of a variant, reached whenever that variant is decoded. *)
Lemma enum_select e l v fs r ca fa d p xs q :
  dec (TEnum e (l ++ (v, fs) :: r)) ca fa d p = Ok (VVariant (length l) xs) q ->
  exists p0, forall fs', dec (TEnum e (l ++ (v, fs') :: r)) ca fa d p
    = arm_body (own_cattr (e_c e)) (k_vars ca) v fs' (length l) d p0.
Proof.
  intros H. cbn [dec] in *.
  assert (N : forall fs0, match l ++ (v, fs0) :: r with [] => false | _ => true end = true) by (intros; destruct l; reflexivity).
  assert (Q : forall fs0, exists x y, l ++ (v, fs0) :: r = x :: y) by (intros; destruct l; cbn; eauto).
  destruct (Q fs) as (x0 & y0 & E0). rewrite E0 in H. rewrite <- E0 in H.
  destruct (e_branching e) eqn:Eb.
  - apply bind_ok in H as (tag & p1 & Ht & H).
    exists (wadd p1 0). intros fs'. destruct (Q fs') as (x1 & y1 & E1). rewrite E1, <- E1. unfold bind at 1. rewrite Ht.
    rewrite (arms_select _ _ _ _ _ l v fs r 0%nat _ _ _ _ _ H fs'). reflexivity.
  - exists (wadd p (if v_default v then 0 else lenN (variant_bytes v))). intros fs'. destruct (Q fs') as (x1 & y1 & E1). rewrite E1, <- E1.
    rewrite (arms_select _ _ _ _ _ l v fs r 0%nat _ _ _ _ _ H fs'). reflexivity.
  - exists (wadd p 0). intros fs'. destruct (Q fs') as (x1 & y1 & E1). rewrite E1, <- E1.
    rewrite (arms_select _ _ _ _ _ l v fs r 0%nat _ _ _ _ _ H fs'). reflexivity.
  - apply bind_ok in H as (tag & p1 & Ht & H).
    exists (wadd p1 0). intros fs'. destruct (Q fs') as (x1 & y1 & E1). rewrite E1, <- E1. unfold bind at 1. rewrite Ht.
    rewrite (arms_select _ _ _ _ _ l v fs r 0%nat _ _ _ _ _ H fs'). reflexivity.
Qed.

Lemma struct_checked named cs fs1 f t fs2 ca fa d p xs q c :
  f_with_decode f = None -> f_skip_decode f = None -> f_from_str f = None -> f_check f = Some c ->
  dec (TStruct named cs (fs1 ++ (f, t) :: fs2)) ca fa d p = Ok (VList xs) q ->
  exists vs1 v vs2, xs = vs1 ++ v :: vs2 /\ length vs1 = length fs1 /\ v = c (mkenv vs1 (k_vars ca)).
Proof.
  intros H0 H1 H2 H3 H. cbn [dec] in H. apply map_ok in H as (ys & H & E). injection E as <-.
  exact (fields_checked _ _ _ _ _ _ _ _ _ _ _ _ _ H0 H1 H2 H3 H).
Qed.
Lemma variant_checked e l v fs1 f t fs2 r ca fa d p xs q c :
  f_with_decode f = None -> f_skip_decode f = None -> f_from_str f = None -> f_check f = Some c ->
  dec (TEnum e (l ++ (v, fs1 ++ (f, t) :: fs2) :: r)) ca fa d p = Ok (VVariant (length l) xs) q ->
  exists vs1 x vs2, xs = vs1 ++ x :: vs2 /\ length vs1 = length fs1 /\ x = c (mkenv vs1 (k_vars ca)).
Proof.
  intros H0 H1 H2 H3 H. destruct (enum_select _ _ _ _ _ _ _ _ _ _ _ H) as [p0 S].
  rewrite S in H. apply body_ok in H as (prev & p' & _ & _ & H).
  exact (fields_checked _ _ _ _ _ _ _ _ _ _ _ _ _ H0 H1 H2 H3 H).
Qed.
Lemma struct_mismatch named cs fs1 f t fs2 ca fa d p vs1 v q c :
  f_with_decode f = None -> f_skip_decode f = None -> f_from_str f = None -> f_check f = Some c ->
  dec (TStruct named cs (fs1 ++ [(unchecked f, t)])) ca fa d p = Ok (VList (vs1 ++ [v])) q ->
  v <> c (mkenv vs1 (k_vars ca)) ->
  dec (TStruct named cs (fs1 ++ (f, t) :: fs2)) ca fa d p = Err (mkerr q InvalidValue) q.
Proof.
  intros H0 H1 H2 H3 H Hne. cbn [dec] in *. apply map_ok in H as (ys & H & E). injection E as <-.
  unfold bind. rewrite (fields_mismatch _ _ _ _ _ fs2 _ _ _ _ _ _ _ _ H0 H1 H2 H3 H Hne). reflexivity.
Qed.
Lemma variant_mismatch e l v fs1 f t fs2 r ca fa d p vs1 x q c :
  f_with_decode f = None -> f_skip_decode f = None -> f_from_str f = None -> f_check f = Some c ->
  dec (TEnum e (l ++ (v, fs1 ++ [(unchecked f, t)]) :: r)) ca fa d p = Ok (VVariant (length l) (vs1 ++ [x])) q ->
  x <> c (mkenv vs1 (k_vars ca)) ->
  dec (TEnum e (l ++ (v, fs1 ++ (f, t) :: fs2) :: r)) ca fa d p = Err (mkerr q InvalidValue) q.
Proof.
  intros H0 H1 H2 H3 H Hne. destruct (enum_select _ _ _ _ _ _ _ _ _ _ _ H) as [p0 S]. rewrite S in H |- *.
  apply body_ok in H as (prev & p' & Hm & Ho & H). unfold arm_body. rewrite Hm. unfold bind. rewrite Ho.
  rewrite (fields_mismatch _ _ _ _ _ fs2 _ _ _ _ _ _ _ _ H0 H1 H2 H3 H Hne). reflexivity.
Qed.
Lemma struct_untaken named cs fs1 f t ca fa d p xs q :
  f_with_decode f = None -> f_from_str f = None -> f_offset f = None -> f_untake f = true ->
  dec (TStruct named cs (fs1 ++ [(f, t)])) ca fa d p = Ok (VList xs) q <->
  exists vs1 v q', xs = vs1 ++ [v] /\ dec (TStruct named cs fs1) ca fa d p = Ok (VList vs1) q
    /\ dec (TStruct named cs (fs1 ++ [(taken f, t)])) ca fa d p = Ok (VList (vs1 ++ [v])) q'.
Proof.
  intros H0 H1 H2 H3. cbn [dec]. 
  assert (M : forall (m : rd (list val)) l q0, (x <- m ;; ret (VList x)) d p = Ok (VList l) q0 <-> m d p = Ok l q0).
  { intros m l q0. unfold bind, ret. destruct (m d p); split; intros E; inversion E; reflexivity. }
  rewrite M, (fields_untaken _ _ _ _ _ _ _ _ _ _ _ H0 H1 H2 H3).
  split; intros (vs1 & v & q' & A & B & C); exists vs1, v, q'; rewrite ?M in *; auto.
Qed.
Lemma variant_untaken e l v fs1 f t r ca fa d p xs q :
  f_with_decode f = None -> f_from_str f = None -> f_offset f = None -> f_untake f = true ->
  dec (TEnum e (l ++ (v, fs1 ++ [(f, t)]) :: r)) ca fa d p = Ok (VVariant (length l) xs) q <->
  exists vs1 x q', xs = vs1 ++ [x] /\ dec (TEnum e (l ++ (v, fs1) :: r)) ca fa d p = Ok (VVariant (length l) vs1) q
    /\ dec (TEnum e (l ++ (v, fs1 ++ [(taken f, t)]) :: r)) ca fa d p = Ok (VVariant (length l) (vs1 ++ [x])) q'.
Proof.
  intros H0 H1 H2 H3.
  assert (M : forall (m : rd (list val)) p0 i l0 q0, (x <- m ;; ret (VVariant i x)) d p0 = Ok (VVariant i l0) q0 <-> m d p0 = Ok l0 q0).
  { intros m p0 i l0 q0. unfold bind, ret. destruct (m d p0); split; intros E; inversion E; reflexivity. }
  split.
  - intros H. destruct (enum_select _ _ _ _ _ _ _ _ _ _ _ H) as [p0 S]. rewrite S in H.
    apply body_ok in H as (prev & p' & Hm & Ho & H).
    apply (fields_untaken _ _ _ _ _ _ _ _ _ _ _ H0 H1 H2 H3) in H as (vs1 & x & q' & A & B & C).
    exists vs1, x, q'. rewrite !S. unfold arm_body. rewrite Hm. unfold bind at 1 3. rewrite Ho, !M. auto.
  - intros (vs1 & x & q' & A & B & C). destruct (enum_select _ _ _ _ _ _ _ _ _ _ _ C) as [p0 S]. rewrite S in B, C |- *.
    apply body_ok in B as (prev & p' & Hm & Ho & B). apply body_ok in C as (prev2 & p2 & Hm2 & Ho2 & C).
    rewrite Hm in Hm2. injection Hm2 as <-. rewrite Ho in Ho2. injection Ho2 as <-.
    unfold arm_body. rewrite Hm. unfold bind at 1. rewrite Ho, M.
    apply (fields_untaken _ _ _ _ _ _ _ _ _ _ _ H0 H1 H2 H3). eauto 6.
Qed.
