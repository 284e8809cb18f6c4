(** Structs and enums: which variant is selected, which modifiers a field sees,
    and variables. *)
From Verif Require Import Base Ints Reader Writer Spec SpecOps.
From Verif Require Import BaseLemmas ReaderLemmas ReaderHist WriterLemmas WriterHist CodecBase BitsLemmas EncLemmas DecLemmas DecWire.
From Verif Require Import Schema Utf8 Sugar Decode Encode WireSpec RunSpec CodecSpec RoundTrip Collections.

(** ** Enums *)
Lemma byte_at d p b : allocatable d -> nth_error d (N.to_nat p) = Some b -> take_u8 d p = Ok (b2n b) (p + 1).
Proof.
  intros Hd Eb.
  assert (E : d = firstn (N.to_nat p) d ++ [b] ++ skipn (S (N.to_nat p)) d).
  { rewrite <- (firstn_skipn (N.to_nat p) d) at 1. f_equal. clear -Eb. revert d Eb.
    induction (N.to_nat p) as [|n IH]; intros [|x d] Eb; try discriminate; cbn in *; [congruence|apply IH, Eb]. }
  pose proof (take_u8_reads (b2n b) (skipn (S (N.to_nat p)) d) (firstn (N.to_nat p) d)) as HR.
  assert (Eb' : byte_of (b2n b) = b) by exact (n2b_b2n b).
  rewrite Eb', <- E in HR. specialize (HR Hd).
  assert (Hi : (N.to_nat p < length d)%nat) by (apply nth_error_Some; congruence).
  assert (HL : lenN (firstn (N.to_nat p) d) = p) by (unfold lenN; rewrite firstn_length; lia).
  rewrite HL in HR. rewrite HR. f_equal. apply N.mod_small, b2n_lt.
Qed.
Lemma enum_tag_at e ca fa d p tag q : allocatable d ->
  (forall k, a_byte_count fa = Some k \/ c_byte_count (e_c e) = Some k -> k <= 8) ->
  tag_at e ca fa d p tag q -> enum_tag e ca fa d p = Ok tag q.
Proof.
  intros Hd Hk H. unfold tag_at in H. unfold enum_tag, ko.
  assert (HU : forall k, k <= 8 -> p + k <= size d /\ tag = number (order_for ca fa) (window d p k) /\ q = p + k ->
    take_uint (KOrder (get_byteorder ca fa)) k d p = Ok tag q).
  { intros k H8 (Hi & -> & ->). unfold take_uint. cbn [order_of]. rewrite take_n_in; [|exact Hd|exact H8|exact Hi].
    rewrite number_from_bytes. replace (order_for ca fa) with (get_byteorder ca fa) by (symmetry; apply order_for_get1). reflexivity. }
  destruct (a_branch fa); [destruct H as [-> ->]; reflexivity|].
  destruct (a_byte_count fa) as [k|]; [apply HU; auto|].
  destruct (c_byte_count (e_c e)) as [k|]; [apply HU; auto|].
  destruct H as (b & Hb & -> & ->). apply byte_at; assumption.
Qed.
Lemma first_such_none {A} (p : A -> bool) l : (forall x, In x l -> p x = false) -> first_such p l = None.
Proof.
  induction l as [|x l IH]; intros H; [reflexivity|]. cbn [first_such]. rewrite (H x (or_introl eq_refl)), IH; [reflexivity|].
  intros y Hy. apply H. right. exact Hy.
Qed.
Lemma first_such_some {A} (p : A -> bool) l : forall i x, nth_error l i = Some x -> p x = true ->
  (forall j y, (j < i)%nat -> nth_error l j = Some y -> p y = false) -> first_such p l = Some i.
Proof.
  induction l as [|y l IH]; intros i x Hi Hx Hb; [destruct i; discriminate|]. cbn [first_such].
  destruct i as [|i].
  - injection Hi as <-. rewrite Hx. reflexivity.
  - rewrite (Hb 0%nat y) by (lia || reflexivity). rewrite (IH i x Hi Hx); [reflexivity|].
    intros j z Hj Hz. apply (Hb (S j)); [lia|exact Hz].
Qed.
Lemma nth_error_combine {A B} (l : list A) : forall (m : list B) i, nth_error (combine l m) i =
  match nth_error l i, nth_error m i with Some a, Some b => Some (a, b) | _, _ => None end.
Proof.
  induction l as [|a l IH]; intros m i; [destruct i; reflexivity|]. destruct m as [|b m].
  - destruct i; cbn; [reflexivity|]. destruct (nth_error l i); reflexivity.
  - destruct i; [reflexivity|]. exact (IH m i).
Qed.
Lemma arm_first vs i tag : arm_accepts vs i tag -> (forall j, (j < i)%nat -> ~ arm_accepts vs j tag) ->
  first_such (fun vn => accepts (fst vn) (snd vn) tag) (combine (map fst vs) (numbering 0 (map fst vs))) = Some i.
Proof.
  intros (v & n & Hv & Hn & Ha) Hb. apply first_such_some with (v, n); [rewrite nth_error_combine, Hv, Hn; reflexivity|exact Ha|].
  intros j [v' n'] Hj Hj'. rewrite nth_error_combine in Hj'. cbn [fst snd].
  destruct (accepts v' n' tag) eqn:E; [|reflexivity]. exfalso. apply (Hb j Hj). exists v', n'.
  destruct (nth_error (map fst vs) j); [|discriminate]. destruct (nth_error (numbering 0 (map fst vs)) j); [|discriminate].
  injection Hj' as -> ->. auto.
Qed.
Lemma dec_arms_none dty hit eat nomatch ca vars vs : forall i0 next,
  first_such (fun vn => hit (fst vn) (snd vn)) (combine (map fst vs) (numbering next (map fst vs))) = None ->
  dec_arms dty hit eat nomatch ca vars vs i0 next = fail nomatch.
Proof.
  induction vs as [|[v fs] vs IH]; intros i0 next Hf; [reflexivity|].
  cbn [map fst] in Hf. rewrite variant_index_numbering in Hf. cbn [combine first_such fst snd] in Hf.
  cbn [dec_arms]. destruct (hit v (variant_index v next)); [discriminate|].
  destruct (first_such _ _) eqn:E in Hf; [discriminate|]. apply IH. exact E.
Qed.
Lemma enum_no_arm e vs ca fa d p tag q : e_branching e = ByTag -> vs <> [] -> allocatable d ->
  (forall k, a_byte_count fa = Some k \/ c_byte_count (e_c e) = Some k -> k <= 8) ->
  tag_at e ca fa d p tag q -> (forall i, ~ arm_accepts vs i tag) ->
  dec (TEnum e vs) ca fa d p = Err (mkerr q InvalidByteLength) q.
Proof.
  intros Hb Hne Hd Hk Ht Hno. cbn [dec]. destruct vs as [|vf vs]; [congruence|]. rewrite Hb. set (VS := vf :: vs) in *.
  unfold bind. rewrite (enum_tag_at e ca fa d p tag q Hd Hk Ht).
  rewrite dec_arms_none; [reflexivity|]. apply first_such_none. intros [v n] Hi.
  apply In_nth_error in Hi as [i Hi]. rewrite nth_error_combine in Hi. cbn [fst snd]. rewrite <- accepts_arm.
  destruct (accepts v n tag) eqn:E; [|reflexivity]. exfalso. apply (Hno i). exists v, n.
  destruct (nth_error (map fst VS) i); [|discriminate]. destruct (nth_error (numbering 0 (map fst VS)) i); [|discriminate].
  injection Hi as -> ->. auto.
Qed.
Lemma enum_selects e vs ca fa d p tag q i v fs : e_branching e = ByTag -> allocatable d ->
  (forall k, a_byte_count fa = Some k \/ c_byte_count (e_c e) = Some k -> k <= 8) ->
  tag_at e ca fa d p tag q -> nth_error vs i = Some (v, fs) -> arm_accepts vs i tag ->
  (forall j, (j < i)%nat -> ~ arm_accepts vs j tag) ->
  dec (TEnum e vs) ca fa d p =
  (match modifiers (v_attr v) (mkenv [] (k_vars ca)) with
   | None => panic
   | Some prev =>
       _ <- dec_offset (f_offset (v_attr v)) (mkenv [] (k_vars ca)) ;;
       xs <- dec_fields dec (negb (v_named v)) (k_vars ca) fs (own_cattr (e_c e)) prev [] ;;
       ret (VVariant i xs)
   end) d (wadd q 0).
Proof.
  intros Hb Hd Hk Ht Hn Ha Hbefore. cbn [dec]. destruct vs as [|vf vs]; [destruct i; discriminate|]. rewrite Hb. set (VS := vf :: vs) in *.
  unfold bind at 1. rewrite (enum_tag_at e ca fa d p tag q Hd Hk Ht).
  rewrite (dec_arms_first dec (fun v index => arm_matches v index tag) (fun _ => 0) InvalidByteLength
             (own_cattr (e_c e)) (k_vars ca) VS 0 0 i v fs Hn).
  - unfold bind at 1, advance. reflexivity.
  - rewrite <- (arm_first VS i tag Ha Hbefore). apply first_such_ext. intros [v' n']. symmetry. apply accepts_arm.
Qed.
Lemma enum_variant e vs ca fa d p tag q i v q' : e_branching e = ByTag -> allocatable d ->
  (forall k, a_byte_count fa = Some k \/ c_byte_count (e_c e) = Some k -> k <= 8) ->
  tag_at e ca fa d p tag q -> arm_accepts vs i tag -> (forall j, (j < i)%nat -> ~ arm_accepts vs j tag) ->
  dec (TEnum e vs) ca fa d p = Ok v q' -> exists xs, v = VVariant i xs.
Proof.
  intros Hb Hd Hk Ht Ha Hbefore H. destruct (nth_error vs i) as [[vs0 fs]|] eqn:En.
  - rewrite (enum_selects e vs ca fa d p tag q i vs0 fs Hb Hd Hk Ht En Ha Hbefore) in H.
    destruct (modifiers _ _); [|discriminate]. apply bind_ok in H as (u & p1 & _ & H). apply map_ok in H as (xs & _ & ->). eauto.
  - exfalso. destruct Ha as (v0 & n & Hv & _). apply nth_error_None in En.
    assert (Hx : nth_error (map fst vs) i <> None) by congruence. apply nth_error_Some in Hx. rewrite map_length in Hx. lia.
Qed.
Lemma enum_round_trip e vs ca fa i xs v fs n tag w rest : e_branching e = ByTag ->
  well_formed (TEnum e vs) -> nth_error vs i = Some (v, fs) -> nth_error (numbering 0 (map fst vs)) i = Some n ->
  wire (TEnum e vs) ca fa (VVariant i xs) = Some w ->
  fields_fit wire fits (k_vars ca) None fs (inner (e_c e)) [] xs rest = true ->
  arms_disjoint vs -> tag_read e fa n = Some tag -> arm_accepts vs i tag ->
  writes_as (enc (TEnum e vs) ca fa (VVariant i xs)) w /\ reads_as (dec (TEnum e vs) ca fa) w rest (VVariant i xs).
Proof.
  intros Hb Hwf Hv Hn Hw Hf Hdis Ht Ha. split; [apply encoder_writes; assumption|].
  apply decoder_reads; [exact Hwf|exact Hw|]. rewrite fits_enum, Hv, Hn, Hf, andb_true_r.
  unfold tag_fits. rewrite Hb, Ht. rewrite (arm_first vs i tag Ha).
  - cbn [is_index]. apply Nat.eqb_refl.
  - intros j Hj Hja. pose proof (Hdis tag i j Ha Hja). lia.
Qed.
Lemma enum_literals e vs ca fa i xs v fs n w rest : e_branching e = ByPrefix ->
  well_formed (TEnum e vs) -> nth_error vs i = Some (v, fs) -> nth_error (numbering 0 (map fst vs)) i = Some n ->
  wire (TEnum e vs) ca fa (VVariant i xs) = Some w ->
  fields_fit wire fits (k_vars ca) None fs (inner (e_c e)) [] xs rest = true ->
  prefix_free vs -> (forall u, In u (map fst vs) -> v_default u = false) ->
  writes_as (enc (TEnum e vs) ca fa (VVariant i xs)) w
  /\ reads_as (dec (TEnum e vs) ca fa) w rest (VVariant i xs).
Proof.
  intros Hb Hwf Hv Hn Hw Hf Hpf Hnd. split; [apply encoder_writes; assumption|].
  apply decoder_reads; [exact Hwf|exact Hw|]. rewrite fits_enum, Hv, Hn, Hf, andb_true_r.
  rewrite wire_enum, Hv, Hn in Hw.
  assert (Hv' : nth_error (map fst vs) i = Some v) by (rewrite nth_error_map, Hv; reflexivity).
  unfold tag_fits. rewrite Hb. rewrite wire_enum, Hv, Hn, Hw. cbn [optional].
  rewrite (Hnd v) by (eapply nth_error_In; exact Hv'). cbn [negb orb andb].
  destruct (and_then_some _ _ _ Hw) as (a & b & Ha & _ & ->). unfold tag_wire in Ha. rewrite Hb in Ha. injection Ha as <-.
  rewrite (first_such_some _ _ i v Hv'); [cbn; apply Nat.eqb_refl| |].
  - rewrite (Hnd v) by (eapply nth_error_In; exact Hv'). cbn [orb]. apply starts_with_iff. exists (b ++ rest). rewrite app_assoc. reflexivity.
  - intros j u Hj Hu. rewrite (Hnd u) by (eapply nth_error_In; exact Hu). cbn [orb].
    destruct (starts_with (literal u) ((literal v ++ b) ++ rest)) eqn:E; [|reflexivity]. exfalso.
    (* both literals begin the same text, so one begins the other *)
    assert (Hcmp : starts_with (literal u) (literal v) = true \/ starts_with (literal v) (literal u) = true).
    { rewrite <- app_assoc in E. revert E. generalize (b ++ rest). clear. generalize (literal u) (literal v).
      intros l m r. revert m r. induction l as [|x l IH]; intros m r H; [left; reflexivity|]. destruct m as [|y m]; [right; reflexivity|].
      cbn [starts_with app] in *. apply andb_true_iff in H as [H1 H2]. rewrite H1. cbn [andb].
      destruct (IH m r H2) as [H|H]; [left; exact H|right]. 
      apply byte_eqb_eq in H1. subst y. rewrite (proj2 (byte_eqb_eq x x) eq_refl). exact H. }
    destruct Hcmp as [H|H].
    + pose proof (Hpf j i u v Hu Hv' H). lia.
    + pose proof (Hpf i j v u Hv' Hu H). lia.
Qed.

(** ** Modifiers stay with their field *)
Fixpoint ca_after (vars : list (nat * N)) (fs : list (fspec * ty)) (vs : list val) (done : list val) (ca : cattr) : cattr :=
  match fs, vs with
  | (f, _) :: fs', v :: vs' => ca_after vars fs' vs' (done ++ [v]) (publish f (mkenv (done ++ [v]) vars) ca)
  | _, _ => ca
  end.
Lemma dec_fields_length inherit vars fs : forall ca prev done d p l q,
  dec_fields dec inherit vars fs ca prev done d p = Ok l q -> exists vs, l = done ++ vs /\ length vs = length fs.
Proof.
  induction fs as [|[f t] fs IH]; intros ca prev done d p l q H; cbn [dec_fields] in H.
  - injection H as <- <-. exists []. rewrite app_nil_r. auto.
  - destruct (modifiers f (mkenv done vars)); [|discriminate]. apply bind_ok in H as (v & p' & _ & H).
    apply IH in H as (vs & -> & Hl). exists (v :: vs). rewrite <- app_assoc. cbn. auto.
Qed.
Lemma dec_fields_app vars fs2 fs1 : forall ca prev done d p,
  dec_fields dec false vars (fs1 ++ fs2) ca prev done d p =
  match dec_fields dec false vars fs1 ca prev done d p with
  | Ok l q => dec_fields dec false vars fs2 (ca_after vars fs1 (skipn (length done) l) done ca) no_fattr l d q
  | Err e q => Err e q
  | Panic => Panic
  | Hang => Hang
  end.
Proof.
  assert (Hprev : forall fs ca prev prev' done, dec_fields dec false vars fs ca prev done = dec_fields dec false vars fs ca prev' done).
  { intros fs ca prev prev' done. destruct fs as [|[f t] fs]; reflexivity. }
  induction fs1 as [|[f t] fs1 IH]; intros ca prev done d p.
  - cbn [app dec_fields]. unfold ret. cbn [ca_after]. rewrite (Hprev fs2 ca prev no_fattr). reflexivity.
  - cbn [app dec_fields]. destruct (modifiers f (mkenv done vars)) as [own|]; [|reflexivity]. cbn [andb].
    unfold bind. destruct (dec_field (dec t) f ca own (mkenv done vars) d p) as [v p'|e p'| |]; try reflexivity.
    rewrite IH. destruct (dec_fields dec false vars fs1 _ own (done ++ [v]) d p') as [l q|e q| |] eqn:E; try reflexivity.
    destruct (dec_fields_length _ _ _ _ _ _ _ _ _ _ E) as (vs & -> & Hl).
    rewrite skipn_app, skipn_all, Nat.sub_diag. cbn [app skipn].
    rewrite <- app_assoc. cbn [app]. rewrite skipn_app, skipn_all, Nat.sub_diag. cbn [app skipn ca_after]. reflexivity.
Qed.
Lemma ca_after_same vars fs : forall fs' vs done ca, map (fun ft : fspec * ty => f_vars (fst ft)) fs = map (fun ft => f_vars (fst ft)) fs' ->
  ca_after vars fs vs done ca = ca_after vars fs' vs done ca.
Proof.
  induction fs as [|[f t] fs IH]; intros [|[f' t'] fs'] vs done ca H; try discriminate; [reflexivity|].
  cbn [map fst] in H. injection H as Hf H. destruct vs as [|v vs]; [reflexivity|]. cbn [ca_after].
  unfold publish. rewrite Hf. apply IH, H.
Qed.
Lemma decode_fields_independent c fs1 fs1' fs2 ca fa d p v q :
  map (fun ft : fspec * ty => f_vars (fst ft)) fs1 = map (fun ft => f_vars (fst ft)) fs1' ->
  dec (TStruct true c fs1) ca fa d p = Ok v q -> dec (TStruct true c fs1') ca fa d p = Ok v q ->
  dec (TStruct true c (fs1 ++ fs2)) ca fa d p = dec (TStruct true c (fs1' ++ fs2)) ca fa d p.
Proof.
  intros Hv H1 H2. cbn [dec negb] in *. apply map_ok in H1 as (l & H1 & ->). apply map_ok in H2 as (l' & H2 & E).
  injection E as <-. unfold bind. rewrite !dec_fields_app, H1, H2.
  rewrite (ca_after_same _ fs1 fs1' _ _ _ Hv). reflexivity.
Qed.
Lemma enc_fields_app vars ca fs2 vs2 fs1 : forall prev done vs1, length vs1 = length fs1 -> forall b0,
  enc_fields enc false vars ca (fs1 ++ fs2) prev done (vs1 ++ vs2) b0 =
  match enc_fields enc false vars ca fs1 prev done vs1 b0 with
  | Ok n b1 => match enc_fields enc false vars ca fs2 no_fattr (done ++ vs1) vs2 b1 with
               | Ok m b2 => Ok (n + m) b2
               | Err e b2 => Err e b2
               | Panic => Panic
               | Hang => Hang
               end
  | Err e b1 => Err e b1
  | Panic => Panic
  | Hang => Hang
  end.
Proof.
  assert (Hprev : forall fs prev prev' done vs, enc_fields enc false vars ca fs prev done vs = enc_fields enc false vars ca fs prev' done vs).
  { intros fs prev prev' done vs. destruct fs as [|[f t] fs], vs; reflexivity. }
  induction fs1 as [|[f t] fs1 IH]; intros prev done vs1 Hl b0; destruct vs1 as [|v vs1]; try discriminate.
  - cbn [app enc_fields]. unfold wret. rewrite app_nil_r, (Hprev fs2 prev no_fattr).
    destruct (enc_fields enc false vars ca fs2 no_fattr done vs2 b0) as [m b2|e b2| |]; reflexivity.
  - cbn [app enc_fields]. destruct (modifiers f (mkenv done vars)) as [own|]; [|reflexivity]. cbn [andb].
    unfold plus, wbind. destruct (enc_field (enc t) f ca own (mkenv done vars) v b0) as [n1 b1|e b1| |]; try reflexivity.
    rewrite IH by (cbn in Hl; lia). destruct (enc_fields enc false vars ca fs1 own (done ++ [v]) vs1 b1) as [n2 b2|e b2| |]; try reflexivity.
    unfold wret. rewrite <- app_assoc. cbn [app].
    destruct (enc_fields enc false vars ca fs2 no_fattr (done ++ v :: vs1) vs2 b2) as [m b3|e b3| |]; try reflexivity.
    rewrite N.add_assoc. reflexivity.
Qed.
Lemma enc_fields_length vars ca fs : forall prev done vs b n b', enc_fields enc false vars ca fs prev done vs b = Ok n b' ->
  length vs = length fs.
Proof.
  induction fs as [|[f t] fs IH]; intros prev done [|v vs] b n b' H; try discriminate; [reflexivity|].
  cbn [enc_fields] in H. destruct (modifiers f (mkenv done vars)); [|discriminate]. unfold plus, wbind in H.
  destruct (enc_field _ _ _ _ _ _ _) as [n1 b1|e b1| |]; try discriminate.
  destruct (enc_fields enc false vars ca fs _ _ vs b1) as [n2 b2|e b2| |] eqn:E; try discriminate.
  cbn [length]. f_equal. eapply IH; exact E.
Qed.
Lemma encode_fields_independent named c fs1 fs1' fs2 vs1 vs2 ca fa b n b1 :
  enc (TStruct named c fs1) ca fa (VList vs1) b = Ok n b1 -> enc (TStruct named c fs1') ca fa (VList vs1) b = Ok n b1 ->
  enc (TStruct named c (fs1 ++ fs2)) ca fa (VList (vs1 ++ vs2)) b = enc (TStruct named c (fs1' ++ fs2)) ca fa (VList (vs1 ++ vs2)) b.
Proof.
  intros H1 H2. cbn [enc] in *. rewrite !enc_fields_app; auto.
  - rewrite H1, H2. reflexivity.
  - eapply enc_fields_length; exact H2.
  - eapply enc_fields_length; exact H1.
Qed.
(** Tuple structs, where nothing is left over, decode as structs with named fields. *)
Lemma dec_fields_nothing_left vars fs : forall clear ca prev done d p, nothing_left_over clear (map fst fs) = true ->
  (clear = true -> prev = no_fattr) ->
  dec_fields dec true vars fs ca prev done d p = dec_fields dec false vars fs ca prev done d p.
Proof.
  induction fs as [|[f t] fs IH]; intros clear ca prev done d p Hn Hp; [reflexivity|]. cbn [dec_fields].
  cbn [map fst nothing_left_over] in Hn. destruct (modifiers f (mkenv done vars)) as [own|] eqn:Em; [|reflexivity]. cbn [andb].
  assert (Hown : (if negb (f_use f) then prev else own) = own /\ nothing_left_over (if f_use f then bare f else clear) (map fst fs) = true
    /\ ((if f_use f then bare f else clear) = true -> own = no_fattr)).
  { destruct (f_use f) eqn:Eu; cbn [negb].
    - split; [reflexivity|]. split; [exact Hn|]. intros Hb. pose proof (bare_modifiers f (mkenv done vars) Hb). congruence.
    - apply andb_true_iff in Hn as [Hc Hn]. unfold modifiers in Em. rewrite Eu in Em. injection Em as <-.
      split; [apply Hp, Hc|]. split; [exact Hn|reflexivity]. }
  destruct Hown as (-> & Hn' & Hp'). unfold bind.
  destruct (dec_field (dec t) f ca own (mkenv done vars) d p) as [v p'|e p'| |]; try reflexivity.
  eapply IH; eassumption.
Qed.
Lemma tuple_struct_plain c fs ca fa d p : nothing_left_over true (map fst fs) = true ->
  dec (TStruct false c fs) ca fa d p = dec (TStruct true c fs) ca fa d p.
Proof.
  intros H. cbn [dec negb]. unfold bind. rewrite (dec_fields_nothing_left _ _ true); [reflexivity|exact H|reflexivity].
Qed.
Lemma enc_fields_nothing_left vars ca fs : forall clear prev done vs b, nothing_left_over clear (map fst fs) = true ->
  (clear = true -> prev = no_fattr) ->
  enc_fields enc true vars ca fs prev done vs b = enc_fields enc false vars ca fs prev done vs b.
Proof.
  induction fs as [|[f t] fs IH]; intros clear prev done vs b Hn Hp; [reflexivity|]. destruct vs as [|v vs]; [reflexivity|]. cbn [enc_fields].
  cbn [map fst nothing_left_over] in Hn. destruct (modifiers f (mkenv done vars)) as [own|] eqn:Em; [|reflexivity]. cbn [andb].
  assert (Hown : (if negb (f_use f) then prev else own) = own /\ nothing_left_over (if f_use f then bare f else clear) (map fst fs) = true
    /\ ((if f_use f then bare f else clear) = true -> own = no_fattr)).
  { destruct (f_use f) eqn:Eu; cbn [negb].
    - split; [reflexivity|]. split; [exact Hn|]. intros Hb. pose proof (bare_modifiers f (mkenv done vars) Hb). congruence.
    - apply andb_true_iff in Hn as [Hc Hn]. unfold modifiers in Em. rewrite Eu in Em. injection Em as <-.
      split; [apply Hp, Hc|]. split; [exact Hn|reflexivity]. }
  destruct Hown as (-> & Hn' & Hp'). unfold plus, wbind.
  destruct (enc_field (enc t) f ca own (mkenv done vars) v b) as [n1 b1|e b1| |]; try reflexivity.
  rewrite (IH _ own (done ++ [v]) vs b1 Hn' Hp'). reflexivity.
Qed.

(** ** Variables *)
Lemma publish_var f x e en ca l en' : f_vars f = l ++ [(x, e)] -> ev_vars en' = k_vars (publish f en ca) ->
  var_ref x en' = Z.of_N (as_usize (e en)).
Proof.
  intros Hf He. unfold var_ref. rewrite He, publish_published. unfold published. cbn [k_vars]. rewrite Hf, map_app, rev_app_distr.
  cbn [map rev app fst snd find]. rewrite Nat.eqb_refl. reflexivity.
Qed.
Lemma find_app_none {A} (p : A -> bool) l m : (forall x, In x l -> p x = false) -> find p (l ++ m) = find p m.
Proof.
  induction l as [|x l IH]; intros H; [reflexivity|]. cbn [app find]. rewrite (H x (or_introl eq_refl)). apply IH.
  intros y Hy. apply H. right. exact Hy.
Qed.
Lemma ca_after_keeps vars x fs : forall vs done ca, Forall (fun ft => ~ publishes x ft) fs ->
  find (fun nv => Nat.eqb (fst nv) x) (k_vars (ca_after vars fs vs done ca)) = find (fun nv => Nat.eqb (fst nv) x) (k_vars ca).
Proof.
  induction fs as [|[f t] fs IH]; intros vs done ca H; [reflexivity|]. inversion H as [|? ? Hf Hfs]; subst.
  destruct vs as [|v vs]; [reflexivity|]. cbn [ca_after]. rewrite IH by exact Hfs.
  rewrite publish_published. unfold published. cbn [k_vars]. apply find_app_none.
  intros nv Hi. apply in_rev in Hi. apply in_map_iff in Hi as ((y & ey) & <- & Hi). cbn [fst].
  apply Nat.eqb_neq. intros ->. apply Hf. unfold publishes. cbn [fst]. apply (in_map fst) in Hi. exact Hi.
Qed.
(** A variable published by one field is what later containers see. *)
Lemma variable_reaches c fs1 f t fs2 g child fs3 x l e vs1 v vs2 u vs3 ca fa d p q :
  dec (TStruct true c (fs1 ++ (f, t) :: fs2 ++ (g, child) :: fs3)) ca fa d p = Ok (VList (vs1 ++ v :: vs2 ++ u :: vs3)) q ->
  length vs1 = length fs1 -> length vs2 = length fs2 ->
  f_vars f = l ++ [(x, e)] -> Forall (fun ft => ~ publishes x ft) fs2 ->
  exists ca' fa' p1 p2, dec_field (dec child) g ca' fa' (mkenv (vs1 ++ v :: vs2) (k_vars ca)) d p1 = Ok u p2
    /\ k_order ca' = c_order c
    /\ forall en, ev_vars en = k_vars ca' -> var_ref x en = Z.of_N (as_usize (e (mkenv (vs1 ++ [v]) (k_vars ca)))).
Proof.
  intros H Hl1 Hl2 Hf Hnp. cbn [dec negb] in H. apply map_ok in H as (xs & H & E). injection E as <-.
  rewrite dec_fields_app in H.
  destruct (dec_fields dec false (k_vars ca) fs1 (own_cattr c) no_fattr [] d p) as [l1 q1|? ?| |] eqn:E1; try discriminate.
  destruct (dec_fields_length _ _ _ _ _ _ _ _ _ _ E1) as (ws1 & -> & Hw1). cbn [app length skipn] in *.
  set (ca1 := ca_after (k_vars ca) fs1 ws1 [] (own_cattr c)) in *.
  cbn [dec_fields] in H. destruct (modifiers f _) as [own|]; [|discriminate]. cbn [andb] in H.
  apply bind_ok in H as (v' & p' & Hv & H). rewrite dec_fields_app in H.
  destruct (dec_fields dec false (k_vars ca) fs2 (publish f (mkenv (ws1 ++ [v']) (k_vars ca)) ca1) own (ws1 ++ [v']) d p') as [l2 q2|? ?| |] eqn:E2; try discriminate.
  destruct (dec_fields_length _ _ _ _ _ _ _ _ _ _ E2) as (ws2 & -> & Hw2).
  rewrite skipn_app, skipn_all, Nat.sub_diag in H. cbn [app skipn] in H.
  set (ca2 := ca_after (k_vars ca) fs2 ws2 (ws1 ++ [v']) (publish f (mkenv (ws1 ++ [v']) (k_vars ca)) ca1)) in *.
  cbn [dec_fields] in H. destruct (modifiers g _) as [gown|]; [|discriminate]. cbn [andb] in H.
  apply bind_ok in H as (u' & p'' & Hu & H). apply dec_fields_length in H as (ws3 & Heq & Hw3).
  assert (Heq' : vs1 ++ v :: vs2 ++ u :: vs3 = ws1 ++ v' :: ws2 ++ u' :: ws3).
  { rewrite Heq. rewrite <- !app_assoc. reflexivity. }
  apply app_eq_app in Heq'. 
  assert (E : vs1 = ws1 /\ v :: vs2 ++ u :: vs3 = v' :: ws2 ++ u' :: ws3).
  { destruct Heq' as (k & [[Ha Hb]|[Ha Hb]]); assert (k = []) by
      (apply length_zero_iff_nil; apply (f_equal (@length val)) in Ha; rewrite app_length in Ha; lia); subst k; rewrite app_nil_r in Ha; cbn [app] in Hb; auto. }
  destruct E as [<- E]. injection E as <- E. apply app_eq_app in E.
  assert (E' : vs2 = ws2 /\ u :: vs3 = u' :: ws3).
  { destruct E as (k & [[Ha Hb]|[Ha Hb]]); assert (k = []) by
      (apply length_zero_iff_nil; apply (f_equal (@length val)) in Ha; rewrite app_length in Ha; lia); subst k; rewrite app_nil_r in Ha; cbn [app] in Hb; auto. }
  destruct E' as [<- E']. injection E' as <- <-.
  exists ca2, gown, q2, p''. rewrite <- app_assoc in Hu. cbn [app] in Hu. split; [exact Hu|].
  assert (Hord : forall fs vs done ca0, k_order (ca_after (k_vars ca) fs vs done ca0) = k_order ca0).
  { induction fs as [|[f0 t0] fs IHf]; intros vs done ca0; [reflexivity|]. destruct vs; [reflexivity|]. cbn [ca_after]. rewrite IHf. reflexivity. }
  split.
  - unfold ca2. rewrite Hord. cbn [publish k_order]. unfold ca1. rewrite Hord. reflexivity.
  - intros en Hen. rewrite <- (publish_var f x e (mkenv (vs1 ++ [v]) (k_vars ca)) ca1 l (mkenv [] (k_vars (publish f (mkenv (vs1 ++ [v]) (k_vars ca)) ca1))) Hf eq_refl).
    unfold var_ref. rewrite Hen. cbn [ev_vars]. unfold ca2. rewrite ca_after_keeps by exact Hnp. reflexivity.
Qed.
