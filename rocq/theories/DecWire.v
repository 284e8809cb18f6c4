(** The decoder inverts the wire format: fields, enums and the theorem for all
    types. *)
From Verif Require Import Base Ints Reader Writer Spec SpecOps RunSpec.
From Verif Require Import BaseLemmas ReaderLemmas ReaderHist WriterLemmas WriterHist CodecBase BitsLemmas EncLemmas DecLemmas.
From Verif Require Import Schema Utf8 Decode Encode WireSpec.

Definition D (t : ty) : Prop := forall ca fa v w rest,
  well_formed t -> wire t ca fa v = Some w -> fits t ca fa v rest = true -> reads (dec t ca fa) w rest v.

(** ** Fields *)
Lemma advance_reads l rest : reads (advance (lenN l)) l rest tt.
Proof. intros pre Hs. apply small_pre in Hs. unfold advance. rewrite wadd_small by lia. reflexivity. Qed.
Lemma pad_lenN (b : byte) n : lenN (repeat b (N.to_nat n)) = n.
Proof. unfold lenN. rewrite repeat_length. lia. Qed.
Lemma dec_offset_reads f en rest : reads (dec_offset (f_offset f) en) (padding f en) rest tt.
Proof.
  unfold dec_offset, padding. destruct (f_offset f) as [e|]; cbn [eval_opt option_map]; [|apply reads_ret].
  generalize (as_usize (e en)). intros n. 
  pose proof (advance_reads (repeat (byte_of (f_full f)) (N.to_nat n)) rest) as H. rewrite pad_lenN in H. exact H.
Qed.
Lemma reads_at {A} (k : N -> rd A) w rest a :
  (forall pre, small (pre ++ w ++ rest) -> k (lenN pre) (pre ++ w ++ rest) (lenN pre) = Ok a (lenN pre + lenN w)) ->
  reads (p <- get_position ;; k p) w rest a.
Proof. intros H pre Hs. unfold bind, get_position. apply H, Hs. Qed.

Definition finish (f : fspec) (en : env) (v : val) : rd val :=
  let v := match f_value_decode f with Some g => g en v | None => v end in
  match f_check f with
  | Some c => if val_eqb v (c en) then ret v else fail InvalidValue
  | None => ret v
  end.
Lemma finish_ok f en x v rest : val_eqb (restored f en x) v = true -> checked f en v = true ->
  reads (finish f en x) [] rest v.
Proof.
  intros H1 H2. apply val_eqb_eq in H1. unfold restored in H1. unfold finish. cbv zeta. rewrite H1.
  unfold checked in H2. destruct (f_check f); [rewrite H2|]; apply reads_ret.
Qed.

Lemma field_reads t f ca fa en v w rest : D t -> well_formed t ->
  field_wire (wire t) f ca fa en v = Some w -> field_fits (wire t) (fits t) f ca fa en v rest = true ->
  (no_with f = true \/ exists d doc e, f_offset f = None /\ f_with_decode f = Some d /\ f_format f = Some doc /\
     keeps_format (doc en) (d en) e) ->
  reads (dec_field (dec t) f ca fa en) w rest v.
Proof.
  intros HD Hwf Hw Hf Hwith. unfold field_wire in Hw. unfold field_fits in Hf. unfold dec_field.
  destruct Hwith as [Hwith|(d & doc & e & Ho & Hd & Hdoc & HK)].
  2:{ rewrite Hdoc in Hw, Hf. rewrite Hd, Ho. apply reads_after with tt; [apply reads_ret|].
      apply reads_as_reads. exact (kf_read _ _ _ HK ca fa v w rest Hw Hf). }
  unfold no_with in Hwith. destruct (f_with_decode f); [discriminate|]. destruct (f_with_encode f); [discriminate|].
  destruct (f_format f); [discriminate|]. clear Hwith.
  destruct (f_skip_decode f) as [d|].
  - apply andb_true_iff in Hf as [Hf Hv]. apply andb_true_iff in Hf as [Hs Ho]. rewrite Hs in Hw.
    injection Hw as <-. apply val_eqb_eq in Hv. subst d.
    unfold no_offset in Ho. destruct (f_offset f) eqn:Eo; [discriminate|].
    apply reads_after with tt; [apply reads_ret|apply reads_ret].
  - apply andb_true_iff in Hf as [Hs Hf]. apply negb_true_iff in Hs. rewrite Hs in Hw.
    destruct (f_from_str f) as [[parse show]|].
    + apply andb_true_iff in Hf as [Hf Hff]. apply andb_true_iff in Hf as [Hp Hu].
      destruct (wire t ca fa v) as [w0|]; [|discriminate].
      destruct (and_then_some _ _ _ Hw) as (a & b & Ha & Hb & ->). injection Ha as <-.
      eapply reads_bind; [apply dec_offset_reads|].
      apply reads_eq with (b ++ []); [apply app_nil_r|].
      eapply reads_bind; [eapply dec_string_reads; eassumption|].
      destruct (parse (show v)) as [v'|]; [|discriminate]. apply val_eqb_eq in Hp. subst v'. apply reads_ret.
    + apply andb_true_iff in Hf as [Hf Hb]. apply andb_true_iff in Hf as [Hr Hc].
      pose proof (fun r => finish_ok f en (stored f en v) v r Hr Hc) as Hfin.
      destruct (f_untake f) eqn:Eu.
      * injection Hw as <-.
        assert (Ho : f_offset f = None).
        { destruct (match f_if f with Some c => c en | None => true end);
            [|apply andb_true_iff in Hb as [Hb _]]; apply andb_true_iff in Hb as [Hb _]; unfold no_offset in Hb; destruct (f_offset f); auto; discriminate. }
        rewrite Ho. apply reads_after with tt; [apply reads_ret|].
        apply reads_at. intros pre Hs'. cbn [app] in *.
        assert (Hd : (match f_if f with Some c => if c en then dec t ca fa else ret (VOpt None) | None => dec t ca fa end) (pre ++ rest) (lenN pre)
                     = Ok (stored f en v) (lenN pre + (if match f_if f with Some c => c en | None => true end then size (optional (wire t ca fa (stored f en v))) else 0))).
        { assert (Hyes : no_offset f &&
                    match wire t ca fa (stored f en v) with
                    | Some l => starts_with l rest && fits t ca fa (stored f en v) (skipn (length l) rest)
                    | None => false
                    end = true -> dec t ca fa (pre ++ rest) (lenN pre) = Ok (stored f en v) (lenN pre + size (optional (wire t ca fa (stored f en v))))).
          { rewrite andb_true_iff. intros [_ Hl]. destruct (wire t ca fa (stored f en v)) as [l|] eqn:El; [|discriminate].
            apply andb_true_iff in Hl as [Hl1 Hl2]. apply starts_with_iff in Hl1 as [r ->].
            rewrite skipn_app, skipn_all, Nat.sub_diag in Hl2. cbn [app skipn] in Hl2.
            apply (HD ca fa _ l r Hwf El Hl2). exact Hs'. }
          destruct (f_if f) as [c|]; [|apply Hyes, Hb].
          destruct (c en); [apply Hyes, Hb|].
          apply andb_true_iff in Hb as [Hb _]. apply andb_true_iff in Hb as [_ Hb].
          apply val_eqb_eq in Hb. rewrite Hb, N.add_0_r. reflexivity. }
        unfold bind at 1. rewrite Hd. unfold bind at 1, set_position.
        apply (Hfin rest). exact Hs'.
      * destruct (and_then_some _ _ _ Hw) as (a & b & Ha & Hb' & ->). injection Ha as <-.
        eapply reads_bind; [apply dec_offset_reads|].
        apply reads_at. intros pre Hs'.
        pose proof (reads_bind
          (match f_if f with Some c => if c en then dec t ca fa else ret (VOpt None) | None => dec t ca fa end)
          (fun x => _ <- ret tt ;; finish f en x) b [] rest (stored f en v) v) as HB.
        rewrite app_nil_r in HB. apply HB; [| |exact Hs'].
        -- cbn [app].
           destruct (f_if f) as [c|]; [destruct (c en)|]; [eapply HD; eassumption| |eapply HD; eassumption].
           apply andb_true_iff in Hb as [Hb Hnil]. cbn [andb negb] in Hb. apply val_eqb_eq in Hb. rewrite Hb in *.
           rewrite Hb' in Hnil. cbn [optional] in Hnil. destruct b; [apply reads_ret|discriminate].
        -- apply reads_after with tt; [apply reads_ret|]. apply Hfin.
Qed.

Lemma publish_published f en ca : publish f en ca = published f en ca.
Proof.
  unfold publish, published. f_equal. generalize (k_vars ca). induction (f_vars f) as [|nx l IH]; intros vs; [reflexivity|].
  cbn [fold_left map rev]. rewrite IH, <- app_assoc. reflexivity.
Qed.

Lemma group_width vars fs : forall it bo x ca done vs w,
  fields_wire wire vars (Some (it, bo, x)) fs ca done vs = Some w -> width_bytes it <= lenN w.
Proof.
  induction fs as [|[f t] fs IH]; intros it bo x ca done vs w H; destruct vs as [|v vs]; try discriminate.
  cbn [fields_wire] in H.
  destruct (modifiers f (mkenv done vars)) as [fa|]; [|discriminate].
  destruct (f_bits f); [|discriminate].
  destruct t; try discriminate. destruct (stored f (mkenv done vars) v); try discriminate. destruct (a_bits fa) as [mask|]; [|discriminate].
  destruct (bits_only f && mask_ok t mask && value_inb t z); [|discriminate].
  destruct (f_bits_start f); [discriminate|].
  destruct (same_ity it t) eqn:E; [|discriminate]. apply same_ity_eq in E. subst t.
  destruct (same_order bo (order_for ca fa) && (width_bytes it <=? 8)) eqn:E2; cbn [andb] in H; rewrite E2 in H; [|discriminate].
  destruct (f_untake f); [eapply IH; exact H|].
  destruct (and_then_some _ _ _ H) as (a & b & Ha & Hb & ->). injection Ha as <-.
  rewrite lenN_app, digits_lenN. lia.
Qed.

(** What a bit field returns: the word in front of it, under the mask. *)
Lemma dec_bits it ca fa mask w rest : a_bits fa = Some mask -> a_length fa = None -> mask_ok it mask = true ->
  width_bytes it <= lenN w -> forall pre, small (pre ++ w ++ rest) ->
  dec_int it ca fa (pre ++ w ++ rest) (lenN pre)
  = Ok (Z.of_N (under mask (number (order_for ca fa) (firstn (N.to_nat (width_bytes it)) w)))) (lenN pre + width_bytes it).
Proof.
  intros Hb Hl Hm Hw pre Hs. unfold dec_int. rewrite Hb, Hl. unfold bind, ko.
  replace (order_for ca fa) with (get_byteorder ca fa) by (symmetry; apply order_for_get1).
  rewrite take_int_in; [|exact Hs|rewrite <- width_sizeN, !lenN_app; lia].
  destruct (mask_ok_inv _ _ Hm) as (Ht & p & Hp & Hlt).
  unfold int_of_raw. rewrite <- is_signed_signed, Ht. cbn [andb]. unfold ret. f_equal; [|rewrite width_sizeN; reflexivity].
  rewrite bits_extract_under by exact Hm. f_equal. f_equal.
  change (named_order (KOrder (get_byteorder ca fa))) with (get_byteorder ca fa).
  cbn [order_of]. rewrite <- number_from_bytes. f_equal.
  set (n := width_bytes it) in *. rewrite <- width_sizeN. fold n.
  assert (E : w = firstn (N.to_nat n) w ++ skipn (N.to_nat n) w) by (symmetry; apply firstn_skipn).
  rewrite E at 1. rewrite <- app_assoc.
  replace n with (lenN (firstn (N.to_nat n) w)) at 3; [apply sub_app|].
  unfold lenN in *. rewrite firstn_length. lia.
Qed.

Definition in_group (g : option (ity * byteorder * N)) (word : option N) (w : bytes) : Prop :=
  match g with
  | None => word = None
  | Some (it, bo, _) => word = Some (number bo (firstn (N.to_nat (width_bytes it)) w))
  end.

Lemma bits_only_inv f : bits_only f = true ->
  match f_offset f, f_skip_decode f, f_from_str f, f_if f, f_length f with
  | None, None, None, None, None => negb (f_skip_encode f)
  | _, _, _, _, _ => false
  end = true /\ f_with_decode f = None /\ f_with_encode f = None.
Proof.
  unfold bits_only, no_with.
  destruct (f_offset f), (f_skip_decode f), (f_from_str f), (f_if f), (f_length f);
    try discriminate. intros H. apply andb_true_iff in H as [H1 H2].
  destruct (f_with_decode f), (f_with_encode f), (f_format f); try discriminate. auto.
Qed.
Lemma with_ok_cases f done vars : with_ok f ->
  no_with f = true \/ exists d doc e, f_offset f = None /\ f_with_decode f = Some d /\ f_format f = Some doc /\
     keeps_format (doc (mkenv done vars)) (d (mkenv done vars)) e.
Proof.
  unfold with_ok, no_with. destruct (f_with_decode f) as [d|], (f_with_encode f) as [e|], (f_format f) as [doc|]; try contradiction.
  - intros (Ho & _ & HK). right. exists d, doc, (e (mkenv done vars)). auto.
  - left. reflexivity.
Qed.
Lemma fields_read inherit vars fs :
  Forall (fun ft => D (snd ft)) fs ->
  every (fun ft : fspec * ty => let (f, t) := ft in
           well_formed t /\ encodes_without_variables f t /\ from_str_ok f t /\ with_ok f) fs ->
  forall group word ca prev done vs w rest clear,
  (inherit = true -> nothing_left_over clear (map fst fs) = true /\ (clear = true -> prev = no_fattr)) ->
  in_group group word w ->
  fields_wire wire vars group fs ca done vs = Some w ->
  fields_fit wire fits vars word fs ca done vs rest = true ->
  reads (dec_fields dec inherit vars fs ca prev done) w rest (done ++ vs).
Proof.
  induction 1 as [|[f t] fs Ht Hfs IH]; intros Hev group word ca prev done vs w rest clear Hin Hg H HF.
  - destruct vs; [|discriminate]. cbn in H. destruct group; [discriminate|]. injection H as <-.
    rewrite app_nil_r. apply reads_ret.
  - destruct vs as [|v vs]; [discriminate|]. cbn [every] in Hev. destruct Hev as [(Hwf & Hvar & Hfo & Hwith) Hev].
    cbn [snd] in Ht. pose proof H as H0. cbn [fields_wire] in H. cbn [fields_fit] in HF. cbn [dec_fields].
    destruct (modifiers f (mkenv done vars)) as [own|] eqn:Em; [|discriminate].
    set (fb := if inherit && negb (f_use f) then prev else own).
    assert (Hfb : fb = own).
    { unfold fb. destruct inherit; [|reflexivity]. destruct (f_use f) eqn:Eu; [reflexivity|]. cbn [negb andb].
      destruct (Hin eq_refl) as [Hn Hp]. cbn [map fst nothing_left_over] in Hn. rewrite Eu in Hn.
      apply andb_true_iff in Hn as [Hc _]. rewrite (Hp Hc).
      unfold modifiers in Em. rewrite Eu in Em. congruence. }
    rewrite Hfb. clear fb Hfb.
    assert (Hin' : inherit = true -> nothing_left_over (if f_use f then bare f else clear) (map fst fs) = true
                   /\ ((if f_use f then bare f else clear) = true -> own = no_fattr)).
    { intros Hi. destruct (Hin Hi) as [Hn Hp]. cbn [map fst nothing_left_over] in Hn.
      destruct (f_use f) eqn:Eu.
      - split; [exact Hn|]. intros Hb. pose proof (bare_modifiers f (mkenv done vars) Hb). congruence.
      - apply andb_true_iff in Hn as [_ Hn]. split; [exact Hn|]. intros _.
        unfold modifiers in Em. rewrite Eu in Em. congruence. }
    specialize (IH Hev). change (done ++ v :: vs) with (done ++ [v] ++ vs). rewrite (app_assoc done [v] vs).
    destruct (f_bits f) as [be|] eqn:Ebits.
    + (* a bit field *)
      destruct t as [it| | | | | | | | | | | | | | | | | | | | |]; try discriminate.
      destruct (stored f (mkenv done vars) v) as [z| | | | | | | | | |] eqn:Est; try discriminate.
      destruct (a_bits own) as [mask|] eqn:Ea; [|discriminate].
      destruct (bits_only f && mask_ok it mask && value_inb it z) eqn:Eok; [|discriminate].
      apply andb_true_iff in Eok as [Eok Hz]. apply andb_true_iff in Eok as [Hbo Hmask].
      apply bits_only_inv in Hbo as [Hbo Hnw].
      assert (Hlen : a_length own = None).
      { destruct (modifiers_inv _ _ _ Em) as [[_ ->]|(_ & Hl & _ & Hbs & _)]; [discriminate|].
        rewrite Hl.
        destruct (f_offset f), (f_skip_decode f), (f_from_str f), (f_if f), (f_length f); try discriminate. reflexivity. }
      assert (Hw : width_bytes it <= lenN w /\
        match word with
        | Some x => x
        | None => number (order_for ca own) (firstn (N.to_nat (width_bytes it)) (optional (fields_wire wire vars None ((f, TInt it) :: fs) ca done (v :: vs))))
        end = number (order_for ca own) (firstn (N.to_nat (width_bytes it)) w)).
      { destruct group as [[[it0 bo0] x]|]; cbn [in_group] in Hg; subst word.
        - split.
          + destruct (f_bits_start f); [discriminate|].
            destruct (same_ity it0 it) eqn:E1; [|discriminate]. apply same_ity_eq in E1. subst it0.
            eapply group_width; exact H0.
          + destruct (f_bits_start f); [discriminate|].
            destruct (same_ity it0 it) eqn:E1; [|discriminate]. apply same_ity_eq in E1. subst it0.
            destruct (same_order bo0 (order_for ca own)) eqn:E2; [|discriminate].
            apply same_order_eq in E2. subst bo0. reflexivity.
        - rewrite H0. cbn [optional]. split; [|reflexivity].
          destruct (f_bits_start f); [|discriminate]. destruct (f_untake f).
          + eapply group_width; exact H.
          + destruct (and_then_some _ _ _ H) as (a & b & Ha & _ & ->). injection Ha as <-.
            rewrite lenN_app, digits_lenN. lia. }
      destruct Hw as [Hwidth Hword]. cbv zeta in HF. rewrite Hword in HF.
      set (word' := number (order_for ca own) (firstn (N.to_nat (width_bytes it)) w)) in *.
      apply andb_true_iff in HF as [HF HF2]. apply andb_true_iff in HF as [HF Hchk]. apply andb_true_iff in HF as [Hund Hre]. apply val_eqb_eq in Hre. apply N.eqb_eq in Hund.
      (* the field returns its value and stands behind the word, or before it *)
      assert (Hfield : forall pre, small (pre ++ w ++ rest) ->
        dec_field (dec (TInt it)) f ca own (mkenv done vars) (pre ++ w ++ rest) (lenN pre)
        = Ok v (if f_untake f then lenN pre else lenN pre + width_bytes it)).
      { intros pre Hs. unfold dec_field, dec_offset. rewrite (proj1 Hnw).
        destruct (f_offset f), (f_skip_decode f), (f_from_str f), (f_if f), (f_length f); try discriminate.
        cbn [eval_opt option_map dec]. unfold bind, ret, get_position, set_position.
        rewrite (dec_bits it ca own mask w rest Ea Hlen Hmask Hwidth pre Hs). fold word'. rewrite Hund.
        assert (Hz0 : (0 <= z)%Z).
        { apply value_inb_range in Hz. destruct (mask_ok_inv _ _ Hmask) as (Hun & _).
          apply (unsigned_range it z Hun) in Hz. lia. }
        rewrite Z2N.id by exact Hz0. unfold checked in Hchk. unfold restored in Hre.
        destruct (f_untake f); cbv zeta; rewrite Hre;
        (destruct (f_check f) as [c|]; try rewrite Hchk; reflexivity). }
      (* the fields after it *)
      assert (Hnext : forall it1 bo1 x1, it1 = it -> bo1 = order_for ca own ->
        (if f_untake f then fields_wire wire vars (Some (it1, bo1, x1)) fs (published f (mkenv (done ++ [v]) vars) ca) (done ++ [v]) vs
         else and_then (Some (digits bo1 (N.to_nat (width_bytes it1)) x1))
                (fields_wire wire vars None fs (published f (mkenv (done ++ [v]) vars) ca) (done ++ [v]) vs)) = Some w ->
        reads (v <- dec_field (dec (TInt it)) f ca own (mkenv done vars);;
               dec_fields dec inherit vars fs (publish f (mkenv (done ++ [v]) vars) ca) own (done ++ [v])) w rest ((done ++ [v]) ++ vs)).
      { intros it1 bo1 x1 -> -> Hnx. intros pre Hs. unfold bind. rewrite Hfield by exact Hs.
        rewrite publish_published. destruct (f_untake f).
        - eapply IH; [exact Hin'| |exact Hnx|exact HF2|exact Hs]. reflexivity.
        - destruct (and_then_some _ _ _ Hnx) as (a & b & Ha & Hb & Hab). injection Ha as <-. subst w.
          set (dg := digits (order_for ca own) (N.to_nat (width_bytes it)) x1) in *.
          assert (HLa : lenN dg = width_bytes it) by (unfold dg; rewrite digits_lenN; lia).
          replace (lenN pre + width_bytes it) with (lenN (pre ++ dg)) by (rewrite lenN_app; lia).
          replace (lenN pre + lenN (dg ++ b)) with (lenN (pre ++ dg) + lenN b) by (rewrite !lenN_app; lia).
          assert (Eq : pre ++ (dg ++ b) ++ rest = (pre ++ dg) ++ b ++ rest) by (rewrite <- !app_assoc; reflexivity).
          rewrite Eq in *.
          eapply IH; [exact Hin'| |exact Hb|exact HF2|exact Hs]. reflexivity. }
      destruct group as [[[it0 bo0] x]|].
      * destruct (f_bits_start f); [discriminate|].
        destruct (same_ity it0 it) eqn:E1; [|discriminate].
        destruct (same_order bo0 (order_for ca own)) eqn:E2; [|discriminate].
        destruct (N.leb_spec (width_bytes it) 8); [|discriminate]. cbn [andb] in H.
        exact (Hnext it _ (N.lor x (placed it mask z)) eq_refl eq_refl H).
      * destruct (f_bits_start f); [|discriminate].
        exact (Hnext it _ (placed it mask z) eq_refl eq_refl H).
    + destruct group; [discriminate|]. cbn [in_group] in Hg. subst word.
      destruct (and_then_some _ _ _ H) as (a & b & Ha & Hb & ->).
      cbv zeta in HF. rewrite Hb in HF. cbn [optional] in HF. apply andb_true_iff in HF as [HF1 HF2].
      eapply reads_bind; [eapply field_reads; [eassumption..|apply with_ok_cases, Hwith]|].
      rewrite publish_published. eapply IH; [exact Hin'| |exact Hb|exact HF2]. reflexivity.
Qed.

(** ** Enums *)
Lemma pick_nth {X R} (k : vspec -> X -> N -> R) (dflt : R) (vs : list (vspec * X)) : forall ns i,
  (fix pick (vs : list (vspec * X)) (ns : list N) (i : nat) : R :=
     match vs, ns, i with
     | (v, fs) :: _, n :: _, O => k v fs n
     | _ :: vs', _ :: ns', S i' => pick vs' ns' i'
     | _, _, _ => dflt
     end) vs ns i
  = match nth_error vs i, nth_error ns i with
    | Some (v, fs), Some n => k v fs n
    | _, _ => dflt
    end.
Proof.
  induction vs as [|[v fs] vs IH]; intros ns i; [destruct i; reflexivity|].
  destruct ns as [|n ns]; destruct i as [|i]; cbn [nth_error]; try reflexivity.
  - destruct (nth_error vs i) as [[? ?]|]; reflexivity.
  - apply IH.
Qed.
Lemma wire_enum e vs ca fa i xs :
  wire (TEnum e vs) ca fa (VVariant i xs)
  = match nth_error vs i, nth_error (numbering 0 (map fst vs)) i with
    | Some (v, fs), Some n =>
        and_then (tag_wire e ca fa v n)
          (and_then (Some (padding (v_attr v) (mkenv [] (k_vars ca))))
                    (fields_wire wire (k_vars ca) None fs (inner (e_c e)) [] xs))
    | _, _ => None
    end.
Proof. apply (pick_nth (fun v fs n => _) None vs). Qed.
Lemma fits_enum e vs ca fa i xs rest :
  fits (TEnum e vs) ca fa (VVariant i xs) rest
  = match nth_error vs i, nth_error (numbering 0 (map fst vs)) i with
    | Some (v, fs), Some n =>
        tag_fits e fa (map fst vs) i v n (optional (wire (TEnum e vs) ca fa (VVariant i xs)) ++ rest)
        && fields_fit wire fits (k_vars ca) None fs (inner (e_c e)) [] xs rest
    | _, _ => false
    end.
Proof. apply (pick_nth (fun v fs n => _) false vs). Qed.

Lemma numbering_length vs : forall next, length (numbering next vs) = length vs.
Proof. induction vs as [|v vs IH]; intros next; [reflexivity|]. cbn [numbering length]. rewrite IH. reflexivity. Qed.
Lemma first_such_combine {A B} (p : A -> bool) (l : list A) : forall (ns : list B), length ns = length l ->
  first_such (fun vn => p (fst vn)) (combine l ns) = first_such p l.
Proof.
  induction l as [|x l IH]; intros [|n ns] H; try discriminate; [reflexivity|].
  cbn [combine first_such fst]. rewrite IH by (cbn in H; lia). reflexivity.
Qed.
Lemma first_such_ext {A} (p q : A -> bool) l : (forall x, p x = q x) -> first_such p l = first_such q l.
Proof. intros H. induction l as [|x l IH]; cbn; [reflexivity|]. rewrite H, IH. reflexivity. Qed.
Lemma accepts_arm v n tag : accepts v n tag = arm_matches v n tag.
Proof.
  unfold accepts, arm_matches. destruct (v_default v); [reflexivity|].
  destruct (v_bits v) as [[mask want]|]; [reflexivity|]. destruct (v_value v); [reflexivity|].
  destruct (v_range v) as [[[lo hi] [|]]|]; reflexivity.
Qed.
Lemma is_index_eq o i : is_index o i = true -> o = Some i.
Proof. destruct o; [|discriminate]. cbn. intros H. apply Nat.eqb_eq in H. congruence. Qed.

Lemma dec_arms_first dty hit eat nomatch ca vars vs : forall i0 next j v fs,
  nth_error vs j = Some (v, fs) ->
  first_such (fun vn => hit (fst vn) (snd vn)) (combine (map fst vs) (numbering next (map fst vs))) = Some j ->
  dec_arms dty hit eat nomatch ca vars vs i0 next =
  (_ <- advance (eat v) ;;
   match modifiers (v_attr v) (mkenv [] vars) with
   | None => panic
   | Some prev =>
       _ <- dec_offset (f_offset (v_attr v)) (mkenv [] vars) ;;
       xs <- dec_fields dty (negb (v_named v)) vars fs ca prev [] ;;
       ret (VVariant (i0 + j) xs)
   end).
Proof.
  induction vs as [|[v fs] vs IH]; intros i0 next j v' fs' Hn Hf; [destruct j; discriminate|].
  cbn [map fst] in Hf. rewrite variant_index_numbering in Hf. cbn [combine first_such fst snd] in Hf.
  cbn [dec_arms]. destruct (hit v (variant_index v next)).
  - injection Hf as <-. injection Hn as <- <-. rewrite Nat.add_0_r. reflexivity.
  - destruct (first_such _ _) as [j'|] eqn:E in Hf; [|discriminate]. injection Hf as <-.
    cbn [nth_error] in Hn. rewrite (IH (S i0) _ j' v' fs' Hn E). rewrite Nat.add_succ_comm. reflexivity.
Qed.

Lemma tag_reads e v ca fa n tag w rest : e_branching e = ByTag -> tag_wire e ca fa v n = Some w ->
  tag_read e fa n = Some tag -> reads (enum_tag e ca fa) w rest tag.
Proof.
  intros Hb Hw Ht. unfold tag_wire in Hw. rewrite Hb in Hw. unfold tag_read in Ht. unfold enum_tag, ko.
  rewrite order_for_get1 in Hw.
  destruct (a_branch fa) as [b|]; [injection Hw as <-; injection Ht as <-; apply reads_ret|].
  destruct (a_byte_count fa) as [k|], (c_byte_count (e_c e)) as [k'|]; try discriminate.
  - destruct (N.leb_spec k 8); [|discriminate]. injection Hw as <-; injection Ht as <-. apply take_uint_reads; assumption.
  - destruct (N.leb_spec k' 8); [|discriminate]. injection Hw as <-; injection Ht as <-. apply take_uint_reads; assumption.
  - destruct (e_no_tag e); [discriminate|]. injection Hw as <-; injection Ht as <-. apply take_u8_reads.
Qed.

Lemma every_nth {A} (p : A -> Prop) l : every p l -> forall i x, nth_error l i = Some x -> p x.
Proof.
  induction l as [|y l IH]; intros H i x Hn; [destruct i; discriminate|]. cbn [every] in H. destruct H as [H1 H2].
  destruct i; [injection Hn as <-; exact H1|eapply IH; eassumption].
Qed.
Lemma Forall_nth_error {A} (p : A -> Prop) l : Forall p l -> forall i x, nth_error l i = Some x -> p x.
Proof. intros H i x Hn. rewrite Forall_forall in H. apply H. eapply nth_error_In, Hn. Qed.

Lemma D_enum e vs : Forall (fun vf => Forall (fun ft => D (snd ft)) (snd vf)) vs -> D (TEnum e vs).
Proof.
  intros HD ca fa v w rest Hwf Hw HF. destruct v; try discriminate. rename fs into xs.
  rewrite fits_enum, Hw in HF. rewrite wire_enum in Hw. cbn [optional] in HF.
  destruct (nth_error vs i) as [[v fs]|] eqn:En; [|discriminate].
  destruct (nth_error (numbering 0 (map fst vs)) i) as [n|] eqn:Enum; [|discriminate].
  apply andb_true_iff in HF as [HT HF].
  destruct (and_then_some _ _ _ Hw) as (a & b & Ha & Hb & ->).
  destruct (and_then_some _ _ _ Hb) as (b1 & b2 & Hb1 & Hb2 & ->). injection Hb1 as <-.
  cbn [well_formed] in Hwf. pose proof (every_nth _ _ Hwf _ _ En) as (Hbare & Hpad & Hf1 & Hf2).
  pose proof (Forall_nth_error _ _ HD _ _ En) as HDv. cbn [snd] in HDv.
  set (en := mkenv [] (k_vars ca)) in *.
  assert (Hbody : forall i', i' = i -> reads (match modifiers (v_attr v) en with
             | None => panic
             | Some prev =>
                 _ <- dec_offset (f_offset (v_attr v)) en ;;
                 ys <- dec_fields dec (negb (v_named v)) (k_vars ca) fs (own_cattr (e_c e)) prev [] ;;
                 ret (VVariant i' ys)
             end) (padding (v_attr v) en ++ b2) rest (VVariant i xs)).
  { intros i' ->. rewrite bare_modifiers by exact Hbare. eapply reads_bind; [apply dec_offset_reads|].
    apply (reads_map _ (VVariant i)). change xs with ([] ++ xs).
    eapply fields_read with (group := None) (word := None) (clear := true); try eassumption.
    - intros _. split; [apply Hf1; reflexivity|reflexivity].
    - reflexivity. }
  assert (Hlen : length (numbering 0 (map fst vs)) = length (map fst vs)) by apply numbering_length.
  assert (Hone : forall v0 vs0, vs = v0 :: vs0 \/ vs = [] -> vs = [] -> False).
  { intros _ _ _ ->. destruct i; discriminate. }
  cbn [dec]. destruct vs as [|vf0 vs0]; [destruct i; discriminate|]. clear Hone. set (vs := vf0 :: vs0) in *.
  unfold tag_fits in HT. destruct (e_branching e) as [| | |m] eqn:Eb.
  - (* integer tag *)
    destruct (tag_read e fa n) as [tag|] eqn:Et; [|discriminate]. apply is_index_eq in HT.
    eapply reads_bind; [eapply tag_reads; eassumption|]. cbv beta.
    rewrite (dec_arms_first dec (fun v index => arm_matches v index tag) (fun _ => 0) InvalidByteLength
               (own_cattr (e_c e)) (k_vars ca) vs 0 0 i v fs En).
    2:{ rewrite <- HT. apply first_such_ext. intros [v' n']. symmetry. apply accepts_arm. }
    apply reads_after with tt; [apply (advance_reads [])|]. apply Hbody. reflexivity.
  - (* a literal in front, consumed *)
    apply andb_true_iff in HT as [Hdef HT]. apply is_index_eq in HT.
    unfold tag_wire in Ha. rewrite Eb in Ha. injection Ha as <-.
    intros pre Hs. rewrite remaining_app.
    rewrite (dec_arms_first dec
               (fun u _ => v_default u || starts_with (variant_bytes u) ((literal v ++ padding (v_attr v) en ++ b2) ++ rest)) 
               (fun v => if v_default v then 0 else lenN (variant_bytes v)) Fail
               (own_cattr (e_c e)) (k_vars ca) vs 0 0 i v fs En).
    2:{ rewrite <- HT. 
        apply (first_such_combine (fun u => v_default u || starts_with (variant_bytes u) ((literal v ++ padding (v_attr v) en ++ b2) ++ rest))
                 (map fst vs)). exact Hlen. }
    revert pre Hs. change (reads (_ <- advance (if v_default v then 0 else lenN (variant_bytes v)) ;; match modifiers (v_attr v) en with
             | None => panic
             | Some prev =>
                 _ <- dec_offset (f_offset (v_attr v)) en ;;
                 ys <- dec_fields dec (negb (v_named v)) (k_vars ca) fs (own_cattr (e_c e)) prev [] ;;
                 ret (VVariant (0 + i) ys)
             end) (literal v ++ padding (v_attr v) en ++ b2) rest (VVariant i xs)).
    eapply reads_bind; [|apply Hbody; reflexivity].
    replace (if v_default v then 0 else lenN (variant_bytes v)) with (lenN (literal v)); [apply advance_reads|].
    destruct (v_default v); [|reflexivity]. cbn [negb orb] in Hdef. destruct (literal v); [reflexivity|discriminate].
  - (* a literal in front, left in place *)
    apply is_index_eq in HT. unfold tag_wire in Ha. rewrite Eb in Ha. injection Ha as <-. cbn [app] in *.
    intros pre Hs. rewrite remaining_app.
    rewrite (dec_arms_first dec
               (fun v' _ => v_default v' || starts_with (variant_bytes v') ((padding (v_attr v) en ++ b2) ++ rest)) 
               (fun v => 0) Fail (own_cattr (e_c e)) (k_vars ca) vs 0 0 i v fs En).
    2:{ rewrite <- HT. 
        apply (first_such_combine (fun u => v_default u || starts_with (variant_bytes u) ((padding (v_attr v) en ++ b2) ++ rest))
                 (map fst vs)). exact Hlen. }
    revert pre Hs. change (reads (_ <- advance 0 ;; match modifiers (v_attr v) en with
             | None => panic
             | Some prev =>
                 _ <- dec_offset (f_offset (v_attr v)) en ;;
                 ys <- dec_fields dec (negb (v_named v)) (k_vars ca) fs (own_cattr (e_c e)) prev [] ;;
                 ret (VVariant (0 + i) ys)
             end) (padding (v_attr v) en ++ b2) rest (VVariant i xs)).
    apply reads_after with tt; [apply (advance_reads [])|]. apply Hbody. reflexivity.
  - (* a literal of known size *)
    apply andb_true_iff in HT as [Hsz HT]. apply is_index_eq in HT. apply N.eqb_eq in Hsz. subst m.
    unfold tag_wire in Ha. rewrite Eb in Ha. injection Ha as <-.
    eapply reads_bind; [apply take_bytes_reads|]. cbv beta.
    rewrite (dec_arms_first dec (fun u _ => v_default u || bytes_eqb (literal v) (variant_bytes u)) (fun _ => 0) InvalidByteLength
               (own_cattr (e_c e)) (k_vars ca) vs 0 0 i v fs En).
    2:{ rewrite <- HT.
        apply (first_such_combine (fun u => v_default u || bytes_eqb (literal v) (variant_bytes u)) (map fst vs)). exact Hlen. }
    apply reads_after with tt; [apply (advance_reads [])|]. apply Hbody. reflexivity.
Qed.

(** ** All types *)
Lemma D_leaf t : leaf t = true -> D t.
Proof.
  intros Hl ca fa v w rest Hwf Hw HF. destruct t; try discriminate; cbn [dec].
  - destruct v; try discriminate. apply (reads_map _ VInt). eapply dec_int_reads; eassumption.
  - destruct v; try discriminate. cbn in Hw. injection Hw as <-. apply (reads_map _ VBool).
    pose proof (byte_reads (fun x => negb (b2n x =? 0)) (if b then x01 else x00) rest) as H.
    destruct b; exact H.
  - destruct v; try discriminate. cbn in Hw. injection Hw as <-. apply (reads_map _ VChar).
    cbn in HF. apply N.ltb_lt in HF.
    pose proof (byte_reads b2n (byte_of c) rest) as H. rewrite b2n_byte_of, N.mod_small in H by exact HF. exact H.
  - destruct v; try discriminate. cbn [wire] in Hw. injection Hw as <-. apply (reads_map _ VFloat).
    cbn in HF. apply N.ltb_lt in HF.
    pose proof (take_fixed_reads (order_for ca fa) 4 bits rest) as H. rewrite N.mod_small in H by exact HF.
    rewrite order_for_get1 in *. exact H.
  - destruct v; try discriminate. cbn [wire] in Hw. injection Hw as <-. apply (reads_map _ VFloat).
    cbn in HF. apply N.ltb_lt in HF.
    pose proof (take_fixed_reads (order_for ca fa) 8 bits rest) as H. rewrite N.mod_small in H by exact HF.
    rewrite order_for_get1 in *. exact H.
  - destruct v; try discriminate. apply (reads_map _ VBytes). eapply dec_raw_reads; eassumption.
  - destruct v; try discriminate. apply (reads_map _ VBytes). cbn in HF. apply andb_true_iff in HF as [HU HF].
    eapply dec_string_reads; eassumption.
  - destruct v; try discriminate. cbn [wire] in Hw. destruct (N.eqb_spec (size l) 6); [|discriminate]. injection Hw as <-.
    apply (reads_map _ VBytes). apply dec_mac_reads; assumption.
  - destruct v; try discriminate. cbn [wire] in Hw. destruct (N.eqb_spec (size l) 4); [|discriminate]. injection Hw as <-.
    apply (reads_map _ VBytes). apply (dec_ip_reads U32 4); auto.
  - destruct v; try discriminate. cbn [wire] in Hw. destruct (N.eqb_spec (size l) 16); [|discriminate]. injection Hw as <-.
    apply (reads_map _ VBytes). apply (dec_ip_reads U128 16); auto.
  - destruct v; try discriminate. cbn [wire] in Hw. cbn [fits] in HF. unfold dec_ipaddr.
    destruct i as [|[|i]]; [| |discriminate]; (destruct fs as [|[] []]; try discriminate);
      (destruct (a_length fa) as [n|]; [|discriminate]); apply N.eqb_eq in HF; subst n; cbn [N.eqb Pos.eqb].
    + destruct (N.eqb_spec (size l) 4); [|discriminate]. injection Hw as <-.
      apply (reads_map _ (fun x => VVariant 0 [VBytes x])). apply (dec_ip_reads U32 4); auto.
    + destruct (N.eqb_spec (size l) 16); [|discriminate]. injection Hw as <-.
      apply (reads_map _ (fun x => VVariant 1 [VBytes x])). apply (dec_ip_reads U128 16); auto.
  - destruct v; try discriminate. cbn [wire] in Hw. cbn [fits] in HF. unfold dec_netaddr.
    destruct i as [|[|[|[|i]]]]; [| | | |discriminate]; (destruct fs as [|[] []]; try discriminate);
      (destruct (a_length fa) as [n|] eqn:El; [|discriminate]).
    + apply N.eqb_eq in HF; subst n; cbn [N.eqb Pos.eqb].
      destruct (N.eqb_spec (size l) 4); [|discriminate]. injection Hw as <-.
      apply (reads_map _ (fun x => VVariant 0 [VBytes x])). apply (dec_ip_reads U32 4); auto.
    + apply N.eqb_eq in HF; subst n; cbn [N.eqb Pos.eqb].
      destruct (N.eqb_spec (size l) 16); [|discriminate]. injection Hw as <-.
      apply (reads_map _ (fun x => VVariant 1 [VBytes x])). apply (dec_ip_reads U128 16); auto.
    + apply N.eqb_eq in HF; subst n; cbn [N.eqb Pos.eqb].
      destruct (N.eqb_spec (size l) 6); [|discriminate]. injection Hw as <-.
      apply (reads_map _ (fun x => VVariant 2 [VBytes x])). apply dec_mac_reads; assumption.
    + apply andb_true_iff in HF as [Hn HF]. apply negb_true_iff in Hn.
      apply orb_false_iff in Hn as [Hn E16]. apply orb_false_iff in Hn as [Hn E6]. apply orb_false_iff in Hn as [E0 E4].
      rewrite E0, E4, E6, E16. apply (reads_map _ (fun x => VVariant 3 [VInt x])). eapply dec_int_reads; eassumption.
  - destruct v; try discriminate. injection Hw as <-. apply reads_ret.
  - apply reads_as_reads. exact (kf_read _ _ _ Hwf ca fa v w rest Hw HF).
Qed.

Lemma zip_reads ts ca fa : Forall D ts -> every (fun p : Prop => p) (map well_formed ts) -> forall l w rest,
  zip_wire (fun w x => w x) (map (fun t1 => wire t1 ca fa) ts) l = Some w ->
  zip_fit (fun wf x => fst wf x) (fun wf x => snd wf x) (map (fun t1 => (wire t1 ca fa, fits t1 ca fa)) ts) l rest = true ->
  reads (dec_seq (map (fun t1 => dec t1 ca fa) ts)) w rest l.
Proof.
  assert (Hz : forall ts l, zip_wire (fun (wf : (val -> option bytes) * (val -> bytes -> bool)) x => fst wf x) (map (fun t1 => (wire t1 ca fa, fits t1 ca fa)) ts) l
    = zip_wire (fun w x => w x) (map (fun t1 => wire t1 ca fa) ts) l).
  { induction ts0 as [|t ts0 IH]; intros [|x l]; try reflexivity. cbn [map zip_wire fst]. rewrite IH. reflexivity. }
  induction 1 as [|t ts Ht _ IH]; intros Hwf l w rest Hw HF; destruct l as [|x l]; try discriminate.
  - injection Hw as <-. apply reads_ret.
  - cbn [map every] in Hwf. destruct Hwf as [Hw1 Hw2].
    cbn [map zip_wire] in Hw. cbn [map zip_fit fst snd] in HF. rewrite Hz in HF. 
    destruct (and_then_some _ _ _ Hw) as (a & b & Ha & Hb & ->). rewrite Hb in HF. cbn [optional] in HF.
    apply andb_true_iff in HF as [HF1 HF2]. cbn [map dec_seq].
    eapply reads_bind; [eapply Ht; eassumption|]. apply (reads_map _ (cons x)). apply IH; assumption.
Qed.

Theorem dec_reads_wire t : D t.
Proof.
  induction t using ty_nested_ind.
  - apply D_leaf; assumption.
  - (* arrays *)
    intros ca fa v w rest Hwf Hw HF. destruct v; try discriminate. cbn [wire] in Hw. cbn [fits] in HF. cbn [dec].
    destruct (Nat.eqb_spec (length l) n) as [<-|]; [|discriminate]. apply (reads_map _ VList).
    rewrite <- (map_id l) at 2. eapply dec_n_reads with (val := fun x => x); [|exact Hw|exact HF].
    intros x a r Ha Hf. eapply IHt; eassumption.
  - (* tuples *)
    intros ca fa v w rest Hwf Hw HF. destruct v; try discriminate. cbn [wire] in Hw. cbn [fits] in HF. cbn [dec].
    apply (reads_map _ VList). eapply zip_reads; eassumption.
  - (* vectors *)
    intros ca fa v w rest Hwf Hw HF. destruct v; try discriminate. cbn [wire] in Hw. cbn [fits] in HF. cbn [dec].
    destruct (a_loop fa) as [m|].
    + apply andb_true_iff in HF as [HF HF2]. apply andb_true_iff in HF as [Hm Hr]. apply negb_true_iff in Hr.
      apply (reads_map _ VList). intros pre Hs.
      rewrite <- (map_id l). eapply loop_reads with (val := fun x => x); [|exact Hr| |exact Hw|exact HF2|exact Hs].
      * intros x a r Ha Hf. eapply IHt; eassumption.
      * pose proof (loop_count _ _ _ _ Hm Hw). rewrite !app_length. lia.
    + apply andb_true_iff in HF as [HF HF2]. destruct (and_then_some _ _ _ Hw) as (a & b & Ha & Hb & ->).
      apply (reads_map _ VList). rewrite <- (map_id l).
      eapply counted_reads with (val := fun x => x); [| |exact Ha|exact HF|exact Hb|exact HF2].
      * intros x a' r Ha' Hf. eapply IHt; eassumption.
      * intros Hst. apply andb_true_iff in Hst as [Hr Hh]. split; [destruct rest; [reflexivity|discriminate]|].
        apply hungry_starves; assumption.
  - (* sets *)
    intros ca fa v w rest Hwf Hw. destruct v; discriminate.
  - (* maps *)
    intros ca fa v w rest Hwf Hw HF. destruct v; try discriminate. cbn [wire] in Hw. cbn [fits] in HF. cbn [dec].
    destruct Hwf as [Hw1 Hw2].
    apply andb_true_iff in HF as [HF HF2]. apply andb_true_iff in HF as [HF Hdis].
    destruct (and_then_some _ _ _ Hw) as (a & b & Ha & Hb & ->).
    pose proof (map_rebuilt l [] Hdis) as Hm. cbn [app] in Hm.
    apply (reads_map_eq _ (fun l => VMap (fold_left (fun m kv => map_insert (fst kv) (snd kv) m) l []))) with l;
      [|rewrite Hm; reflexivity].
    rewrite <- (map_id l).
    eapply counted_reads with (val := fun x => x); [| |exact Ha|exact HF|exact Hb|exact HF2].
    + intros [k x] ab r Hab Hf. cbn [fst snd] in Hab, Hf. destruct (and_then_some _ _ _ Hab) as (c & d & Hc & Hd & ->).
      rewrite Hd in Hf. cbn [optional] in Hf. apply andb_true_iff in Hf as [Hf1 Hf2].
      eapply reads_bind; [eapply IHt1; eassumption|]. apply (reads_map _ (pair k)). eapply IHt2; eassumption.
    + intros Hst. apply andb_true_iff in Hst as [Hr Hh]. split; [destruct rest; [reflexivity|discriminate]|].
      apply starves_bind, hungry_starves; assumption.
  - (* options *)
    intros ca fa v w rest Hwf Hw HF. destruct v; try discriminate. cbn [fits] in HF.
    assert (HN : forall pre, small (pre ++ w ++ rest) -> match o with None => is_nil rest && hungry t ca fa | Some x => fits t ca fa x rest end = true ->
      match dec t ca fa (pre ++ w ++ rest) (lenN pre) with
             | Ok v p' => Ok (VOpt (Some v)) p'
             | Err _ p' => Ok (VOpt None) p'
             | Panic => Panic
             | Hang => Hang
             end = Ok (VOpt o) (lenN pre + lenN w)).
    { intros pre Hs HF'. destruct o as [x|]; cbn [wire] in Hw.
      - rewrite (IHt ca fa x w rest Hwf Hw HF' pre Hs). reflexivity.
      - injection Hw as <-. apply andb_true_iff in HF' as [Hr Hh]. destruct rest; [|discriminate].
        cbn [app] in *. rewrite app_nil_r in *. destruct (hungry_starves t Hwf ca fa Hh pre Hs) as [e ->].
        rewrite lenN_nil, N.add_0_r. reflexivity. }
    intros pre Hs. cbn [dec]. destruct (a_length fa) as [[|n]|].
    + destruct o; [discriminate|]. cbn in Hw. injection Hw as <-. rewrite lenN_nil, N.add_0_r. reflexivity.
    + apply HN; [exact Hs|]. destruct o; exact HF.
    + apply HN; [exact Hs|]. destruct o; exact HF.
  - (* structs *)
    intros ca fa v w rest [Hwf1 Hwf2] Hw HF. destruct v; try discriminate. cbn [wire] in Hw. cbn [fits] in HF. cbn [dec].
    apply (reads_map _ VList). change l with ([] ++ l).
    eapply fields_read with (group := None) (word := None) (clear := true); try eassumption.
    + intros Hn. split; [apply Hwf1, Hn|reflexivity].
    + reflexivity.
  - apply D_enum; assumption.
Qed.
