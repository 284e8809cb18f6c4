(** The decoder keeps its position inside the data and, on safe schemas, always
    returns. *)
From Verif Require Import Base Ints Spec SpecOps Reader BaseLemmas ReaderLemmas ReaderHist.
From Verif Require Import Schema Utf8 Decode Encode WireSpec CodecBase SafetySpec.

Definition tame {A} (strict : bool) (m : rd A) : Prop :=
  forall d p, small d -> p <= lenN d ->
  match m d p with
  | Ok _ q | Err _ q => p <= q <= lenN d
  | Panic | Hang => strict = false
  end.

Section Tame.
Variable s : bool.

Lemma tame_wb {A} (m : rd A) : well_behaved m -> tame s m.
Proof.
  intros H d p Hs Hp. destruct (H d p Hs Hp) as [(v & q & -> & Hq)|(e & -> & _)]; lia.
Qed.
Lemma tame_ret {A} (a : A) : tame s (ret a).
Proof. intros d p Hs Hp. cbn. lia. Qed.
Lemma tame_fail {A} k : tame s (@fail A k).
Proof. intros d p Hs Hp. cbn. lia. Qed.
Lemma tame_panic {A} : s = false -> tame s (@panic A).
Proof. intros H d p Hs Hp. exact H. Qed.
Lemma tame_bind {A B} (m : rd A) (k : A -> rd B) : tame s m -> (forall a, tame s (k a)) -> tame s (bind m k).
Proof.
  intros Hm Hk d p Hs Hp. unfold bind. specialize (Hm d p Hs Hp).
  destruct (m d p) as [a q|e q| |]; try exact Hm.
  specialize (Hk a d q Hs ltac:(lia)). destruct (k a d q); try exact Hk; lia.
Qed.
Lemma tame_map {A B} (m : rd A) (f : A -> B) : tame s m -> tame s (x <- m ;; ret (f x)).
Proof. intros H. apply tame_bind; [exact H|intros; apply tame_ret]. Qed.
Lemma tame_ext {A} (m m' : rd A) : (forall d p, m d p = m' d p) -> tame s m' -> tame s m.
Proof. intros H Hm d p Hs Hp. rewrite H. apply Hm; assumption. Qed.

Lemma tame_dec_n {A} n (d : rd A) : tame s d -> tame s (dec_n n d).
Proof.
  intros H. induction n as [|n IH]; [apply tame_ret|].
  cbn [dec_n]. apply tame_bind; [exact H|]. intros x. apply tame_map. exact IH.
Qed.
Lemma tame_dec_try {A} n (d : rd A) : tame s d -> tame s (dec_try n d).
Proof.
  intros H. induction n as [|n IH]; [apply tame_ret|].
  intros dt p Hs Hp. cbn [dec_try]. specialize (H dt p Hs Hp).
  destruct (d dt p) as [a q|e q| |]; try exact H.
  pose proof (tame_map _ (fun xs => a :: xs) IH dt q Hs ltac:(lia)) as T.
  destruct ((xs <- dec_try n d;; ret (a :: xs)) dt q); try exact T; lia.
Qed.
Lemma starts_moves m dt p : small dt -> p <= lenN dt -> m <> [] ->
  match take_bytes_starts m dt p with
  | Ok _ q => p < q <= lenN dt | Err _ q => q = p | _ => False
  end.
Proof.
  intros Hs Hp Hm.
  destruct (wb_starts m dt p Hs Hp) as [(v & q & E & Hq)|(e & E & _)]; rewrite E; [|reflexivity].
  unfold take_bytes_starts in E.
  destruct (remaining_len dt p <? lenN m) eqn:L; [discriminate|].
  destruct (starts_with m (remaining dt p)); [|discriminate]. injection E as <- <-.
  assert (0 < lenN m) by (destruct m; [congruence|rewrite lenN_cons; lia]).
  apply N.ltb_ge in L. rewrite remaining_len_eq in L. unfold small in Hs.
  rewrite wadd_small in * by lia. lia.
Qed.
Lemma tame_dec_loop {A} m (d : rd A) : (s = true -> m <> []) -> tame s d ->
  forall fuel dt p, small dt -> p <= lenN dt -> (s = true -> lenN dt - p < N.of_nat fuel) ->
  match dec_loop fuel m d dt p with
  | Ok _ q | Err _ q => p <= q <= lenN dt
  | Panic | Hang => s = false
  end.
Proof.
  intros Hm Hd fuel. induction fuel as [|fuel IH]; intros dt p Hs Hp Hf.
  - cbn. destruct s; [|reflexivity]. specialize (Hf eq_refl). lia.
  - cbn [dec_loop].
    assert (W : match take_bytes_starts m dt p with
                | Ok _ q => p <= q <= lenN dt /\ (s = true -> p < q) | Err _ q => q = p | _ => False
                end).
    { destruct s.
      - pose proof (starts_moves m dt p Hs Hp (Hm eq_refl)) as Q.
        destruct (take_bytes_starts m dt p); auto; split; lia.
      - destruct (wb_starts m dt p Hs Hp) as [(v & q & -> & Hq)|(e & -> & _)]; [|reflexivity].
        split; [lia|discriminate]. }
    destruct (take_bytes_starts m dt p) as [u q|e q| |]; [|subst; lia|contradiction|contradiction].
    destruct W as [W1 W2]. unfold bind at 1.
    specialize (Hd dt q Hs ltac:(lia)).
    destruct (d dt q) as [a q'|e q'| |]; try exact Hd; [|lia].
    unfold bind, ret.
    specialize (IH dt q' Hs ltac:(lia)).
    assert (IH' : match dec_loop fuel m d dt q' with
      | Ok _ q0 | Err _ q0 => q' <= q0 <= lenN dt | _ => s = false end).
    { apply IH. intros E. specialize (W2 E). specialize (Hf E). lia. }
    destruct (dec_loop fuel m d dt q'); try exact IH'; lia.
Qed.
Lemma tame_dec_seq ds : Forall (tame s) ds -> tame s (dec_seq ds).
Proof.
  induction 1 as [|d r Hd Hr IH]; [apply tame_ret|].
  cbn [dec_seq]. apply tame_bind; [exact Hd|]. intros x. apply tame_map. exact IH.
Qed.

Lemma tame_u8 : tame s take_u8.
Proof. apply tame_wb. apply (wb_idx b2n). left; reflexivity. Qed.
Lemma tame_bytes n : tame s (take_bytes n).
Proof. apply tame_wb, wb_take_bytes. Qed.
Lemma tame_fixed bo n : tame s (take_fixed bo n).
Proof. apply tame_map, tame_bytes. Qed.
Lemma tame_int k t : tame s (take_int k t).
Proof. destruct t; apply tame_map; first [apply tame_u8|apply tame_fixed]. Qed.
Lemma tame_uint bo n : (s = true -> bo = Be \/ n <= 8) -> tame s (take_uint (KOrder bo) n).
Proof.
  intros H. unfold take_uint, take_n, order_of. destruct bo.
  - unfold take_n_be. destruct (8 <? n); [apply tame_fail|apply tame_map, tame_bytes].
  - unfold take_n_le. destruct (8 <? n) eqn:E; [|apply tame_map, tame_bytes].
    apply tame_panic. destruct s; [|reflexivity].
    destruct (H eq_refl); [discriminate|]. apply N.ltb_lt in E. lia.
Qed.
Lemma tame_skip_to k : tame s (skip_to k).
Proof.
  destruct k; [|apply tame_ret]. apply tame_bind; [|intros; apply tame_ret].
  apply tame_wb, wb_find_needle.
Qed.

(** What the leaves ask for. *)
Definition fine (t : ty) (ca : cattr) (fa : fattr) : Prop := s = true -> moderate t ca fa.

Lemma fine_sub t t1 ca fa : (wide_ints t1 = true -> wide_ints t = true) -> fine t ca fa -> fine t1 ca fa.
Proof. intros H F E. destruct (F E) as [L [B|(B1 & B2 & B3)]]; split; auto 6. Qed.
Lemma fine_no_fattr t ca : fine t ca no_fattr.
Proof. intros _. split; [discriminate|]. right. cbn. auto. Qed.
Lemma fine_order t ca ca' fa : k_order ca = k_order ca' -> fine t ca fa -> fine t ca' fa.
Proof. intros H F E. destruct (F E) as [L B]. split; [exact L|]. unfold order_for in *. rewrite <- H. exact B. Qed.
Lemma fine_key t1 t ca fa : (wide_ints t1 = true -> wide_ints t = true) -> fine t ca fa -> fine t1 ca (key_fattr fa).
Proof.
  intros H F. unfold key_fattr. destruct (a_split fa); [|exact (fine_sub _ _ _ _ H F)].
  intros _. split; [discriminate|]. right. cbn. auto.
Qed.
Lemma fine_value t1 t ca fa : (wide_ints t1 = true -> wide_ints t = true) -> fine t ca fa -> fine t1 ca (value_fattr fa).
Proof.
  intros H F. unfold value_fattr. destruct (a_linend_value fa).
  - intros _. split; [discriminate|]. right. cbn. auto.
  - destruct (a_linend fa); [|exact (fine_sub _ _ _ _ H F)].
    intros _. split; [discriminate|]. right. cbn. auto.
Qed.

Lemma order_for_get2 ca fa : order_for ca fa = get_byteorder ca fa.
Proof. unfold order_for, get_byteorder. destruct (a_order fa), (k_order ca); reflexivity. Qed.

Lemma tame_dec_int it ca fa : fine (TInt it) ca fa -> tame s (dec_int it ca fa).
Proof.
  intros F. unfold dec_int. apply tame_bind; [|intros; apply tame_ret].
  destruct (a_length fa) as [l|] eqn:L; [|apply tame_int].
  destruct (sizeN it <? l) eqn:E; [apply tame_fail|]. apply tame_map.
  unfold ko. rewrite <- order_for_get2. apply tame_uint. intros S.
  destruct (F S) as [_ [B|(_ & _ & B)]]; [left; exact B|right].
  apply N.ltb_ge in E. rewrite L in B. rewrite <- width_sizeN in E. destruct it; cbn [width_bytes wide_ints at_most_8] in *; try lia; apply B; reflexivity.
Qed.
Lemma tame_dec_raw t ca fa : fine t ca fa -> tame s (dec_raw ca fa).
Proof.
  intros F. unfold dec_raw. apply tame_bind; [apply tame_skip_to|intros _].
  apply tame_bind; [apply tame_skip_to|intros _].
  destruct (a_length fa); [apply tame_bytes|].
  destruct (a_byte_count fa) as [n|] eqn:B.
  { apply tame_bind; [|intros; apply tame_bytes]. unfold ko. rewrite <- order_for_get2.
    apply tame_uint. intros S. destruct (F S) as [_ [Q|(Q & _)]]; [left; exact Q|right].
    rewrite B in Q. exact Q. }
  destruct (a_linend fa); [apply tame_wb, wb_finds|].
  destruct (a_linend_value fa); [apply tame_wb, wb_find|].
  destruct (a_remaining fa).
  - intros d p Hs Hp. apply tame_bytes; assumption.
  - apply tame_bind; [apply tame_u8|intros; apply tame_bytes].
Qed.
Lemma tame_dec_string t ca fa : fine t ca fa -> tame s (dec_string ca fa).
Proof.
  intros F. unfold dec_string. apply tame_bind; [exact (tame_dec_raw t ca fa F)|].
  intros l. destruct (utf8_ok l); [apply tame_ret|apply tame_fail].
Qed.
Lemma tame_mac ca fa : tame s (dec_mac ca fa).
Proof. apply tame_map. apply tame_uint. intros _. right. lia. Qed.
Lemma tame_ipv4 ca fa : tame s (dec_ipv4 ca fa).
Proof. apply tame_map, tame_int. Qed.
Lemma tame_ipv6 ca fa : tame s (dec_ipv6 ca fa).
Proof. apply tame_map, tame_int. Qed.
Lemma tame_ipaddr ca fa : tame s (dec_ipaddr ca fa).
Proof.
  unfold dec_ipaddr. destruct (a_length fa) as [l|]; [|apply tame_fail].
  destruct (l =? 16); [apply tame_map, tame_ipv6|].
  destruct (l =? 4); [apply tame_map, tame_ipv4|apply tame_fail].
Qed.
Lemma tame_netaddr t ca fa : fine t ca fa -> tame s (dec_netaddr ca fa).
Proof.
  intros F. unfold dec_netaddr. destruct (a_length fa) as [l|] eqn:L; [|apply tame_fail].
  destruct (l =? 0); [apply tame_fail|].
  destruct (l =? 4); [apply tame_map, tame_ipv4|].
  destruct (l =? 6); [apply tame_map, tame_mac|].
  destruct (l =? 16); [apply tame_map, tame_ipv6|].
  apply tame_map. apply tame_dec_int. apply (fine_sub t); [discriminate|exact F].
Qed.
Lemma tame_counted {A} t ca fa (d : rd A) : fine t ca fa -> tame s d -> tame s (dec_counted ca fa d).
Proof.
  intros F Hd. unfold dec_counted. apply tame_bind.
  - unfold get_count_and_try_count. destruct (a_count fa); [apply tame_ret|].
    destruct (a_try_count fa); [apply tame_ret|].
    destruct (a_byte_count_outside fa) as [n|] eqn:B; [|apply tame_map, tame_u8].
    apply tame_map. unfold ko. rewrite <- order_for_get2.
    apply tame_uint. intros S. destruct (F S) as [_ [Q|(_ & Q & _)]]; [left; exact Q|right].
    rewrite B in Q. exact Q.
  - intros [c o]. cbn. destruct o; [apply tame_dec_try, Hd|apply tame_dec_n, Hd].
Qed.

Lemma tame_field (d : cattr -> fattr -> rd val) f ca fa en t : f_offset f = None ->
  (forall g, f_with_decode f = Some g -> forall en ca fa, tame s (g en ca fa)) ->
  fine t ca fa -> tame s (d ca fa) -> tame s (dec_field d f ca fa en).
Proof.
  intros Ho Hu F Hd. unfold dec_field, dec_offset. rewrite Ho. cbn [eval_opt option_map].
  apply tame_bind; [apply tame_ret|intros _].
  destruct (f_with_decode f) as [g|]; [apply Hu; reflexivity|].
  destruct (f_skip_decode f); [apply tame_ret|].
  destruct (f_from_str f) as [[parse show]|].
  { apply tame_bind; [exact (tame_dec_string t ca fa F)|].
    intros l. destruct (parse l); [apply tame_ret|apply tame_fail]. }
  intros dt p Hs Hp. unfold bind at 1, get_position.
  set (inner_d := match f_if f with Some c => if c en then d ca fa else ret (VOpt None) | None => d ca fa end).
  assert (Hi : tame s inner_d).
  { unfold inner_d. destruct (f_if f) as [c|]; [destruct (c en)|]; auto using @tame_ret. }
  unfold bind at 1. specialize (Hi dt p Hs Hp).
  destruct (inner_d dt p) as [v q|e q| |]; try exact Hi.
  destruct (f_untake f); unfold bind, set_position, ret, fail;
    destruct (f_check f) as [c|]; try (destruct (val_eqb _ _)); lia.
Qed.

Lemma fields_tame fs inherit vars c0 : 
  Forall (fun ft => forall ca fa, fine (snd ft) ca fa -> tame s (dec (snd ft) ca fa)) fs ->
  Forall (fun ft : fspec * ty => forall g, f_with_decode (fst ft) = Some g -> forall en ca fa, tame s (g en ca fa)) fs ->
  forallb (fun ft : fspec * ty => no_offset (fst ft)) fs = true ->
  forall earlier, (s = true -> moderate_fields (fun _ => True) inherit c0 earlier fs) ->
  forall ca prev done, k_order ca = k_order c0 ->
  (s = true -> inherit = true -> prev = no_fattr \/
     exists g en, In g earlier /\ modifiers g en = Some prev) ->
  tame s (dec_fields dec inherit vars fs ca prev done).
Proof.
  induction fs as [|[f t] r IH]; intros HF HU Ho earlier HM ca prev done HK Hprev.
  - cbn [dec_fields]. apply tame_ret.
  - inversion HF as [|? ? Ht HF']; subst. inversion HU as [|? ? Hu HU']; subst.
    cbn [forallb] in Ho. apply andb_prop in Ho. destruct Ho as [Ho1 Ho]. cbn [fst] in Ho1.
    unfold no_offset in Ho1. destruct (f_offset f) eqn:Eo; [discriminate|].
    cbn [dec_fields]. destruct (modifiers f (mkenv done vars)) as [own|] eqn:Em.
    2:{ apply tame_panic. destruct s; [|reflexivity]. exfalso.
        destruct (HM eq_refl) as (_ & Hno & _). exact (Hno _ Em). }
    set (fa := if inherit && negb (f_use f) then prev else own).
    assert (Hfine : fine t ca fa).
    { apply (fine_order t c0); [congruence|]. intros S. destruct (HM S) as (_ & _ & Hmod & _).
      unfold fa. destruct (inherit && negb (f_use f)) eqn:Ei.
      - apply andb_prop in Ei. destruct Ei as [Ei1 Ei2]. apply negb_true_iff in Ei2.
        destruct (Hprev S Ei1) as [->|(g & en & Hin & Hg)].
        + exact (fine_no_fattr t c0 S).
        + apply (Hmod g en); [right; auto|exact Hg].
      - apply (Hmod f (mkenv done vars)); auto. }
    apply tame_bind.
    + exact (tame_field (dec t) f ca fa _ t Eo Hu Hfine (Ht ca fa Hfine)).
    + intros v. apply (IH HF' HU' Ho (f :: earlier)).
      * intros S. apply HM; exact S.
      * exact HK.
      * intros S Hi. unfold fa. destruct (inherit && negb (f_use f)).
        -- destruct (Hprev S Hi) as [->|(g & en & Hin & Hg)]; [left; reflexivity|right].
           exists g, en. split; [right; exact Hin|exact Hg].
        -- right. exists f, (mkenv done vars). split; [left; reflexivity|exact Em].
Qed.
End Tame.

(** ** All types *)
Definition T (s : bool) (t : ty) : Prop := offset_free t = true -> each_decoder (tame s) t -> (s = true -> safe t) ->
  forall ca fa, fine s t ca fa -> tame s (dec t ca fa).

Lemma moderate_fields_T tuple ca ok fs : forall earlier, moderate_fields ok tuple ca earlier fs ->
  moderate_fields (fun _ => True) tuple ca earlier fs /\ Forall (fun ft => ok (snd ft)) fs.
Proof.
  induction fs as [|[f t] r IH]; intros earlier H; [split; constructor|].
  destruct H as (H1 & H2 & H3 & H4). destruct (IH _ H4) as [I1 I2].
  split; [split; [exact Coq.Init.Logic.I|auto]|constructor; assumption].
Qed.

Lemma offset_free_fields_inv ok fs : offset_free_fields ok fs = true ->
  forallb (fun ft : fspec * ty => no_offset (fst ft)) fs = true /\ Forall (fun ft => ok (snd ft) = true) fs.
Proof.
  induction fs as [|[f t] r IH]; [split; [reflexivity|constructor]|].
  unfold offset_free_fields. cbn [forallb fst snd]. intros H.
  apply andb_prop in H. destruct H as [H1 H2]. apply andb_prop in H1. destruct H1 as [H0 H1].
  destruct (IH H2) as [I1 I2]. split; [rewrite H0; exact I1|constructor; assumption].
Qed.

Definition with_fine (ok : rd val -> Prop) (ft : fspec * ty) : Prop :=
  (forall d, f_with_decode (fst ft) = Some d -> forall en ca fa, ok (d en ca fa)) /\ each_decoder ok (snd ft).
Lemma with_fine_all (ok : rd val -> Prop) fs : every (fun ft : fspec * ty => let (f, t1) := ft in
    (forall d, f_with_decode f = Some d -> forall en ca fa, ok (d en ca fa)) /\ each_decoder ok t1) fs ->
  Forall (with_fine ok) fs.
Proof. induction fs as [|[f t] fs IH]; intros H; constructor; [exact (proj1 H)|apply IH, H]. Qed.
Lemma each_decoder_in ok ts t : every (fun p : Prop => p) (map (each_decoder ok) ts) -> In t ts -> each_decoder ok t.
Proof.
  induction ts as [|a r IH]; intros H Hin; [contradiction|]. destruct Hin as [->|Hin]; [exact (proj1 H)|].
  exact (IH (proj2 H) Hin).
Qed.

Lemma each_decoder_impl (p q : rd val -> Prop) : (forall m, p m -> q m) -> forall t, each_decoder p t -> each_decoder q t.
Proof.
  intros HI t. assert (F : forall fs, Forall (fun ft : fspec * ty => each_decoder p (snd ft) -> each_decoder q (snd ft)) fs ->
    every (fun ft : fspec * ty => let (f, t1) := ft in
      (forall d, f_with_decode f = Some d -> forall en ca fa, p (d en ca fa)) /\ each_decoder p t1) fs ->
    every (fun ft : fspec * ty => let (f, t1) := ft in
      (forall d, f_with_decode f = Some d -> forall en ca fa, q (d en ca fa)) /\ each_decoder q t1) fs).
  { induction 1 as [|[f t0] r Ht _ IH]; intros H; [exact H|]. destruct H as [[H1 H2] H3].
    split; [split; [intros; apply HI; eapply H1; eassumption|exact (Ht H2)]|exact (IH H3)]. }
  induction t as [t Hl|n t IH|ts IH|t IH|t IH|k v IHk IHv|t IH|named c fs IH|e vs IH] using ty_nested_ind; intros H;
    try exact (IH H).
  - destruct t; try discriminate Hl; try exact H. intros ca fa. apply HI, H.
  - cbn [each_decoder] in *. induction IH as [|t0 r Ht _ IHr]; [exact H|].
    split; [exact (Ht (proj1 H))|exact (IHr (proj2 H))].
  - split; [exact (IHk (proj1 H))|exact (IHv (proj2 H))].
  - exact (F fs IH H).
  - cbn [each_decoder] in *. induction IH as [|[v fs] r Ht _ IHr]; [exact H|].
    split; [exact (F fs Ht (proj1 H))|exact (IHr (proj2 H))].
Qed.
Lemma no_code_each t : no_code t = true -> forall ok ty_of oke, each_decoder ok t /\ each_encoder ty_of oke t.
Proof.
  intros H ok ty_of oke. revert H.
  assert (F : forall fs, Forall (fun ft : fspec * ty => no_code (snd ft) = true ->
      each_decoder ok (snd ft) /\ each_encoder ty_of oke (snd ft)) fs ->
    forallb (fun ft : fspec * ty => let (f, t1) := ft in
      match f_with_decode f, f_with_encode f with None, None => no_code t1 | _, _ => false end) fs = true ->
    every (fun ft : fspec * ty => let (f, t1) := ft in
      (forall d, f_with_decode f = Some d -> forall en ca fa, ok (d en ca fa)) /\ each_decoder ok t1) fs /\
    every (fun ft : fspec * ty => let (f, t1) := ft in
      (forall e, f_with_encode f = Some e -> forall en ca fa v, ty_of t1 v -> oke (e en ca fa v))
      /\ each_encoder ty_of oke t1) fs).
  { induction 1 as [|[f t0] r Ht _ IH]; intros H; [split; exact Coq.Init.Logic.I|].
    cbn [forallb] in H. apply andb_true_iff in H as [H H2]. cbn [snd] in Ht. destruct (IH H2).
    destruct (f_with_decode f) eqn:E1; [discriminate|]. destruct (f_with_encode f) eqn:E2; [discriminate|].
    destruct (Ht H). split; (split; [split; [intros x Ex; congruence|assumption]|assumption]). }
  induction t as [t Hl|n t IH|ts IH|t IH|t IH|k v IHk IHv|t IH|named c fs IH|e vs IH] using ty_nested_ind; intros H;
    try exact (IH H).
  - destruct t; try discriminate Hl; try discriminate H; split; exact Coq.Init.Logic.I.
  - cbn [each_decoder each_encoder no_code] in *. induction IH as [|t0 r Ht _ IHr]; [split; exact Coq.Init.Logic.I|].
    cbn [forallb] in H. apply andb_true_iff in H as [H1 H2]. destruct (IHr H2), (Ht H1). split; split; assumption.
  - cbn [no_code] in H. apply andb_true_iff in H as [H1 H2]. destruct (IHk H1), (IHv H2). split; split; assumption.
  - exact (F fs IH H).
  - cbn [each_decoder each_encoder no_code] in *. induction IH as [|[v fs] r Ht _ IHr]; [split; exact Coq.Init.Logic.I|].
    cbn [forallb snd] in H. apply andb_true_iff in H as [H1 H2]. destruct (IHr H2), (F fs Ht H1). split; split; assumption.
Qed.
Lemma no_code_decoders t ok : no_code t = true -> each_decoder ok t.
Proof. intros H. exact (proj1 (no_code_each t H ok (fun _ _ => True) (fun _ => True))). Qed.
Lemma no_code_encoders t ty_of ok : no_code t = true -> each_encoder ty_of ok t.
Proof. intros H. exact (proj2 (no_code_each t H (fun _ => True) ty_of ok)). Qed.
Lemma with_fine_impl (p q : rd val -> Prop) : (forall m, p m -> q m) -> forall ft, with_fine p ft -> with_fine q ft.
Proof.
  intros HI ft [H1 H2]. split; [intros; apply HI; eapply H1; eassumption|exact (each_decoder_impl p q HI _ H2)].
Qed.

Lemma dec_fields_tame s inherit vars c earlier fs prev :
  Forall (fun ft => T s (snd ft)) fs -> offset_free_fields offset_free fs = true ->
  Forall (with_fine (tame s)) fs ->
  (s = true -> moderate_fields safe inherit (inner c) earlier fs) ->
  (s = true -> inherit = true -> prev = no_fattr \/
     exists g en, In g earlier /\ modifiers g en = Some prev) ->
  tame s (dec_fields dec inherit vars fs (own_cattr c) prev []).
Proof.
  intros HT HO HU HM HP. destruct (offset_free_fields_inv _ _ HO) as [O1 O2].
  apply (fields_tame s fs inherit vars (inner c)) with (earlier := earlier).
  - rewrite Forall_forall in *. intros [f t] Hin ca fa Hf. cbn in *.
    apply (HT _ Hin); [exact (O2 _ Hin)|exact (proj2 (HU _ Hin))| |exact Hf].
    intros S. destruct (moderate_fields_T _ _ _ _ _ (HM S)) as [_ M]. rewrite Forall_forall in M.
    exact (M _ Hin).
  - eapply Forall_impl; [|exact HU]. intros ft H. exact (proj1 H).
  - exact O1.
  - intros S. exact (proj1 (moderate_fields_T _ _ _ _ _ (HM S))).
  - reflexivity.
  - exact HP.
Qed.

Lemma arms_tame s hit eat nomatch c vars vs : forall d p i next, small d -> p <= lenN d ->
  Forall (fun vf => Forall (fun ft => T s (snd ft)) (snd vf)) vs ->
  forallb (fun vf : vspec * list (fspec * ty) =>
                 no_offset (v_attr (fst vf)) && offset_free_fields offset_free (snd vf)) vs = true ->
  every (fun vf : vspec * list (fspec * ty) => Forall (with_fine (tame s)) (snd vf)) vs ->
  (s = true -> every (fun vf : vspec * list (fspec * ty) => let (v, fs) := vf in
               (forall en, modifiers (v_attr v) en <> None) /\
               moderate_fields safe (negb (v_named v)) (inner c) [v_attr v] fs) vs) ->
  (forall v n, hit v n = true -> p + eat v <= lenN d) ->
  match dec_arms dec hit eat nomatch (own_cattr c) vars vs i next d p with
  | Ok _ q | Err _ q => p <= q <= lenN d
  | Panic | Hang => s = false
  end.
Proof.
  induction vs as [|[v fs] r IH]; intros d p i next Hs Hp HT HO HU HM Heat.
  - cbn. lia.
  - inversion HT as [|? ? HT1 HT2]; subst. cbn [forallb fst snd] in HO.
    apply andb_prop in HO. destruct HO as [HO1 HO2]. apply andb_prop in HO1. destruct HO1 as [Hoff HO1].
    cbn [dec_arms]. destruct (hit v (variant_index v next)) eqn:Eh.
    2:{ apply IH; try assumption; [exact (proj2 HU)|]. intros S. exact (proj2 (HM S)). }
    specialize (Heat _ _ Eh). unfold bind at 1, advance.
    unfold no_offset in Hoff. destruct (f_offset (v_attr v)) eqn:Eo; [discriminate|].
    rewrite wadd_small by (unfold small in Hs; lia).
    assert (Q : tame s (match modifiers (v_attr v) (mkenv [] vars) with
      | Some prev => _ <- dec_offset None (mkenv [] vars);;
          xs <- dec_fields dec (negb (v_named v)) vars fs (own_cattr c) prev [];; ret (VVariant i xs)
      | None => panic end)).
    { destruct (modifiers (v_attr v) (mkenv [] vars)) as [prev|] eqn:Em.
      - apply tame_bind; [apply tame_ret|intros _]. apply tame_map.
        apply (dec_fields_tame s _ vars c [v_attr v]); [exact HT1|exact HO1|exact (proj1 HU)| |].
        + intros S. apply (HM S).
        + intros _ _. right. exists (v_attr v), (mkenv [] vars). split; [left; reflexivity|exact Em].
      - apply tame_panic. destruct s; [|reflexivity]. exfalso.
        apply (proj1 (proj1 (HM eq_refl)) _ Em). }
    specialize (Q d (p + eat v) Hs Heat).
    destruct (modifiers (v_attr v) (mkenv [] vars)) as [prev|]; [|exact Q].
    match goal with |- match ?x with _ => _ end => destruct x end; try exact Q; lia.
Qed.

Lemma starts_remaining m d p : p <= lenN d -> starts_with m (remaining d p) = true -> p + lenN m <= lenN d.
Proof.
  intros Hp H. apply starts_len in H.
  pose proof (remaining_len_eq d p) as R. unfold remaining_len in R. lia.
Qed.

Theorem dec_tame s t : T s t.
Proof.
  induction t as [t Hl|n t IH|ts IH|t IH|t IH|k v IHk IHv|t IH|named c fs IH|e vs IH] using ty_nested_ind;
    intros HO HU HS ca fa HF.
  - destruct t; try discriminate Hl; cbn [dec]; try apply tame_map; try apply tame_ret.
    + apply tame_dec_int; exact HF.
    + apply tame_wb. apply (wb_idx (fun b => negb (b2n b =? 0))). left; reflexivity.
    + apply tame_wb. apply (wb_idx b2n). left; reflexivity.
    + apply tame_fixed.
    + apply tame_fixed.
    + exact (tame_dec_raw s _ ca fa HF).
    + exact (tame_dec_string s _ ca fa HF).
    + apply tame_mac.
    + apply tame_ipv4.
    + apply tame_ipv6.
    + apply tame_ipaddr.
    + exact (tame_netaddr s _ ca fa HF).
    + apply HU.
  - cbn [dec]. apply tame_map, tame_dec_n. apply IH; [exact HO|exact HU|exact HS|].
    exact (fine_sub s _ _ _ _ (fun x => x) HF).
  - cbn [dec]. apply tame_map, tame_dec_seq.
    cbn [offset_free] in HO. cbn [safe] in HS.
    assert (Q : forall t, In t ts -> tame s (dec t ca fa)).
    { intros t Hin. rewrite Forall_forall in IH. apply (IH t Hin).
      - rewrite forallb_forall in HO. exact (HO t Hin).
      - exact (each_decoder_in _ _ _ HU Hin).
      - intros S. specialize (HS S). clear - HS Hin. induction ts as [|a r IHr]; [contradiction|].
        destruct HS as [H1 H2]. destruct Hin as [->|Hin]; [exact H1|exact (IHr H2 Hin)].
      - apply (fine_sub s (TTuple ts)); [|exact HF]. intros W. cbn. apply existsb_exists. eauto. }
    clear - Q. rewrite Forall_forall. intros m Hm. apply in_map_iff in Hm. destruct Hm as (t & <- & Hin). auto.
  - cbn [dec]. assert (Hd : tame s (dec t ca fa)).
    { apply IH; [exact HO|exact HU|exact HS|]. exact (fine_sub s _ _ _ _ (fun x => x) HF). }
    destruct (a_loop fa) as [m|] eqn:El.
    + apply tame_map. intros d p Hs Hp. apply tame_dec_loop; try assumption.
      * intros S ->. destruct (HF S) as [L _]. exact (L El).
      * intros _. unfold lenN. lia.
    + apply tame_map. exact (tame_counted s _ ca fa _ HF Hd).
  - cbn [dec]. apply tame_map. apply (tame_counted s _ ca fa _ HF).
    apply IH; [exact HO|exact HU|exact HS|]. exact (fine_sub s _ _ _ _ (fun x => x) HF).
  - cbn [dec]. apply tame_map. apply (tame_counted s _ ca fa _ HF).
    cbn [offset_free] in HO. apply andb_prop in HO. destruct HO as [O1 O2]. cbn [safe] in HS.
    apply tame_bind.
    + apply IHk; [exact O1|exact (proj1 HU)|intros S; apply (HS S)|].
      apply (fine_key s k (TMap k v)); [|exact HF]. intros W. cbn. rewrite W. reflexivity.
    + intros a. apply tame_map. apply IHv; [exact O2|exact (proj2 HU)|intros S; apply (HS S)|].
      apply (fine_value s v (TMap k v)); [|exact HF]. intros W. cbn. rewrite W. apply orb_true_r.
  - cbn [dec]. assert (Hd : tame s (dec t ca fa)).
    { apply IH; [exact HO|exact HU|exact HS|]. exact (fine_sub s _ _ _ _ (fun x => x) HF). }
    intros d p Hs Hp. specialize (Hd d p Hs Hp).
    destruct (a_length fa) as [[|l]|]; [lia|destruct (dec t ca fa d p); exact Hd|destruct (dec t ca fa d p); exact Hd].
  - cbn [dec]. apply tame_map.
    apply (dec_fields_tame s (negb named) (k_vars ca) c []); [exact IH|exact HO|exact (with_fine_all _ _ HU)|exact HS|].
    intros _ _. left. reflexivity.
  - cbn [dec]. destruct vs as [|vf vs']; [apply tame_ret|].
    remember (vf :: vs') as vs eqn:Evs. cbn [offset_free] in HO. cbn [safe] in HS.
    assert (HU2 : every (fun vf : vspec * list (fspec * ty) => Forall (with_fine (tame s)) (snd vf)) vs).
    { cbn [each_decoder] in HU. clear - HU. induction vs as [|[v fs] r IH]; [exact HU|].
      split; [exact (with_fine_all _ _ (proj1 HU))|exact (IH (proj2 HU))]. }
    clear HU. rename HU2 into HU.
    assert (HS2 : s = true -> every (fun vf : vspec * list (fspec * ty) => let (v, fs) := vf in
               (forall en, modifiers (v_attr v) en <> None) /\
               moderate_fields safe (negb (v_named v)) (inner (e_c e)) [v_attr v] fs) vs)
      by (intros S; apply (HS S)).
    destruct (e_branching e).
    + apply tame_bind.
      * unfold enum_tag. destruct (a_branch fa); [apply tame_ret|].
        destruct (a_byte_count fa) as [n|] eqn:B.
        { unfold ko. rewrite <- order_for_get2. apply tame_uint. intros S.
          destruct (HF S) as [_ [Q|(Q & _)]]; [left; exact Q|right]. rewrite B in Q. exact Q. }
        destruct (c_byte_count (e_c e)) as [n|] eqn:C; [|apply tame_u8].
        unfold ko. apply tame_uint. intros S. right. destruct (HS S) as [Q _].
        exact Q.
      * intros tag d p Hs Hp. apply arms_tame; try assumption. intros. lia.
    + intros d p Hs Hp. apply arms_tame; try assumption.
      intros v n Hh. destruct (v_default v); [lia|]. cbn in Hh. apply starts_remaining; assumption.
    + intros d p Hs Hp. apply arms_tame; try assumption. intros. lia.
    + apply tame_bind; [apply tame_bytes|]. intros x d p Hs Hp. apply arms_tame; try assumption. intros. lia.
Qed.
