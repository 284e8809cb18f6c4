(** [BufReadMut] agrees with [BufRead]. *)
From Verif Require Export WriterHist.

(** ** io::Cursor *)
Definition lift {A} (d : bytes) (r : res N A) : res (bytes * N) A :=
  match r with
  | Ok a p => Ok a (d, p) | Err e p => Err e (d, p) | Panic => Panic | Hang => Hang
  end.
Definition csim {A} (m : mrd A) (r : rd A) : Prop := forall d p, m (d, p) = lift d (r d p).

Lemma csim_bind {A B} (m : mrd A) (r : rd A) (f : A -> mrd B) (g : A -> rd B) :
  csim m r -> (forall a, csim (f a) (g a)) -> csim (mbind m f) (bind r g).
Proof.
  intros H HF d p. unfold mbind, bind. rewrite H. destruct (r d p); cbn [lift]; try reflexivity. apply HF.
Qed.
Lemma csim_ret {A} (a : A) : csim (mret a) (ret a).
Proof. intros d p; reflexivity. Qed.
Lemma csim_idx l : csim (midx0 l) (idx0 l).
Proof. intros d p; destruct l; reflexivity. Qed.
Lemma csim_take_bytes n : csim (m_take_bytes cursor_impl n) (take_bytes n).
Proof.
  intros d p. unfold m_take_bytes, take_bytes, remaining_len. cbn [im_take_bytes cursor_impl].
  unfold default_take_bytes. change (cur_remaining (d, p)) with (remaining d p).
  destruct (lenN (remaining d p) <? n); [reflexivity|]. cbn [cur_advance cur_pos cur_data fst snd].
  destruct (slice_get d (wsub (wadd p n) n) (wadd p n)); reflexivity.
Qed.
Lemma csim_untake_bytes n : csim (m_untake_bytes cursor_impl n) (untake_bytes n).
Proof.
  intros d p. unfold m_untake_bytes, untake_bytes, remaining_len, slice_ok.
  change (im_remaining cursor_impl (d, p)) with (remaining d p).
  destruct (lenN (remaining d p) <? n); [reflexivity|].
  change (im_data cursor_impl (d, p)) with d. change (im_position cursor_impl (d, p)) with p.
  destruct (slice_get d p (wadd p n)); reflexivity.
Qed.
Lemma csim_take_array n : csim (m_take_array cursor_impl n) (take_array n).
Proof.
  intros d p. unfold m_take_array, take_array. change (im_remaining cursor_impl (d, p)) with (remaining d p).
  destruct (slice_get_to (remaining d p) n); reflexivity.
Qed.
Lemma csim_after d p adv a b :
  m_after cursor_impl (d, p) adv a b = lift d (slice_ok d a b (wadd p adv)).
Proof. unfold m_after, slice_ok. cbn. destruct (slice_get d a b); reflexivity. Qed.
Lemma csim_n bo size n : csim (m_take_n cursor_impl bo size n) (take_n bo size n).
Proof.
  destruct bo; cbn [m_take_n take_n]; unfold take_n_be, take_n_le; destruct (size <? n).
  - intros d p; reflexivity.
  - apply csim_bind; [apply csim_take_bytes|intros a; apply csim_ret].
  - intros d p; reflexivity.
  - apply csim_bind; [apply csim_take_bytes|intros a; apply csim_ret].
Qed.
Lemma csim_un bo size n : csim (m_untake_n cursor_impl bo size n) (untake_n bo size n).
Proof.
  destruct bo; cbn [m_untake_n untake_n]; unfold untake_n_be, untake_n_le; destruct (size <? n).
  - intros d p; reflexivity.
  - apply csim_bind; [apply csim_untake_bytes|intros a; apply csim_ret].
  - intros d p; reflexivity.
  - apply csim_bind; [apply csim_untake_bytes|intros a; apply csim_ret].
Qed.

Ltac csim_step :=
  repeat first
    [ apply csim_ret | apply csim_idx | apply csim_take_bytes | apply csim_untake_bytes
    | apply csim_take_array | apply csim_n | apply csim_un
    | (apply csim_bind; [|intros ?a]) ].

Lemma csim_op o : is_byteorder_uint o = false -> csim (run_mop cursor_impl o) (run_rop o).
Proof.
  destruct o; intros Hb; cbn [run_mop run_rop]; unfold mmap, rmap;
    try (apply csim_bind; [|intros; apply csim_ret]).
  - csim_step.
  - unfold m_take_byteorder_array, take_byteorder_array. csim_step.
  - csim_step.
  - intros d p. unfold m_take_bytes_starts, take_bytes_starts, remaining_len.
    change (im_remaining cursor_impl (d, p)) with (remaining d p).
    destruct (_ <? _); [reflexivity|]. destruct (starts_with m (remaining d p)); reflexivity.
  - unfold m_take_bool, take_bool. csim_step.
  - unfold m_take_u8, take_char. csim_step.
  - destruct t; cbn [m_take_int take_int]; unfold m_take_u8, take_u8, m_take_fixed, take_fixed; csim_step.
  - csim_step.
  - destruct k; try discriminate; unfold m_take_uint, take_uint; csim_step.
  - destruct k; try discriminate; unfold m_take_sint, m_take_uint, take_sint; csim_step.
  - unfold m_take_fixed, take_f32, take_fixed; csim_step.
  - unfold m_take_fixed, take_f64, take_fixed; csim_step.
  - intros d p. unfold m_find_subsequence, find_subsequence.
    change (im_remaining cursor_impl (d, p)) with (remaining d p). change (im_position cursor_impl (d, p)) with p.
    destruct (memmem_find s (remaining d p)); [apply csim_after|reflexivity].
  - intros d p. unfold m_find_subsequence_needle, find_subsequence_needle.
    change (im_remaining cursor_impl (d, p)) with (remaining d p). change (im_position cursor_impl (d, p)) with p.
    destruct (memmem_find s (remaining d p)); [apply csim_after|reflexivity].
  - intros d p. unfold m_find_subsequences, find_subsequences.
    change (im_remaining cursor_impl (d, p)) with (remaining d p). change (im_position cursor_impl (d, p)) with p.
    destruct (ac_find ss (remaining d p)) as [[st en]|]; [apply csim_after|reflexivity].
  - intros d p. unfold m_find_subsequences_needle, find_subsequences_needle.
    change (im_remaining cursor_impl (d, p)) with (remaining d p). change (im_position cursor_impl (d, p)) with p.
    destruct (ac_find ss (remaining d p)) as [[st en]|]; [apply csim_after|reflexivity].
  - csim_step.
  - unfold m_untake_bool, untake_bool. csim_step.
  - unfold m_untake_u8, untake_char. csim_step.
  - destruct t; cbn [m_untake_int untake_int]; unfold m_untake_u8, untake_u8, m_untake_fixed, untake_fixed; csim_step.
  - csim_step.
  - unfold m_untake_uint, untake_uint; csim_step.
  - unfold m_untake_sint, untake_sint; csim_step.
  - unfold m_untake_fixed, untake_f32, untake_fixed; csim_step.
  - unfold m_untake_fixed, untake_f64, untake_fixed; csim_step.
Qed.

Lemma cursor_history ops : forall d p, (forall o, In o ops -> is_byteorder_uint o = false) ->
  run_mops cursor_impl ops (d, p) =
  match run_rops ops d p with Some (outs, q) => Some (outs, (d, q)) | None => None end.
Proof.
  induction ops as [|o ops IH]; intros d p H; cbn [run_mops run_rops]; [reflexivity|].
  rewrite csim_op by (apply H; left; reflexivity).
  destruct (run_rop o d p); cbn [lift]; try reflexivity;
    (rewrite IH by (intros o' Ho'; apply H; right; exact Ho'));
    destruct (run_rops ops d s) as [[vs q]|]; reflexivity.
Qed.

(** ** slices *)
Definition rest_of (d : bytes) (p : N) : bytes := skipn (N.to_nat p) d.
Definition agree {A} (d : bytes) (x : res bytes A) (y : res N A) : Prop :=
  match x, y with
  | Ok a s, Ok b p => a = b /\ s = rest_of d p /\ p <= lenN d
  | Err e s, Err e' p => e_kind e = e_kind e' /\ s = rest_of d p /\ p <= lenN d
  | Panic, Panic | Hang, Hang => True
  | _, _ => False
  end.
Definition ssim {A} (m : mrd A) (r : rd A) : Prop :=
  forall d p, small d -> p <= lenN d -> agree d (m (rest_of d p)) (r d p).

Lemma ssim_bind {A B} (m : mrd A) (r : rd A) (f : A -> mrd B) (g : A -> rd B) :
  ssim m r -> (forall a, ssim (f a) (g a)) -> ssim (mbind m f) (bind r g).
Proof.
  intros H HF d p Hs Hp. unfold mbind, bind. specialize (H d p Hs Hp).
  destruct (m (rest_of d p)), (r d p); cbn [agree] in H |- *; try contradiction; try exact I.
  - destruct H as (-> & -> & Hq). apply HF; assumption.
  - exact H.
Qed.
Lemma ssim_ret {A} (a : A) : ssim (mret a) (ret a).
Proof. intros d p Hs Hp; cbn; auto. Qed.
Lemma ssim_idx l : ssim (midx0 l) (idx0 l).
Proof. intros d p Hs Hp; destruct l; cbn; auto. Qed.
Lemma lenN_rest d p : lenN (rest_of d p) = lenN d - p.
Proof. apply lenN_skipn. Qed.
Lemma rest_sub d p n : firstn (N.to_nat n) (rest_of d p) = sub d p n.
Proof. reflexivity. Qed.
Lemma rest_rest d p n : skipn (N.to_nat n) (rest_of d p) = rest_of d (p + n).
Proof. unfold rest_of. rewrite <- skipn_add. f_equal. lia. Qed.

Lemma ssim_take_bytes n : ssim (m_take_bytes slice_impl n) (take_bytes n).
Proof.
  intros d p Hs Hp. unfold m_take_bytes. cbn [im_take_bytes slice_impl].
  destruct (N.le_gt_cases (p + n) (lenN d)).
  - rewrite slice_get_to_ok by (rewrite lenN_rest; lia).
    rewrite slice_get_from_ok by (rewrite lenN_rest; lia).
    rewrite take_bytes_in by assumption. cbn [agree]. rewrite rest_rest. split; [reflexivity|split; [reflexivity|lia]].
  - rewrite slice_get_to_none by (rewrite lenN_rest; lia).
    rewrite take_bytes_out by (assumption || lia). cbn [agree e_kind]. auto.
Qed.
Lemma ssim_untake_bytes n : ssim (m_untake_bytes slice_impl n) (untake_bytes n).
Proof.
  intros d p Hs Hp. unfold m_untake_bytes. cbn [im_remaining im_data im_position slice_impl].
  rewrite lenN_rest. unfold small in Hs.
  destruct (N.le_gt_cases (p + n) (lenN d)).
  - destruct (N.ltb_spec (lenN d - p) n); [lia|]. rewrite wadd_small by lia.
    rewrite slice_get_ok by (rewrite ?lenN_rest; lia). rewrite untake_bytes_in by assumption.
    cbn [agree]. split; [|auto]. unfold sub. replace (0 + n - 0) with n by lia. reflexivity.
  - destruct (N.ltb_spec (lenN d - p) n); [|lia]. rewrite untake_bytes_out by (assumption || lia).
    cbn [agree e_kind]; auto.
Qed.
Lemma ssim_take_array n : ssim (m_take_array slice_impl n) (take_array n).
Proof.
  intros d p Hs Hp. rewrite take_array_bytes by assumption.
  unfold m_take_array. cbn [im_remaining im_advance slice_impl].
  destruct (N.le_gt_cases (p + n) (lenN d)).
  - rewrite slice_get_to_ok by (rewrite lenN_rest; lia).
    rewrite slice_get_from_ok by (rewrite lenN_rest; lia).
    rewrite take_bytes_in by assumption. cbn [agree]. rewrite rest_rest. split; [reflexivity|split; [reflexivity|lia]].
  - rewrite slice_get_to_none by (rewrite lenN_rest; lia).
    rewrite take_bytes_out by (assumption || lia). cbn [agree e_kind]. auto.
Qed.
Lemma ssim_n bo size n : ssim (m_take_n slice_impl bo size n) (take_n bo size n).
Proof.
  destruct bo; cbn [m_take_n take_n]; unfold take_n_be, take_n_le; destruct (size <? n).
  - intros d p Hs Hp; cbn; auto.
  - apply ssim_bind; [apply ssim_take_bytes|intros a; apply ssim_ret].
  - intros d p Hs Hp; exact I.
  - apply ssim_bind; [apply ssim_take_bytes|intros a; apply ssim_ret].
Qed.
Lemma ssim_un bo size n : ssim (m_untake_n slice_impl bo size n) (untake_n bo size n).
Proof.
  destruct bo; cbn [m_untake_n untake_n]; unfold untake_n_be, untake_n_le; destruct (size <? n).
  - intros d p Hs Hp; cbn; auto.
  - apply ssim_bind; [apply ssim_untake_bytes|intros a; apply ssim_ret].
  - intros d p Hs Hp; exact I.
  - apply ssim_bind; [apply ssim_untake_bytes|intros a; apply ssim_ret].
Qed.
Lemma ssim_starts m : ssim (m_take_bytes_starts slice_impl m) (take_bytes_starts m).
Proof.
  intros d p Hs Hp. unfold m_take_bytes_starts, take_bytes_starts, remaining_len.
  cbn [im_remaining im_advance im_position slice_impl]. rewrite remaining_in by exact Hp. fold (rest_of d p).
  unfold small in Hs. destruct (N.ltb_spec (lenN (rest_of d p)) (lenN m)) as [|Hle]; [cbn; auto|].
  rewrite lenN_rest in Hle. destruct (starts_with m (rest_of d p)); [|cbn; auto].
  rewrite slice_get_from_ok by (rewrite lenN_rest; lia). rewrite rest_rest. cbn [agree].
  rewrite wadd_small by lia. split; [reflexivity|split; [reflexivity|lia]].
Qed.

Ltac ssim_step :=
  repeat first
    [ apply ssim_ret | apply ssim_idx | apply ssim_take_bytes | apply ssim_untake_bytes
    | apply ssim_take_array | apply ssim_n | apply ssim_un | apply ssim_starts
    | (apply ssim_bind; [|intros ?a]) ].

Lemma ssim_op o : is_byteorder_uint o = false -> is_find o = false -> ssim (run_mop slice_impl o) (run_rop o).
Proof.
  destruct o; intros Hb Hf; cbn [run_mop run_rop]; unfold mmap, rmap; try discriminate;
    (apply ssim_bind; [|intros; apply ssim_ret]).
  - ssim_step.
  - unfold m_take_byteorder_array, take_byteorder_array. ssim_step.
  - ssim_step.
  - ssim_step.
  - unfold m_take_bool, take_bool. ssim_step.
  - unfold m_take_u8, take_char. ssim_step.
  - destruct t; cbn [m_take_int take_int]; unfold m_take_u8, take_u8, m_take_fixed, take_fixed; ssim_step.
  - ssim_step.
  - destruct k; try discriminate; unfold m_take_uint, take_uint; ssim_step.
  - destruct k; try discriminate; unfold m_take_sint, m_take_uint, take_sint; ssim_step.
  - unfold m_take_fixed, take_f32, take_fixed; ssim_step.
  - unfold m_take_fixed, take_f64, take_fixed; ssim_step.
  - ssim_step.
  - unfold m_untake_bool, untake_bool. ssim_step.
  - unfold m_untake_u8, untake_char. ssim_step.
  - destruct t; cbn [m_untake_int untake_int]; unfold m_untake_u8, untake_u8, m_untake_fixed, untake_fixed; ssim_step.
  - ssim_step.
  - unfold m_untake_uint, untake_uint; ssim_step.
  - unfold m_untake_sint, untake_sint; ssim_step.
  - unfold m_untake_fixed, untake_f32, untake_fixed; ssim_step.
  - unfold m_untake_fixed, untake_f64, untake_fixed; ssim_step.
Qed.

Lemma slice_history ops : forall d p, allocatable d -> p <= size d ->
  (forall o, In o ops -> is_byteorder_uint o = false /\ is_find o = false) ->
  match run_mops slice_impl ops (skipn (N.to_nat p) d), run_rops ops d p with
  | Some (xs, s), Some (ys, q) => Forall2 same_answer xs ys /\ s = skipn (N.to_nat q) d
  | None, None => True
  | _, _ => False
  end.
Proof.
  induction ops as [|o ops IH]; intros d p Hs Hp H; cbn [run_mops run_rops].
  - split; [constructor|reflexivity].
  - destruct (H o (or_introl eq_refl)) as [Hb Hf].
    pose proof (ssim_op o Hb Hf d p Hs Hp) as Ho. fold (rest_of d p).
    assert (Htl : forall o, In o ops -> is_byteorder_uint o = false /\ is_find o = false)
      by (intros o' Ho'; apply H; right; exact Ho').
    destruct (run_mop slice_impl o (rest_of d p)), (run_rop o d p); cbn [agree] in Ho; try contradiction; try exact I.
    + destruct Ho as (-> & -> & Hq). specialize (IH d s0 Hs Hq Htl). fold (rest_of d s0) in IH.
      destruct (run_mops slice_impl ops (rest_of d s0)) as [[xs s]|], (run_rops ops d s0) as [[ys q]|];
        try contradiction; try exact I.
      destruct IH as [IH1 IH2]. split; [constructor; [reflexivity|exact IH1]|exact IH2].
    + destruct Ho as (He & -> & Hq). specialize (IH d s0 Hs Hq Htl). fold (rest_of d s0) in IH.
      destruct (run_mops slice_impl ops (rest_of d s0)) as [[xs s]|], (run_rops ops d s0) as [[ys q]|];
        try contradiction; try exact I.
      destruct IH as [IH1 IH2]. split; [constructor; [exact He|exact IH1]|exact IH2].
Qed.
