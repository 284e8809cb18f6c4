(** Tools for the codec proofs: induction over types and values, equality of
    values, and the Hoare-style predicates used for encoders. *)
From Verif Require Import Base Ints Reader Writer Schema Decode Encode Spec SpecOps RunSpec WireSpec.
From Verif Require Import BaseLemmas ReaderLemmas ReaderHist WriterLemmas WriterHist.

(** ** Induction over types *)
Definition leaf (t : ty) : bool :=
  match t with
  | TInt _ | TBool | TChar | TF32 | TF64 | TBytes | TString | TMac | TIpv4 | TIpv6
  | TIpAddr | TNetAddr | TUnit | TUser _ _ => true
  | _ => false
  end.

Lemma ty_nested_ind (P : ty -> Prop) :
  (forall t, leaf t = true -> P t) ->
  (forall n t, P t -> P (TArray n t)) ->
  (forall ts, Forall P ts -> P (TTuple ts)) ->
  (forall t, P t -> P (TVec t)) ->
  (forall t, P t -> P (TSet t)) ->
  (forall k v, P k -> P v -> P (TMap k v)) ->
  (forall t, P t -> P (TOption t)) ->
  (forall named c fs, Forall (fun ft => P (snd ft)) fs -> P (TStruct named c fs)) ->
  (forall e vs, Forall (fun vf => Forall (fun ft => P (snd ft)) (snd vf)) vs -> P (TEnum e vs)) ->
  forall t, P t.
Proof.
  intros HL HA HT HV HS HM HO HSt HE.
  fix IH 1. intros t; destruct t; try (apply HL; reflexivity).
  - apply HA, IH.
  - apply HT. induction ts as [|t ts IHts]; constructor; [apply IH|exact IHts].
  - apply HV, IH.
  - apply HS, IH.
  - apply HM; apply IH.
  - apply HO, IH.
  - apply HSt. induction fs as [|[f t] fs IHfs]; constructor; [apply IH|exact IHfs].
  - apply HE. induction vs as [|[v fs] vs IHvs]; constructor; [|exact IHvs].
    cbn. clear IHvs. induction fs as [|[f t] fs IHfs]; constructor; [apply IH|exact IHfs].
Qed.

(** ** Equality of values *)
Lemma val_nested_ind (P : val -> Prop) :
  (forall z, P (VInt z)) -> (forall b, P (VBool b)) -> (forall c, P (VChar c)) ->
  (forall x, P (VFloat x)) -> (forall l, P (VBytes l)) -> P VUnit ->
  (forall l, Forall P l -> P (VList l)) ->
  P (VOpt None) -> (forall v, P v -> P (VOpt (Some v))) ->
  (forall l, Forall (fun kv => P (fst kv) /\ P (snd kv)) l -> P (VMap l)) ->
  (forall l, Forall P l -> P (VSet l)) ->
  (forall i l, Forall P l -> P (VVariant i l)) ->
  forall v, P v.
Proof.
  intros H1 H2 H3 H4 H5 H6 H7 H8 H9 H10 H11 H12.
  fix IH 1. intros v; destruct v as [z|b|c|x|l| |l|[v|]|l|l|i l];
    [apply H1|apply H2|apply H3|apply H4|apply H5|apply H6| | |apply H8| | |].
  - apply H7. induction l as [|x l IHl]; constructor; [apply IH|exact IHl].
  - apply H9, IH.
  - apply H10. induction l as [|[x y] l IHl]; constructor; [split; apply IH|exact IHl].
  - apply H11. induction l as [|x l IHl]; constructor; [apply IH|exact IHl].
  - apply H12. induction l as [|x l IHl]; constructor; [apply IH|exact IHl].
Qed.

Definition vals_eqb := fix list_eqb (l m : list val) {struct l} : bool :=
  match l, m with
  | [], [] => true
  | x :: l', y :: m' => val_eqb x y && list_eqb l' m'
  | _, _ => false
  end.

Lemma vals_eqb_iff l : Forall (fun a => forall b, val_eqb a b = true <-> a = b) l ->
  forall m, vals_eqb l m = true <-> l = m.
Proof.
  induction 1 as [|x l Hx _ IH]; intros [|y m]; cbn; try (split; congruence).
  rewrite andb_true_iff, Hx, IH. split; [intros [-> ->]; reflexivity|intros E; inversion E; auto].
Qed.

Lemma val_eqb_eq a : forall b, val_eqb a b = true <-> a = b.
Proof.
  induction a using val_nested_ind; intros b'; destruct b'; cbn [val_eqb];
    try (split; discriminate).
  - rewrite Z.eqb_eq; split; congruence.
  - rewrite Bool.eqb_true_iff; split; congruence.
  - rewrite N.eqb_eq; split; congruence.
  - rewrite N.eqb_eq; split; congruence.
  - rewrite bytes_eqb_eq; split; congruence.
  - split; reflexivity.
  - change ((vals_eqb l l0 = true) <-> VList l = VList l0).
    rewrite (vals_eqb_iff _ H). split; congruence.
  - destruct o; split; try discriminate; reflexivity.
  - destruct o; [rewrite IHa; split; congruence|split; discriminate].
  - transitivity (l = l0); [|split; congruence].
    revert l0; induction H as [|[x y] l [Hx Hy] _ IH]; intros [|[x' y'] m]; try (split; congruence).
    rewrite !andb_true_iff. cbn in Hx, Hy. rewrite Hx, Hy, IH.
    split; [intros [[-> ->] ->]; reflexivity|intros E; inversion E; auto].
  - change ((vals_eqb l l0 = true) <-> VSet l = VSet l0).
    rewrite (vals_eqb_iff _ H). split; congruence.
  - rewrite andb_true_iff. change ((Nat.eqb i i0 = true /\ vals_eqb l fs = true) <-> VVariant i l = VVariant i0 fs).
    rewrite (vals_eqb_iff _ H), Nat.eqb_eq. split; [intros [-> ->]; reflexivity|intros E; inversion E; auto].
Qed.
Lemma val_eqb_refl v : val_eqb v v = true.
Proof. apply val_eqb_eq; reflexivity. Qed.

(** ** Parts of a wire format *)
Lemma and_then_some a b w : and_then a b = Some w ->
  exists x y, a = Some x /\ b = Some y /\ w = x ++ y.
Proof.
  unfold and_then; cbn. destruct a as [x|]; [|discriminate]. destruct b as [y|]; [|discriminate].
  rewrite app_nil_r. intros E; injection E as <-. eauto.
Qed.
Lemma and_then_eq x y : and_then (Some x) (Some y) = Some (x ++ y).
Proof. unfold and_then; cbn. rewrite app_nil_r; reflexivity. Qed.
Lemma all_of_cons x r w : all_of (x :: r) = Some w ->
  exists a b, x = Some a /\ all_of r = Some b /\ w = a ++ b.
Proof.
  cbn. destruct x as [a|]; [|discriminate]. destruct (all_of r) as [b|]; [|discriminate].
  intros E; injection E as <-. eauto.
Qed.

(** ** Encoders that append a known byte string *)

Definition room (d : bytes) (p : N) (w : bytes) : Prop :=
  p <= lenN d /\ small d /\ p + lenN w < W63.

(** From a buffer in which [w0] has just been written at [p] to one in which [w1]
    has been written there instead. *)
Definition continues {A} (m : wr A) (w0 w1 : bytes) : Prop :=
  forall d p, room d p w0 -> room d p w1 ->
  exists a, m (mkbuf (overwrite d p w0) (p + lenN w0)) = Ok a (mkbuf (overwrite d p w1) (p + lenN w1)).
Definition writes {A} (m : wr A) (w : bytes) : Prop :=
  forall d p, room d p w -> exists a, m (mkbuf d p) = Ok a (mkbuf (overwrite d p w) (p + lenN w)).

Lemma writes_as_writes (e : wr N) w : writes_as e w -> writes e w.
Proof. intros H d p (H1 & H2 & H3). apply H; auto. Qed.
Lemma overwrite_nil d p : p <= lenN d -> overwrite d p [] = d.
Proof.
  intros H. unfold overwrite. change (size d) with (lenN d).
  replace (N.to_nat (p - lenN d)) with O by lia. cbn [repeat app length]. rewrite app_nil_r.
  rewrite Nat.add_0_r. apply firstn_skipn.
Qed.
Lemma overwrite_app d p a b : p <= lenN d ->
  overwrite (overwrite d p a) (p + lenN a) b = overwrite d p (a ++ b).
Proof.
  intros H.
  assert (Hf : forall n, n <= lenN d -> forall l, overwrite d n l = firstn (N.to_nat n) d ++ l ++ skipn (N.to_nat n + length l) d).
  { intros n Hn l. unfold overwrite. change (size d) with (lenN d).
    replace (N.to_nat (n - lenN d)) with O by lia. cbn [repeat]. rewrite app_nil_r. reflexivity. }
  rewrite (Hf p H (a ++ b)).
  unfold overwrite at 1.
  assert (Hs : lenN (overwrite d p a) = N.max (lenN d) (p + lenN a)) by apply overwrite_size.
  change (size (overwrite d p a)) with (lenN (overwrite d p a)). rewrite Hs.
  replace (N.to_nat (p + lenN a - N.max (lenN d) (p + lenN a))) with O by lia.
  cbn [repeat]. rewrite app_nil_r. rewrite (Hf p H a).
  assert (HL : length (firstn (N.to_nat p) d) = N.to_nat p).
  { rewrite firstn_length. unfold lenN in H. lia. }
  set (F := firstn (N.to_nat p) d) in *.
  set (S1 := skipn (N.to_nat p + length a) d).
  replace (F ++ a ++ S1) with ((F ++ a) ++ S1) by (rewrite app_assoc; reflexivity).
  assert (HL2 : length (F ++ a) = N.to_nat (p + lenN a)).
  { rewrite app_length, HL. unfold lenN; lia. }
  rewrite <- HL2.
  rewrite firstn_app, firstn_all, Nat.sub_diag, firstn_O, app_nil_r.
  rewrite skipn_app, skipn_all2 by lia. cbn [app].
  rewrite <- !app_assoc. do 3 f_equal.
  unfold S1. rewrite <- skipn_add. f_equal. rewrite !app_length, HL. lia.
Qed.
Lemma room_app d p a b : room d p (a ++ b) -> room d p a /\ room (overwrite d p a) (p + lenN a) b.
Proof.
  unfold room, small. rewrite overwrite_size, lenN_app. lia.
Qed.
Lemma room_nil d p : p <= lenN d -> small d -> room d p [].
Proof. unfold room, small. rewrite lenN_nil. lia. Qed.

Lemma writes_continues {A} (m : wr A) w : writes m w <-> continues m [] w.
Proof.
  split; intros H d p.
  - intros H0 H1. rewrite overwrite_nil by apply H0. rewrite lenN_nil, N.add_0_r. apply H, H1.
  - intros Hr. destruct (H d p) as [a Ha]; [destruct Hr as (?&?&?); apply room_nil; assumption|exact Hr|].
    rewrite overwrite_nil, lenN_nil, N.add_0_r in Ha by apply Hr. eauto.
Qed.
Lemma writes_after {A} (m : wr A) w w0 : writes m w -> continues m w0 (w0 ++ w).
Proof.
  intros H d p H0 H1. apply room_app in H1 as [_ H1].
  destruct (H _ _ H1) as [a Ha]. exists a. rewrite Ha.
  rewrite overwrite_app by apply H0. rewrite lenN_app, N.add_assoc. reflexivity.
Qed.
Lemma continues_bind {A B} (m : wr A) (k : A -> wr B) w0 w1 w2 :
  (lenN w1 <= lenN w2 \/ lenN w1 <= lenN w0) ->
  continues m w0 w1 -> (forall a, continues (k a) w1 w2) -> continues (wbind m k) w0 w2.
Proof.
  intros HL Hm Hk d p H0 H2.
  assert (H1 : room d p w1) by (unfold room, small in *; lia).
  destruct (Hm d p H0 H1) as [a Ha]. destruct (Hk a d p H1 H2) as [b Hb].
  exists b. unfold wbind. rewrite Ha. exact Hb.
Qed.
Lemma writes_bind {A B} (m : wr A) (k : A -> wr B) w1 w2 :
  writes m w1 -> (forall a, writes (k a) w2) -> writes (wbind m k) (w1 ++ w2).
Proof.
  intros Hm Hk. apply writes_continues.
  apply continues_bind with (w1 := w1); [left; rewrite lenN_app; lia|apply writes_continues, Hm|].
  intros a. apply writes_after, Hk.
Qed.
Lemma writes_ret {A} (a : A) : writes (wret a) [].
Proof.
  intros d p H. exists a. unfold wret. rewrite overwrite_nil, lenN_nil, N.add_0_r by apply H. reflexivity.
Qed.
Lemma continues_ret {A} (a : A) w : continues (wret a) w w.
Proof. intros d p H _. exists a. reflexivity. Qed.
Lemma writes_push v : writes (push v) v.
Proof.
  intros d p (H1 & H2 & H3). exists (lenN v). apply push_ok; auto.
Qed.
Lemma continues_plus a b w0 w1 w2 : (lenN w1 <= lenN w2 \/ lenN w1 <= lenN w0) ->
  continues a w0 w1 -> continues b w1 w2 -> continues (plus a b) w0 w2.
Proof.
  intros HL Ha Hb. unfold plus. apply continues_bind with (w1 := w1); [exact HL|exact Ha|].
  intros x. apply continues_bind with (w1 := w2); [left; lia|exact Hb|]. intros y. apply continues_ret.
Qed.
Lemma writes_plus a b w1 w2 : writes a w1 -> writes b w2 -> writes (plus a b) (w1 ++ w2).
Proof.
  intros Ha Hb. apply writes_continues.
  apply continues_plus with (w1 := w1); [left; rewrite lenN_app; lia|apply writes_continues, Ha|apply writes_after, Hb].
Qed.
Lemma writes_ext {A} (m m' : wr A) w : (forall b, m b = m' b) -> writes m' w -> writes m w.
Proof. intros E H d p Hr. rewrite E. apply H, Hr. Qed.
Lemma writes_wop o w : image o = Some w -> writes (run_wop o) w.
Proof.
  intros E. apply writes_ext with (m' := push w); [|apply writes_push].
  intros b. pose proof (image_push o b) as H. rewrite E in H. exact H.
Qed.
