(** Lemmas about generated encoders. *)
From Coq Require Import Ascii String.
From Verif Require Import Base BaseLemmas Ints Reader Writer Text Sugar AttrParse Decode Encode GenDecode GenLemmas
  GenEncode GenEncodeSpec Schema.
Close Scope string_scope.
Set Implicit Arguments.

(** ** Two programs that write the same *)
Definition wsim {A B} (m : wr A) (n : wr B) (R : A -> B -> Prop) : Prop := forall b,
  match m b, n b with
  | Ok a b1, Ok c b2 => b1 = b2 /\ R a c
  | Err e b1, Err e' b2 => e = e' /\ b1 = b2
  | Panic, Panic => True
  | Hang, Hang => True
  | _, _ => False
  end.
Lemma wsim_ret {A B} (a : A) (c : B) (R : A -> B -> Prop) : R a c -> wsim (wret a) (wret c) R.
Proof. intros H b. now split. Qed.
Lemma wsim_bind {A B C D} (m : wr A) (n : wr B) (R : A -> B -> Prop) (k : A -> wr C) (l : B -> wr D) (S : C -> D -> Prop) :
  wsim m n R -> (forall a c, R a c -> wsim (k a) (l c) S) -> wsim (wbind m k) (wbind n l) S.
Proof.
  intros H K b. specialize (H b). unfold wbind. destruct (m b), (n b); try easy.
  destruct H as [-> H]. apply K, H.
Qed.
Lemma wsim_refl {A} (m : wr A) : wsim m m eq.
Proof. intros b. now destruct (m b). Qed.
Lemma wsim_ext {A B} (m m' : wr A) (n n' : wr B) (R : A -> B -> Prop) :
  (forall b, m b = m' b) -> (forall b, n b = n' b) -> wsim m n R -> wsim m' n' R.
Proof. intros E F H b. rewrite <- E, <- F. apply H. Qed.
Lemma wsim_weaken {A B} (m : wr A) (n : wr B) (R S : A -> B -> Prop) :
  (forall a c, R a c -> S a c) -> wsim m n R -> wsim m n S.
Proof. intros I H b. specialize (H b). destruct (m b), (n b); intuition. Qed.
Lemma wsim_panic {A B} (R : A -> B -> Prop) : wsim (fun _ => Panic) (fun _ => Panic) R.
Proof. intros b. exact Logic.I. Qed.
Lemma wbind_assoc {A B C} (m : wr A) (f : A -> wr B) (g : B -> wr C) b :
  wbind (wbind m f) g b = wbind m (fun a => wbind (f a) g) b.
Proof. unfold wbind. now destruct (m b). Qed.
Lemma wbind_ret {A} (m : wr A) b : wbind m wret b = m b.
Proof. unfold wbind, wret. now destruct (m b). Qed.
Lemma run_eapp ety l m s b :
  run_estmts ety (l ++ m) s b = (s' <~ run_estmts ety l s ;; run_estmts ety m s') b.
Proof.
  revert s b. induction l as [|c l IH]; cbn; intros s b; [reflexivity|].
  unfold wbind at 1 2 3. destruct (run_estmt ety c s b); try reflexivity. apply IH.
Qed.
Lemma check_eapp l m g : check_estmts (l ++ m) g = match check_estmts l g with Some g' => check_estmts m g' | None => None end.
Proof. revert g. induction l; cbn; intros g; [reflexivity|]. destruct (check_estmt a g); auto. Qed.

(** ** Counting *)
Lemma look_count k x s : x <> R_NBYTES -> look x (add_count k s) = look x s.
Proof.
  intros H. induction s as [|[y a] s IH]; cbn [add_count]; [reflexivity|].
  destruct (bytes_eqb R_NBYTES y) eqn:E; rewrite !look_cons.
  - apply bytes_eqb_eq in E. subst y. now rewrite (eqb_neq H).
  - now rewrite IH.
Qed.
Lemma look_counted k s n : look R_NBYTES s = Some (ECount n) -> look R_NBYTES (add_count k s) = Some (ECount (n + k)).
Proof.
  induction s as [|[y a] s IH]; cbn [add_count]; [discriminate|]. rewrite look_cons.
  destruct (bytes_eqb R_NBYTES y) eqn:E; rewrite look_cons, E; [now intros [= ->]|exact IH].
Qed.

(** The variables a statement can use are there. *)
Record ready (s : estore) (ca : cattr) (fa : fattr) (n : N) : Prop := mkready {
  r_buffer : look BUFFER s = Some EBuffer;
  r_count : look R_NBYTES s = Some (ECount n);
  r_cattr : look CATTR_NEW s = Some (ECattr ca);
  r_fattr : look FATTR_NEW s = Some (EFattr fa)
}.
(** Apart from [x] and the number of bytes nothing has changed. *)
Definition same_but (x : bytes) (s s' : estore) : Prop := forall y, y <> x -> y <> R_NBYTES -> look y s' = look y s.
Definition free_name (x : bytes) : Prop := ~ In x encoder_names.
Lemma free_ne x : free_name x -> x <> BUFFER /\ x <> R_NBYTES /\ x <> CATTR_NEW /\ x <> FATTR_NEW.
Proof. intros H. repeat split; intros ->; apply H; cbn; auto 6. Qed.

Lemma ready_add s ca fa n k : ready s ca fa n -> ready (add_count k s) ca fa (n + k).
Proof.
  intros [B C K F]. split.
  - rewrite look_count by discriminate. exact B.
  - now apply look_counted.
  - rewrite look_count by discriminate. exact K.
  - rewrite look_count by discriminate. exact F.
Qed.
Lemma ready_bind s ca fa n x a : free_name x -> ready s ca fa n -> ready ((x, a) :: s) ca fa n.
Proof.
  intros H [B C K F]. apply free_ne in H as (N1 & N2 & N3 & N4).
  split; rewrite look_cons, eqb_neq by congruence; assumption.
Qed.
Lemma adds_sim s ca fa n (m : wr N) : ready s ca fa n ->
  wsim (adds s m) m (fun s' k => s' = add_count k s).
Proof.
  intros [B C K F] b. unfold adds, on_buffer. rewrite B, C. unfold wbind, wret. destruct (m b); auto.
Qed.
Lemma adds_with_sim s ca fa n (m : cattr -> fattr -> wr N) : ready s ca fa n ->
  wsim (adds_with s m) (m ca fa) (fun s' k => s' = add_count k s).
Proof. intros H. unfold adds_with. rewrite (r_cattr H), (r_fattr H). eapply adds_sim, H. Qed.

(** ** One field *)
Definition now_at (x : bytes) (f : fspec) (en : env) (v : val) (s s' : estore) : Prop :=
  look x s' = match f_with_encode f, f_skip_encode f, f_bits f, f_untake f, f_value_encode f with
              | None, false, None, true, _ => look x s
              | None, false, _, _, Some g => Some (EVal (g en v))
              | _, _, _, _, _ => look x s
              end.
Record field_done (x : bytes) (f : fspec) (en : env) (v : val) (ca : cattr) (fa : fattr) (n : N) (s s' : estore) (k : N) : Prop :=
  mkdone { fd_ready : ready s' ca fa (n + k); fd_same : same_but x s s'; fd_now : x <> R_NBYTES -> now_at x f en v s s' }.

Lemma padding_sim ety en f s (E : env) ca fa n : ready s ca fa n ->
  eval_opt (f_offset f) (en s) = eval_opt (f_offset f) E ->
  wsim (run_estmts ety (gen_padding en f) s) (enc_offset f E) (fun s' _ => s' = s).
Proof.
  intros H He. unfold gen_padding, enc_offset. rewrite <- He. unfold eval_opt, option_map. destruct (f_offset f) as [e|]; cbn.
  - unfold on_buffer. rewrite (r_buffer H). intros b. unfold wbind, wret. destruct (enc_list _ _ b); auto.
  - now apply wsim_ret.
Qed.

Lemma place_count p s k : p <> Bare R_NBYTES -> p <> Changed R_NBYTES -> at_place p (add_count k s) = at_place p s.
Proof.
  destruct p as [i|x|x]; cbn; intros H H'; rewrite look_count; try reflexivity; try discriminate; intros ->; contradiction.
Qed.

Lemma same_but_refl x s : same_but x s s.
Proof. now intros y _ _. Qed.
Lemma same_but_trans x s s' s'' : same_but x s s' -> same_but x s' s'' -> same_but x s s''.
Proof. intros H K y Hx Hn. rewrite K by assumption. now apply H. Qed.
Lemma same_but_bind x s a : same_but x s ((x, a) :: s).
Proof. intros y Hx _. rewrite look_cons. now rewrite (eqb_neq Hx). Qed.
Lemma same_but_add x s k : same_but x s (add_count k s).
Proof. intros y _ Hn. now apply look_count. Qed.

Lemma efield_sim ety (en : estore -> env) p x i f t s E v ca fa n :
  ready s ca fa n -> at_place p s = Some v ->
  (forall s', same_but x s s' -> rewritten f \/ x = R_NBYTES \/ look x s' = look x s -> en s' = en s) ->
  p <> Bare R_NBYTES -> p <> Changed R_NBYTES ->
  (rewritten f -> free_name x) ->
  eval_opt (f_offset f) (en s) = eval_opt (f_offset f) E ->
  (forall g, f_with_encode f = Some g -> forall ca fa v b, g (en s) ca fa v b = g E ca fa v b) ->
  (forall g, f_value_encode f = Some g -> forall v, g (en s) v = g E v) ->
  wsim (run_estmts ety (gen_efield en p x i f t) s) (enc_field (ety t) f ca fa E v)
       (field_done x f E v ca fa n s).
Proof.
  intros R P En NB NC X Ho Hw Hv.
  unfold gen_efield, enc_field.
  destruct (f_with_encode f) as [g|] eqn:Ew.
  { cbn [run_estmts run_estmt]. rewrite P.
    eapply wsim_ext with (m := s' <~ adds_with s (fun ca fa => g (en s) ca fa v) ;; wret s') (n := k <~ g (en s) ca fa v ;; wret k);
      [reflexivity|intros b; rewrite wbind_ret; now apply Hw|].
    eapply wsim_bind; [exact (adds_with_sim (fun ca fa => g (en s) ca fa v) R)|]. cbv beta. intros s' k ->. apply wsim_ret. split.
    - now apply ready_add.
    - apply same_but_add.
    - intros N. unfold now_at. rewrite Ew. now apply look_count. }
  destruct (f_skip_encode f) eqn:Es.
  { apply wsim_ret. split; [now rewrite N.add_0_r|apply same_but_refl|]. intros _. unfold now_at. now rewrite Ew, Es. }
  (* the text *)
  assert (T : wsim (run_estmts ety (match f_from_str f with Some (_, show) => [WriteText p show] | None => [] end) s)
                   (match f_from_str f with Some (_, show) => enc_raw ca fa (show v) | None => wret 0 end)
                   (fun s' k => s' = add_count k s \/ s' = s /\ k = 0)).
  { destruct (f_from_str f) as [[parse show]|]; [|apply wsim_ret; auto].
    cbn [run_estmts run_estmt]. rewrite P.
    eapply wsim_ext with (m := s' <~ adds_with s (fun ca fa => enc_raw ca fa (show v)) ;; wret s') (n := k <~ enc_raw ca fa (show v) ;; wret k);
      [reflexivity|intros b; now rewrite wbind_ret|].
    eapply wsim_bind; [exact (adds_with_sim (fun ca fa => enc_raw ca fa (show v)) R)|]. cbv beta. intros s' k ->. apply wsim_ret. auto. }
  eapply wsim_ext; [intros b; symmetry; apply run_eapp|reflexivity|].
  unfold plus. eapply wsim_bind; [exact T|]. cbv beta. intros s1 k1 H1.
  assert (R1 : ready s1 ca fa (n + k1) /\ same_but x s s1 /\ (x <> R_NBYTES -> look x s1 = look x s) /\ at_place p s1 = Some v).
  { destruct H1 as [->|[-> ->]].
    - split; [now apply ready_add|]. split; [apply same_but_add|]. split; [intros N; now apply look_count|].
      now rewrite place_count.
    - rewrite N.add_0_r. split; [exact R|]. split; [apply same_but_refl|]. auto. }
  clear T H1 P R. destruct R1 as (R & S1 & L1 & P).
  assert (En1 : en s1 = en s).
  { apply En; [exact S1|]. destruct (list_eq_dec Byte.byte_eq_dec x R_NBYTES); auto. }
  set (last := match f_value_encode f with
               | Some g => [LetField x i p; LetChanged x i (fun s => g (en s)); WriteField (Changed x) i t]
               | None => [WriteField p i t]
               end).
  set (main := match f_bits f, f_untake f with None, true => [] | _, _ => gen_padding en f ++ last end).
  set (main' := match f_bits f, f_untake f with
          | None, true => wret 0
          | _, _ => _ <~ enc_offset f E ;; ety t ca fa (match f_value_encode f with Some g => g E v | None => v end)
          end).
  cut (wsim (run_estmts ety main s1) main' (fun s' k => field_done x f E v ca fa (n + k1) s1 s' k)).
  { intros H. eapply wsim_ext with (m := s' <~ run_estmts ety main s1 ;; wret s'); [intros b; now rewrite wbind_ret|reflexivity|].
    eapply wsim_bind; [exact H|]. cbv beta. intros s2 k2 [R2 S2 N2]. apply wsim_ret. split.
    - now rewrite N.add_assoc.
    - eapply same_but_trans; eassumption.
    - intros N. specialize (N2 N). unfold now_at in *. rewrite N2, L1 by exact N. reflexivity. }
  assert (C : f_bits f = None /\ f_untake f = true /\ main = [] /\ main' = wret 0 \/
              ~ (f_bits f = None /\ f_untake f = true) /\ main = gen_padding en f ++ last /\
              main' = (_ <~ enc_offset f E ;; ety t ca fa (match f_value_encode f with Some g => g E v | None => v end))).
  { unfold main, main'. destruct (f_bits f), (f_untake f); auto; right; (split; [intros [? ?]; discriminate|auto]). }
  destruct C as [(Eb & Eu & -> & ->)|(Nb & -> & ->)].
  { apply wsim_ret. split; [now rewrite N.add_0_r|apply same_but_refl|]. intros _. unfold now_at. now rewrite Ew, Es, Eb, Eu. }
  assert (Now : forall s', (x <> R_NBYTES -> look x s' = match f_value_encode f with Some g => Some (EVal (g E v)) | None => look x s1 end) ->
                x <> R_NBYTES -> now_at x f E v s1 s').
  { intros s' H N. specialize (H N). unfold now_at. rewrite Ew, Es, H. destruct (f_bits f), (f_untake f), (f_value_encode f); try reflexivity.
    destruct Nb; auto. }
  eapply wsim_ext; [intros b; symmetry; apply run_eapp|reflexivity|].
  eapply wsim_bind; [eapply padding_sim; [exact R|now rewrite En1]|]. cbv beta. intros s2 _ ->.
  subst last. destruct (f_value_encode f) as [g|] eqn:Ev.
  - assert (W : rewritten f) by (unfold rewritten; rewrite Ew, Es, Ev; repeat split; auto; discriminate).
    pose proof (X W) as F.
    pose proof (free_ne F) as (N1 & N2 & N3 & N4).
    cbn [run_estmts run_estmt]. rewrite P. unfold wbind at 1, wret at 1. 
    set (s2 := (x, EVal v) :: s1).
    assert (L2 : look x s2 = Some (EVal v)) by (subst s2; now rewrite look_cons, eqb_refl).
    eapply wsim_ext with (m := s' <~ run_estmt ety (WriteField (Changed x) i t) ((x, EVal (g E v)) :: s2) ;; wret s')
      (n := k <~ ety t ca fa (g E v) ;; wret k); [|intros b; now rewrite wbind_ret|].
    { intros b. rewrite L2. unfold wbind at 2, wret at 2. rewrite (En s2), (Hv g eq_refl); [reflexivity| |auto].
      eapply same_but_trans; [exact S1|apply same_but_bind]. }
    set (s3 := (x, EVal (g E v)) :: s2).
    assert (L3 : look x s3 = Some (EVal (g E v))) by (subst s3; now rewrite look_cons, eqb_refl).
    cbn [run_estmt at_place]. rewrite L3.
    assert (R3 : ready s3 ca fa (n + k1)) by now repeat apply ready_bind.
    eapply wsim_bind; [exact (adds_with_sim (fun ca fa => ety t ca fa (g E v)) R3)|]. cbv beta. intros s' k ->. apply wsim_ret. split.
    + now apply ready_add.
    + eapply same_but_trans; [apply same_but_bind|]. eapply same_but_trans; [apply same_but_bind|]. apply same_but_add.
    + apply Now. intros N. now rewrite look_count.
  - cbn [run_estmts run_estmt]. rewrite P.
    eapply wsim_ext with (m := s' <~ adds_with s1 (fun ca fa => ety t ca fa v) ;; wret s') (n := k <~ ety t ca fa v ;; wret k);
      [reflexivity|intros b; now rewrite wbind_ret|].
    eapply wsim_bind; [exact (adds_with_sim (fun ca fa => ety t ca fa v) R)|]. cbv beta. intros s' k ->. apply wsim_ret. split.
    + now apply ready_add.
    + apply same_but_add.
    + apply Now. intros N. now apply look_count.
Qed.

(** ** The number that is returned *)
Definition counted (s : estore) : Prop := forall y n, In (y, ECount n) s -> y = R_NBYTES.
Lemma count_of_look s n : counted s -> look R_NBYTES s = Some (ECount n) -> count_of s = n.
Proof.
  induction s as [|[y a] s IH]; intros C H; [discriminate|]. rewrite look_cons in H. cbn [count_of].
  destruct (bytes_eqb R_NBYTES y) eqn:E.
  - injection H as ->. reflexivity.
  - destruct a; try (apply IH; [|exact H]; intros z m Hz; apply (C z m); now right).
    rewrite (C y n0 (or_introl eq_refl)), eqb_refl in E. discriminate.
Qed.
Lemma counted_bind x a s : (forall n, a <> ECount n) -> counted s -> counted ((x, a) :: s).
Proof. intros H C y n [[= -> ->]|Hin]; [now destruct (H n)|eauto]. Qed.
Lemma counted_add k s : counted s -> counted (add_count k s).
Proof.
  induction s as [|[y a] s IH]; intros C; [easy|]. cbn [add_count].
  destruct (bytes_eqb R_NBYTES y) eqn:E.
  - apply bytes_eqb_eq in E. intros z n [[= <- _]|Hin]; [congruence|]. apply (C z n). now right.
  - intros z n [[= <- ->]|Hin]; [apply (C y n); now left|].
    apply (IH (fun z' n' H => C z' n' (or_intror H)) z n Hin).
Qed.
Lemma wbind_ok {A B} (m : wr A) (k : A -> wr B) b c b' : wbind m k b = Ok c b' -> exists a b1, m b = Ok a b1 /\ k a b1 = Ok c b'.
Proof. unfold wbind. destruct (m b) as [a b1| | |]; try discriminate. eauto. Qed.
Lemma adds_counted s m b s' b' : counted s -> adds s m b = Ok s' b' -> counted s'.
Proof.
  unfold adds, on_buffer. intros C. destruct (look BUFFER s) as [[]|]; try discriminate.
  destruct (look R_NBYTES s) as [[]|]; try discriminate. intros H. apply wbind_ok in H as (k & b1 & _ & [= <- _]).
  now apply counted_add.
Qed.
Lemma adds_with_counted s m b s' b' : counted s -> adds_with s m b = Ok s' b' -> counted s'.
Proof.
  unfold adds_with. intros C. destruct (look CATTR_NEW s) as [[]|]; try discriminate.
  destruct (look FATTR_NEW s) as [[]|]; try discriminate. now apply adds_counted.
Qed.
Lemma stmt_counted ety c s b s' b' : counted s -> run_estmt ety c s b = Ok s' b' -> counted s'.
Proof.
  intros C. destruct c; cbn [run_estmt].
  - destruct (m s); [|discriminate]. intros [= <- _]. now apply counted_bind.
  - destruct (at_place p s); [|discriminate]. now apply adds_with_counted.
  - destruct (at_place p s); [|discriminate]. now apply adds_with_counted.
  - unfold on_buffer. destruct (look BUFFER s) as [[]|]; try discriminate. intros H.
    apply wbind_ok in H as (k & b1 & _ & [= <- _]). exact C.
  - destruct (at_place p s); [|discriminate]. intros [= <- _]. now apply counted_bind.
  - destruct (look x s) as [[]|]; try discriminate. intros [= <- _]. now apply counted_bind.
  - destruct (at_place p s); [|discriminate]. now apply adds_with_counted.
  - now apply adds_counted.
  - destruct (look CATTR_NEW s) as [[]|]; try discriminate. destruct (look FATTR s) as [[]|]; try discriminate.
    destruct (look CATTR s) as [[]|]; try discriminate. intros H.
    apply wbind_ok in H as (s1 & b1 & H & [= <- _]). apply counted_bind; [discriminate|]. eapply adds_counted; eassumption.
Qed.
Lemma stmts_counted ety l : forall s b s' b', counted s -> run_estmts ety l s b = Ok s' b' -> counted s'.
Proof.
  induction l as [|c l IH]; cbn; intros s b s' b' C H; [injection H as <- _; exact C|].
  apply wbind_ok in H as (s1 & b1 & H & K). eapply IH; [|exact K]. eapply stmt_counted; eassumption.
Qed.
Lemma returned ety l s (m : wr N) n : counted s ->
  wsim (run_estmts ety l s) m (fun s' k => look R_NBYTES s' = Some (ECount (n + k))) ->
  forall b, (s' <~ run_estmts ety l s ;; wret (count_of s')) b = (k <~ m ;; wret (n + k)) b.
Proof.
  intros C H b. specialize (H b). unfold wbind, wret. destruct (run_estmts ety l s b) as [s' b1| | |] eqn:E, (m b); try easy.
  - destruct H as [-> H]. f_equal. apply count_of_look; [|exact H]. eapply stmts_counted; eassumption.
  - destruct H as [-> ->]. reflexivity.
Qed.

(** ** The fields of a struct *)
Lemma enc_fields_cons ety inherit vars ca f t r prev done v vs :
  enc_fields ety inherit vars ca ((f, t) :: r) prev done (v :: vs) =
  match modifiers f (mkenv done vars) with
  | None => fun _ => Panic
  | Some own =>
      plus (enc_field (ety t) f ca (if inherit && negb (f_use f) then prev else own) (mkenv done vars) v)
           (enc_fields ety inherit vars ca r (if inherit && negb (f_use f) then prev else own) (done ++ [v]) vs)
  end.
Proof. reflexivity. Qed.

Lemma struct_sim ety vars ca fs : forall done vs s prev n,
  length vs = length fs ->
  look BUFFER s = Some EBuffer -> look R_NBYTES s = Some (ECount n) -> look CATTR_NEW s = Some (ECattr ca) ->
  look SELF s = Some (ESelf (done ++ vs)) ->
  (forall f, In f fs -> rewritten (n_spec f) -> free_name (n_name f) /\ n_name f <> SELF) ->
  wsim (run_estmts ety (gen_struct vars (length done) fs) s)
       (enc_fields ety false vars ca (map (fun f => (n_spec f, n_type f)) fs) prev done vs)
       (fun s' k => look R_NBYTES s' = Some (ECount (n + k))).
Proof.
  induction fs as [|f fs IH]; intros done vs s prev n Hl B C K Hs F.
  - destruct vs; [|discriminate]. apply wsim_ret. now rewrite N.add_0_r.
  - destruct vs as [|v vs]; [discriminate|]. injection Hl as Hl. cbn [map gen_struct]. rewrite enc_fields_cons.
    cbn [run_estmts run_estmt].
    assert (Sees : forall s, look SELF s = Some (ESelf (done ++ v :: vs)) -> sees_self (length done) vars s = mkenv done vars).
    { intros s0 H. unfold sees_self. rewrite H. now rewrite firstn_app, Nat.sub_diag, firstn_all, firstn_O, app_nil_r. }
    rewrite (Sees s Hs). destruct (modifiers (n_spec f) (mkenv done vars)) as [fa|]; [|apply wsim_panic].
    set (s1 := (FATTR_NEW, EFattr fa) :: s).
    assert (S1 : look SELF s1 = Some (ESelf (done ++ v :: vs))) by exact Hs.
    assert (R1 : ready s1 ca fa n) by (split; [exact B|exact C|exact K|reflexivity]).
    eapply wsim_ext with (m := run_estmts ety (gen_efield (sees_self (length done) vars) (OnSelf (length done)) (n_name f) (length done) (n_spec f) (n_type f)
                                 ++ gen_struct vars (S (length done)) fs) s1); [reflexivity|reflexivity|].
    eapply wsim_ext; [intros b; symmetry; apply run_eapp|reflexivity|]. unfold plus. cbn [negb andb].
    assert (Keep : forall s', same_but (n_name f) s1 s' ->
                   rewritten (n_spec f) \/ n_name f = R_NBYTES \/ look (n_name f) s' = look (n_name f) s1 ->
                   look SELF s' = Some (ESelf (done ++ v :: vs))).
    { intros s' H D. destruct (list_eq_dec Byte.byte_eq_dec (n_name f) SELF) as [Hn|Hn].
      - destruct D as [D|[D|D]].
        + apply F in D; [|now left]. intuition.
        + rewrite Hn in D. discriminate.
        + rewrite Hn in D. now rewrite D.
      - rewrite (H SELF); [exact S1|auto|discriminate]. }
    eapply wsim_bind.
    + apply efield_sim with (E := mkenv done vars) (v := v) (ca := ca) (fa := fa) (n := n).
      * exact R1.
      * cbn [at_place]. rewrite S1. rewrite nth_error_app2, Nat.sub_diag by lia. reflexivity.
      * intros s' H D. rewrite (Sees s1 S1). apply Sees. now apply Keep.
      * discriminate.
      * discriminate.
      * intros H. apply F; [now left|exact H].
      * now rewrite (Sees s1 S1).
      * intros g _. now rewrite (Sees s1 S1).
      * intros g _. now rewrite (Sees s1 S1).
    + cbv beta. intros s2 k [R2 S2 N2].
      assert (L2 : look SELF s2 = Some (ESelf ((done ++ [v]) ++ vs))).
      { rewrite <- app_assoc. apply Keep; [exact S2|].
        destruct (list_eq_dec Byte.byte_eq_dec (n_name f) R_NBYTES) as [Hn|Hn]; [auto|]. specialize (N2 Hn). unfold now_at in N2.
        unfold rewritten. destruct (f_with_encode (n_spec f)); [auto|]. destruct (f_skip_encode (n_spec f)); [auto|].
        destruct (f_bits (n_spec f)), (f_untake (n_spec f)), (f_value_encode (n_spec f)); auto;
          left; repeat split; try discriminate; intros [? ?]; discriminate. }
      replace (S (length done)) with (length (done ++ [v])) by (rewrite app_length; cbn; lia).
      eapply wsim_ext with (m := s' <~ run_estmts ety (gen_struct vars (length (done ++ [v])) fs) s2 ;; wret s');
        [intros b; now rewrite wbind_ret|reflexivity|].
      eapply wsim_bind.
      * eapply (IH (done ++ [v]) vs s2 fa (n + k)); [exact Hl|apply R2|apply R2|apply R2|exact L2|].
        intros h Hin. apply F. now right.
      * cbv beta. intros s3 k3 H3. apply wsim_ret. now rewrite N.add_assoc.
Qed.

(** ** The fields of a variant *)
Definition bound_at (s : estore) (f : field) (v : val) : Prop := look (n_name f) s = Some (EVal v).
Lemma sees_values s vars : forall fs ws, Forall2 (bound_at s) fs ws ->
  sees_bound (map n_name fs) vars s = mkenv ws vars.
Proof.
  intros fs ws H. unfold sees_bound. f_equal. induction H as [|f w fs ws H _ IH]; [reflexivity|].
  cbn [map]. rewrite H, IH. reflexivity.
Qed.
Lemma bound_same s s' x fs ws : Forall2 (bound_at s) fs ws -> same_but x s s' ->
  (forall f, In f fs -> n_name f <> x /\ n_name f <> R_NBYTES) -> Forall2 (bound_at s') fs ws.
Proof.
  intros H S N. induction H as [|f w fs ws H _ IH]; constructor.
  - destruct (N f (or_introl eq_refl)) as [Hx Hn]. unfold bound_at. now rewrite S.
  - apply IH. intros g Hg. apply N. now right.
Qed.
Lemma differ_length T en en' : differ_at T en en' -> length (ev_fields en) = length (ev_fields en').
Proof. now intros (_ & H & _). Qed.

Lemma variant_sim ety vars ca : forall fs pre s prev n done ws vs,
  (forall f, In f (pre ++ fs) -> free_name (n_name f)) -> NoDup (map n_name (pre ++ fs)) -> rewritten_unused (pre ++ fs) ->
  ready s ca prev n -> Forall2 (bound_at s) pre ws -> Forall2 (bound_at s) fs vs ->
  differ_at (fun i => (i < length pre)%nat /\ exists h, nth_error (pre ++ fs) i = Some h /\ rewritten (n_spec h))
            (mkenv ws vars) (mkenv done vars) ->
  wsim (run_estmts ety (gen_variant vars (map n_name pre) (length pre) fs) s)
       (enc_fields ety true vars ca (map (fun f => (n_spec f, n_type f)) fs) prev done vs)
       (fun s' k => look R_NBYTES s' = Some (ECount (n + k))).
Proof.
  induction fs as [|f fs IH]; intros pre s prev n done ws vs Hf Hd Hu R Hp Hv D.
  - inversion Hv; subst vs. apply wsim_ret. rewrite N.add_0_r. apply R.
  - inversion Hv as [|? v ? vs' Hx Hv']; subst. rename vs' into vs. cbn [map gen_variant]. rewrite enc_fields_cons.
    set (T := fun i => (i < length pre)%nat /\ exists h, nth_error (pre ++ f :: fs) i = Some h /\ rewritten (n_spec h)) in *.
    assert (I : indifferent T (n_spec f)).
    { apply Hu. now rewrite nth_error_app2, Nat.sub_diag by lia. }
    specialize (I _ _ D). destruct I as (Im & Io & Iw & Iv).
    assert (Fx : free_name (n_name f)) by (apply Hf; rewrite in_app_iff; cbn; auto).
    pose proof (free_ne Fx) as (N1 & N2 & N3 & N4).
    assert (Nx : ~ In (n_name f) (map n_name pre)).
    { rewrite map_app in Hd. cbn in Hd. apply NoDup_remove_2 in Hd. rewrite in_app_iff in Hd. intuition. }
    assert (Ny : forall g, In g fs -> n_name g <> n_name f).
    { intros g Hg E. rewrite map_app in Hd. cbn in Hd. apply NoDup_remove_2 in Hd. apply Hd. rewrite in_app_iff. right.
      rewrite <- E. now apply in_map. }
    assert (Pn : forall g, In g pre -> n_name g <> n_name f /\ n_name g <> R_NBYTES).
    { intros g Hg. split.
      - intros E. apply Nx. rewrite <- E. now apply in_map.
      - assert (G : free_name (n_name g)) by (apply Hf; rewrite in_app_iff; auto). apply free_ne in G. intuition. }
    assert (Qn : forall g, In g fs -> n_name g <> n_name f /\ n_name g <> R_NBYTES).
    { intros g Hg. split; [now apply Ny|].
      assert (G : free_name (n_name g)) by (apply Hf; rewrite in_app_iff; cbn; auto). apply free_ne in G. intuition. }
    (* the modifiers *)
    set (own := modifiers (n_spec f) (mkenv done vars)) in *.
    destruct own as [fa0|] eqn:Em; subst own.
    2: { destruct (f_use (n_spec f)) eqn:Eu; cbn [app run_estmts run_estmt].
         - rewrite (sees_values vars Hp), Im. apply wsim_panic.
         - unfold modifiers in Em. rewrite Eu in Em. discriminate. }
    set (fa := if true && negb (f_use (n_spec f)) then prev else fa0).
    set (s1 := if f_use (n_spec f) then (FATTR_NEW, EFattr fa0) :: s else s).
    assert (R1 : ready s1 ca fa n).
    { subst s1 fa. destruct (f_use (n_spec f)); cbn [negb andb]; [|exact R].
      split; [apply R|apply R|apply R|reflexivity]. }
    assert (L1 : forall g w, In g (pre ++ f :: fs) -> bound_at s g w -> bound_at s1 g w).
    { intros g w Hg H. subst s1. destruct (f_use (n_spec f)); [|exact H]. unfold bound_at. rewrite look_cons.
      apply Hf, free_ne in Hg. rewrite eqb_neq by intuition. exact H. }
    assert (L1s : forall gs ws, (forall g, In g gs -> In g (pre ++ f :: fs)) -> Forall2 (bound_at s) gs ws -> Forall2 (bound_at s1) gs ws).
    { intros gs ws0 H X. induction X as [|g w gs ws0 X _ IHX]; constructor.
      - apply L1; [|exact X]. apply H. now left.
      - apply IHX. intros g0 H0. apply H. now right. }
    assert (Hp1 : Forall2 (bound_at s1) pre ws) by (apply L1s; [intros g Hg; rewrite in_app_iff; auto|exact Hp]).
    assert (Hv1 : Forall2 (bound_at s1) fs vs) by (apply L1s; [intros g Hg; rewrite in_app_iff; cbn; auto|exact Hv']).
    assert (Hx1 : bound_at s1 f v) by (apply L1; [rewrite in_app_iff; cbn; auto|exact Hx]).
    eapply wsim_ext with (m := run_estmts ety (gen_efield (sees_bound (map n_name pre) vars) (Bare (n_name f)) (n_name f) (length pre) (n_spec f) (n_type f)
                                 ++ gen_variant vars (map n_name pre ++ [n_name f]) (S (length pre)) fs) s1); [|reflexivity|].
    { intros b. subst s1. destruct (f_use (n_spec f)); [|reflexivity].
      cbn [app run_estmts run_estmt]. rewrite (sees_values vars Hp), Im. reflexivity. }
    eapply wsim_ext; [intros b; symmetry; apply run_eapp|reflexivity|]. unfold plus.
    eapply wsim_bind.
    + apply efield_sim with (E := mkenv done vars) (v := v) (ca := ca) (fa := fa) (n := n).
      * exact R1.
      * cbn [at_place]. unfold bound_at in Hx1. now rewrite Hx1.
      * intros s' H _. rewrite (sees_values vars Hp1). apply sees_values. eapply bound_same; eassumption.
      * intros [= E]. contradiction.
      * discriminate.
      * intros _. exact Fx.
      * now rewrite (sees_values vars Hp1).
      * now rewrite (sees_values vars Hp1).
      * now rewrite (sees_values vars Hp1).
    + cbv beta. intros s2 k [R2 S2 N2'].
      specialize (N2' N2).
      set (w := value_of_elocal (look (n_name f) s2)).
      assert (Hw : bound_at s2 f w /\ (w = v \/ rewritten (n_spec f))).
      { unfold bound_at in *. unfold w. unfold now_at in N2'. rewrite N2', Hx1. unfold rewritten.
        destruct (f_with_encode (n_spec f)); [auto|]. destruct (f_skip_encode (n_spec f)); [auto|].
        destruct (f_bits (n_spec f)), (f_untake (n_spec f)), (f_value_encode (n_spec f)); auto;
          (split; [reflexivity|]); right; repeat split; try discriminate; intros [? ?]; discriminate. }
      destruct Hw as [Hw Hwv].
      replace (map n_name pre ++ [n_name f]) with (map n_name (pre ++ [f])) by (rewrite map_app; reflexivity).
      replace (S (length pre)) with (length (pre ++ [f])) by (rewrite app_length; cbn; lia).
      assert (Ea : (pre ++ [f]) ++ fs = pre ++ f :: fs) by (rewrite <- app_assoc; reflexivity).
      eapply wsim_ext with (m := s' <~ run_estmts ety (gen_variant vars (map n_name (pre ++ [f])) (length (pre ++ [f])) fs) s2 ;; wret s');
        [intros b; now rewrite wbind_ret|reflexivity|].
      eapply wsim_bind.
      * apply (IH (pre ++ [f]) s2 fa (n + k) (done ++ [v]) (ws ++ [w]) vs); rewrite ?Ea; auto.
        -- apply Forall2_app; [eapply bound_same; eassumption|]. constructor; [exact Hw|constructor].
        -- eapply bound_same; eassumption.
        -- destruct D as (_ & Dl & Di). cbn [ev_fields] in *. split; [reflexivity|]. cbn [ev_fields]. split; [rewrite !app_length; cbn; lia|].
           assert (Hl : length pre = length ws) by (clear - Hp; induction Hp; cbn; congruence).
           intros j Hj. destruct (Nat.lt_ge_cases j (length pre)) as [Hlt|Hge].
           ++ rewrite !nth_error_app1 by lia. apply Di. intros (_ & h & Hh). apply Hj. split; [rewrite app_length; lia|].
              exists h. exact Hh.
           ++ destruct (Nat.eq_dec j (length pre)) as [->|Hne].
              ** rewrite !nth_error_app2 by lia. replace (length pre - length ws)%nat with O by lia.
                 replace (length pre - length done)%nat with O by lia. cbn. destruct Hwv as [->|Hr]; [reflexivity|].
                 destruct Hj. split; [rewrite app_length; cbn; lia|]. exists f. split; [|exact Hr].
                 now rewrite nth_error_app2, Nat.sub_diag by lia.
              ** rewrite !(proj2 (nth_error_None _ _)); [reflexivity| |]; rewrite app_length; cbn; lia.
      * cbv beta. intros s3 k3 H3. apply wsim_ret. now rewrite N.add_assoc.
Qed.

(** ** What compiles *)
Lemma can_write_free g x k b : can_write g = true -> look x g = Some (XField k b) -> free_name x.
Proof.
  unfold can_write, has_count, has_buffer. intros H L Hin. rewrite !andb_true_iff in H. destruct H as ((H1 & H2) & H3).
  destruct Hin as [<-|[<-|[<-|[<-|[]]]]].
  - change (list_byte_of_string "buffer") with BUFFER in L. rewrite L in H1. discriminate.
  - change (list_byte_of_string "r_nbytes") with R_NBYTES in L. rewrite L in H2. discriminate.
  - change (list_byte_of_string "cattr_new") with CATTR_NEW in L. rewrite L in H3. discriminate.
  - change (list_byte_of_string "fattr_new") with FATTR_NEW in L. rewrite L in H3. destruct (look CATTR_NEW g) as [[]|]; discriminate.
Qed.
Lemma is_name_self x : is_name x = true -> x <> SELF.
Proof. intros H ->. discriminate. Qed.

(** What the code of one field leaves in scope. *)
Definition more_scope (f : fspec) (x : bytes) (i : nat) (g g' : escope) : Prop :=
  g' = g \/ rewritten f /\ g' = (x, XField i true) :: (x, XField i false) :: g.
Lemma rewritten_written f : rewritten f -> ~ unwritten f.
Proof. intros (H1 & H2 & H3 & H4) (_ & [H|(_ & H)]); [congruence|auto]. Qed.
Lemma padding_check en f g g' : check_estmts (gen_padding en f) g = Some g' -> g' = g.
Proof. unfold gen_padding. destruct (f_offset f); cbn; [|congruence]. destruct (has_buffer g); congruence. Qed.
Lemma efield_scope en p x i f t g g' : check_estmts (gen_efield en p x i f t) g = Some g' ->
  more_scope f x i g g' /\ (rewritten f -> free_name x /\ is_name x = true) /\
  (~ unwritten f -> forall y, p = Bare y -> y = x -> free_name x /\ exists k b, look x g = Some (XField k b)).
Proof.
  unfold gen_efield. unfold more_scope, rewritten. unfold unwritten at 1.
  destruct (f_with_encode f) as [w|] eqn:Ew.
  { cbn. destruct (can_write g) eqn:E; [|discriminate]. cbn [andb]. intros H. split; [|split].
    - left. destruct p; [congruence|destruct (look x0 g) as [[]|]; congruence|destruct (look x0 g) as [[]|]; congruence].
    - intros (H' & _). discriminate.
    - intros _ y -> ->. destruct (look x g) as [[]|] eqn:L; try discriminate. split; [eapply can_write_free; eassumption|eauto]. }
  destruct (f_skip_encode f) eqn:Es.
  { cbn. intros [= <-]. split; [now left|]. split; [intros (_ & ? & _); discriminate|]. intros H. destruct H. auto. }
  rewrite check_eapp.
  destruct (check_estmts (match f_from_str f with Some (_, show) => [WriteText p show] | None => [] end) g) as [g1|] eqn:Et; [|discriminate].
  assert (g1 = g /\ (f_from_str f <> None -> forall y, p <> Bare y)) as [-> Hfs].
  { destruct (f_from_str f) as [[? show]|]; cbn in Et; [|split; congruence].
    destruct p; try discriminate. destruct (can_write g); [|discriminate]. split; [congruence|]. intros _ y. discriminate. }
  destruct (f_bits f) as [bits|] eqn:Eb; [|destruct (f_untake f) eqn:Eu].
  2: { cbn. intros [= <-]. split; [now left|]. split; [intros (_ & _ & _ & H); destruct H; auto|].
       intros H y -> ->. destruct (f_from_str f) as [?|] eqn:Ef; [|destruct H; auto].
       destruct (Hfs ltac:(discriminate) x eq_refl). }
  all: rewrite check_eapp; destruct (check_estmts (gen_padding en f) g) as [g2|] eqn:Ep; [|discriminate];
    apply padding_check in Ep; subst g2.
  all: destruct (f_value_encode f) as [ve|] eqn:Ev; cbn [check_estmts check_estmt];
    [|destruct (can_write g) eqn:E; [|discriminate]; destruct (place_fits p i g) eqn:Pf; [|discriminate]; intros [= <-];
      (split; [now left|]); (split; [intros (_ & _ & H & _); now destruct H|]); intros _ y -> ->;
      cbn in Pf; destruct (look x g) as [[]|] eqn:L; try discriminate; (split; [eapply can_write_free; eassumption|eauto])].
  all: destruct (is_name x) eqn:Ex; [|discriminate]; cbn [andb].
  all: destruct (match p with
                 | OnSelf _ => true
                 | Bare y | Changed y => match look y g with Some (XField j _) => Nat.eqb i j | _ => false end
                 end) eqn:Pl; [|discriminate].
  all: rewrite look_cons, eqb_refl, Nat.eqb_refl.
  all: destruct (can_write ((x, XField i true) :: (x, XField i false) :: g)) eqn:E; [|discriminate]; cbn [andb].
  all: destruct (place_fits _ _ _); [|discriminate]; intros [= <-].
  all: assert (F : free_name x) by (eapply can_write_free; [exact E|]; rewrite look_cons, eqb_refl; reflexivity).
  all: (split; [right; repeat split; auto; try discriminate; intros [? ?]; discriminate|]); split; [auto|]; intros _ y -> ->; split; [exact F|].
  all: destruct (look x g) as [[]|]; try discriminate; eauto.
Qed.

Lemma struct_checked vars fs : forall i g g', check_estmts (gen_struct vars i fs) g = Some g' ->
  forall f, In f fs -> rewritten (n_spec f) -> free_name (n_name f) /\ is_name (n_name f) = true.
Proof.
  induction fs as [|h fs IH]; intros i g g' H f Hin; [easy|]. cbn [gen_struct check_estmts check_estmt] in H.
  rewrite check_eapp in H. destruct (check_estmts (gen_efield _ _ _ _ _ _) _) as [g1|] eqn:E; [|discriminate].
  apply efield_scope in E as (_ & E & _). destruct Hin as [->|Hin]; [exact E|]. eapply IH; eassumption.
Qed.

Lemma variant_checked vars fs : forall before i g g', check_estmts (gen_variant vars before i fs) g = Some g' ->
  forall f, In f fs -> ~ unwritten (n_spec f) -> free_name (n_name f).
Proof.
  induction fs as [|h fs IH]; intros before i g g' H f Hin; [easy|]. cbn [gen_variant] in H.
  rewrite check_eapp in H. destruct (check_estmts (if f_use (n_spec h) then _ else _) _) as [g0|] eqn:E0; [|discriminate].
  rewrite check_eapp in H. destruct (check_estmts (gen_efield _ _ _ _ _ _) _) as [g1|] eqn:E; [|discriminate].
  apply efield_scope in E as (_ & _ & E). destruct Hin as [->|Hin]; [|eapply IH; eassumption].
  intros Hu. now apply (E Hu (n_name f)).
Qed.
(** A variable that is not a field is never one later, if the field of that name is
    written. *)
Lemma variant_not_field vars fs : forall before i g g' y, check_estmts (gen_variant vars before i fs) g = Some g' ->
  (forall k b, look y g <> Some (XField k b)) -> forall f, In f fs -> n_name f = y -> ~ ~ unwritten (n_spec f).
Proof.
  induction fs as [|h fs IH]; intros before i g g' y H L f Hin; [easy|]. cbn [gen_variant] in H.
  rewrite check_eapp in H. destruct (check_estmts (if f_use (n_spec h) then _ else _) _) as [g0|] eqn:E0; [|discriminate].
  assert (L0 : forall k b, look y g0 <> Some (XField k b)).
  { destruct (f_use (n_spec h)); cbn [check_estmts check_estmt] in E0; injection E0 as <-; [|exact L]. rewrite look_cons. intros k b. destruct (bytes_eqb y FATTR_NEW); [intros [=]|apply L]. }
  rewrite check_eapp in H. destruct (check_estmts (gen_efield _ _ _ _ _ _) _) as [g1|] eqn:E; [|discriminate].
  apply efield_scope in E as (M & _ & W).
  intros Hn Hu. destruct Hin as [->|Hin].
  - destruct (W Hu (n_name f) eq_refl eq_refl) as (_ & k & b & Lx). rewrite Hn in Lx. eapply L0, Lx.
  - eapply (IH _ _ g1 g' y H); [|exact Hin|exact Hn|exact Hu].
    intros k b. destruct M as [->|[Hr ->]]; [apply L0|]. rewrite !look_cons. destruct (bytes_eqb y (n_name h)) eqn:Ey; [|apply L0].
    apply bytes_eqb_eq in Ey. subst y. rewrite Ey in L0.
    destruct (W (rewritten_written Hr) (n_name h) eq_refl eq_refl) as (_ & k' & b' & Lx). now destruct (L0 k' b').
Qed.

Lemma more_writes f x i g g' : more_scope f x i g g' -> (rewritten f -> free_name x) ->
  forall y, In y encoder_names -> look y g' = look y g.
Proof.
  intros [->|[Hr ->]] F y Hy; [reflexivity|]. rewrite !look_cons, eqb_neq; [reflexivity|]. intros ->. now apply (F Hr).
Qed.
Lemma can_write_same g g' : (forall y, In y encoder_names -> look y g' = look y g) -> can_write g' = can_write g.
Proof.
  intros H. unfold can_write, has_count, has_buffer.
  rewrite !H; [reflexivity|cbn; auto 6..].
Qed.
(** The text of a [from_str] field is written. *)
Definition texted (f : fspec) : Prop := f_with_encode f = None /\ f_skip_encode f = false /\ f_from_str f <> None.
Lemma efield_check en p x i f t g : can_write g = true -> (rewritten f -> free_name x /\ is_name x = true) ->
  (p = OnSelf i \/ p = Bare x /\ look x g = Some (XField i false) /\ ~ texted f) ->
  exists g', check_estmts (gen_efield en p x i f t) g = Some g'.
Proof.
  intros W R P. unfold gen_efield, rewritten, texted in *.
  destruct (f_with_encode f).
  { cbn [check_estmts check_estmt]. rewrite W. destruct P as [->|(-> & L & _)]; [|rewrite L]; exists g; reflexivity. }
  destruct (f_skip_encode f); [cbn; eauto|].
  rewrite check_eapp.
  replace (check_estmts (match f_from_str f with Some (_, show) => [WriteText p show] | None => [] end) g) with (Some g).
  2: { destruct (f_from_str f) as [[? show]|]; [|reflexivity]. cbn [check_estmts check_estmt].
       destruct P as [->|(_ & _ & P)]; [now rewrite W|]. destruct P. repeat split; discriminate. }
  assert (Pf : place_fits p i g = true).
  { destruct P as [->|(-> & L & _)]; cbn [place_fits]; [|rewrite L]; apply Nat.eqb_refl. }
  assert (Pad : check_estmts (gen_padding en f) g = Some g).
  { unfold gen_padding. destruct (f_offset f); [|reflexivity]. cbn [check_estmts check_estmt].
    unfold can_write, has_count in W. rewrite !andb_true_iff in W. destruct W as ((-> & _) & _). reflexivity. }
  assert (Last : (f_value_encode f <> None -> free_name x /\ is_name x = true) ->
    exists g', check_estmts (match f_value_encode f with
        | Some g => [LetField x i p; LetChanged x i (fun s => g (en s)); WriteField (Changed x) i t]
        | None => [WriteField p i t]
        end) g = Some g').
  { intros Hv. destruct (f_value_encode f); cbn [check_estmts check_estmt]; [|rewrite W, Pf; exists g; reflexivity].
    destruct (Hv ltac:(discriminate)) as [F N]. rewrite N. cbn [andb].
    replace (match p with
             | OnSelf _ => true
             | Bare y | Changed y => match look y g with Some (XField j _) => Nat.eqb i j | _ => false end
             end) with true.
    2: { destruct P as [->|(-> & L & _)]; [reflexivity|]. now rewrite L, Nat.eqb_refl. }
    rewrite look_cons, eqb_refl, Nat.eqb_refl.
    rewrite (@can_write_same g), W.
    - cbn [place_fits andb]. rewrite look_cons, eqb_refl, Nat.eqb_refl. eexists; reflexivity.
    - intros y Hy. rewrite !look_cons, eqb_neq; [reflexivity|]. intros ->. now apply F. }
  destruct (f_bits f); [|destruct (f_untake f); [cbn; eauto|]]; rewrite check_eapp, Pad; apply Last; intros Hv; apply R;
    repeat split; auto; intros [? ?]; discriminate.
Qed.
Definition has_names (g : escope) : Prop :=
  look BUFFER g = Some XBuffer /\ look R_NBYTES g = Some XCount /\ look CATTR_NEW g = Some XCattr.
Lemma has_names_write g : has_names g -> look FATTR_NEW g = Some XFattr -> can_write g = true.
Proof. intros (B & C & K) F. unfold can_write, has_count, has_buffer. now rewrite B, C, K, F. Qed.
Lemma has_names_more f x i g g' : has_names g -> more_scope f x i g g' -> (rewritten f -> free_name x) -> has_names g'.
Proof. intros (B & C & K) M F. repeat split; rewrite (more_writes M F); auto; cbn; auto 6. Qed.

Lemma struct_check vars fs : forall i g, has_names g ->
  (forall f, In f fs -> rewritten (n_spec f) -> free_name (n_name f) /\ is_name (n_name f) = true) ->
  exists g', check_estmts (gen_struct vars i fs) g = Some g'.
Proof.
  induction fs as [|f fs IH]; intros i g G H; [cbn; eauto|]. cbn [gen_struct check_estmts check_estmt].
  set (g1 := (FATTR_NEW, XFattr) :: g). assert (G1 : has_names g1) by exact G.
  rewrite check_eapp.
  destruct (@efield_check (sees_self i vars) (OnSelf i) (n_name f) i (n_spec f) (n_type f) g1) as (g2 & E2); auto.
  { now apply has_names_write. }
  { apply H. now left. }
  rewrite E2. apply efield_scope in E2 as (M & _ & _). apply IH.
  - eapply has_names_more; [exact G1|exact M|]. intros Hr. apply H; [now left|exact Hr].
  - intros h Hin. apply H. now right.
Qed.
Lemma variant_check vars fs : forall before i g, has_names g -> look FATTR_NEW g = Some XFattr ->
  NoDup (map n_name fs) ->
  (forall j f, nth_error fs j = Some f -> free_name (n_name f) /\ is_name (n_name f) = true /\ ~ texted (n_spec f) /\
     look (n_name f) g = Some (XField (i + j) false)) ->
  exists g', check_estmts (gen_variant vars before i fs) g = Some g'.
Proof.
  induction fs as [|f fs IH]; intros before i g G GF D H; [cbn; eauto|]. cbn [gen_variant].
  destruct (H O f eq_refl) as (F & N & T & L). rewrite Nat.add_0_r in L.
  rewrite check_eapp. set (g1 := if f_use (n_spec f) then (FATTR_NEW, XFattr) :: g else g).
  replace (check_estmts (if f_use (n_spec f) then _ else _) g) with (Some g1) by (subst g1; destruct (f_use (n_spec f)); reflexivity).
  assert (G1 : has_names g1) by (subst g1; destruct (f_use (n_spec f)); exact G).
  assert (GF1 : look FATTR_NEW g1 = Some XFattr) by (subst g1; destruct (f_use (n_spec f)); auto).
  assert (Lk : forall y, y <> FATTR_NEW -> look y g1 = look y g).
  { intros y Hy. subst g1. destruct (f_use (n_spec f)); [|reflexivity]. now rewrite look_cons, eqb_neq. }
  rewrite check_eapp.
  destruct (@efield_check (sees_bound before vars) (Bare (n_name f)) (n_name f) i (n_spec f) (n_type f) g1) as (g2 & E2); auto.
  { now apply has_names_write. }
  { right. split; [reflexivity|]. split; [|exact T]. rewrite Lk; [exact L|]. apply free_ne in F. intuition. }
  rewrite E2. apply efield_scope in E2 as (M & _ & _). cbn in D. inversion D as [|? ? Dx D']; subst.
  apply IH; auto.
  - eapply has_names_more; [exact G1|exact M|auto].
  - rewrite (more_writes M (fun _ => F)); [exact GF1|cbn; auto 6].
  - intros j h Hj. destruct (H (S j) h Hj) as (Fh & Nh & Th & Lh). split; [exact Fh|]. split; [exact Nh|]. split; [exact Th|].
    replace (S i + j)%nat with (i + S j)%nat by lia. rewrite <- Lh, <- Lk by (apply free_ne in Fh; intuition).
    destruct M as [->|[_ ->]]; [reflexivity|]. rewrite !look_cons, eqb_neq; [reflexivity|].
    intros E. apply Dx. rewrite <- E. apply nth_error_In in Hj. now apply in_map.
Qed.

(** ** Arms *)
Lemma pattern_look fs vs : forall y rest, ~ In y (map n_name fs) -> look y (pattern_store fs vs ++ rest) = look y rest.
Proof.
  revert vs. induction fs as [|f fs IH]; intros vs y rest H; [reflexivity|]. destruct vs as [|v vs]; [reflexivity|].
  cbn [pattern_store app]. rewrite look_cons, eqb_neq; [apply IH|]; cbn in H; intuition.
Qed.
Lemma pattern_bound fs : forall vs rest, NoDup (map n_name fs) -> length vs = length fs ->
  Forall2 (bound_at (pattern_store fs vs ++ rest)) fs vs.
Proof.
  induction fs as [|f fs IH]; intros [|v vs] rest D L; try discriminate; [constructor|].
  cbn in D. inversion D as [|? ? Dx D']; subst. injection L as L. cbn [pattern_store app]. constructor.
  - unfold bound_at. now rewrite look_cons, eqb_refl.
  - specialize (IH vs rest D' L). clear - IH Dx. set (st := pattern_store fs vs ++ rest) in *. clearbody st. induction IH as [|g w gs ws H _ IH]; constructor.
    + unfold bound_at. rewrite look_cons, eqb_neq; [exact H|]. intros E. apply Dx. rewrite <- E. now left.
    + apply IH. cbn in Dx. intuition.
Qed.
Lemma pattern_scope_look fs : forall i y rest, ~ In y (map n_name fs) -> look y (pattern_scope i fs ++ rest) = look y rest.
Proof.
  induction fs as [|f fs IH]; intros i y rest H; [reflexivity|]. cbn [pattern_scope app].
  rewrite look_cons, eqb_neq; [apply IH|]; cbn in H; intuition.
Qed.
Lemma pattern_scope_in fs : forall i y rest, In y (map n_name fs) -> exists k, look y (pattern_scope i fs ++ rest) = Some (XField k false).
Proof.
  induction fs as [|f fs IH]; intros i y rest H; [easy|]. cbn [pattern_scope app]. rewrite look_cons.
  destruct (bytes_eqb y (n_name f)) eqn:E; [eauto|]. destruct H as [<-|H]; [rewrite eqb_refl in E; discriminate|]. now apply IH.
Qed.
Lemma pattern_scope_nth fs : forall i j f rest, NoDup (map n_name fs) -> nth_error fs j = Some f ->
  look (n_name f) (pattern_scope i fs ++ rest) = Some (XField (i + j) false).
Proof.
  induction fs as [|h fs IH]; intros i [|j] f rest D H; try discriminate; cbn [pattern_scope app]; rewrite look_cons.
  - injection H as ->. now rewrite eqb_refl, Nat.add_0_r.
  - cbn in D. inversion D as [|? ? Dx D']; subst. cbn in H. rewrite eqb_neq.
    + rewrite (IH (S i) j f rest D' H). f_equal. f_equal. lia.
    + intros E. apply Dx. rewrite <- E. apply nth_error_In in H. now apply in_map.
Qed.
Lemma pattern_counted fs : forall vs rest, counted rest -> counted (pattern_store fs vs ++ rest).
Proof.
  induction fs as [|f fs IH]; intros [|v vs] rest C; try exact C. cbn [pattern_store app]. apply counted_bind; [discriminate|now apply IH].
Qed.
Lemma bound_under s y a fs ws : Forall2 (bound_at s) fs ws -> (forall f, In f fs -> n_name f <> y) ->
  Forall2 (bound_at ((y, a) :: s)) fs ws.
Proof.
  intros H N. induction H as [|g w gs ws H _ IH]; constructor.
  - unfold bound_at. rewrite look_cons, eqb_neq; [exact H|]. apply N. now left.
  - apply IH. intros h Hh. apply N. now right.
Qed.
Lemma variant_texted vars fs : forall before i g f, In f fs -> texted (n_spec f) -> check_estmts (gen_variant vars before i fs) g = None.
Proof.
  induction fs as [|h fs IH]; intros before i g f Hin T; [easy|]. cbn [gen_variant]. rewrite check_eapp.
  destruct (check_estmts (if f_use (n_spec h) then _ else _) g) as [g1|]; [|reflexivity]. rewrite check_eapp.
  destruct Hin as [->|Hin].
  - destruct T as (T1 & T2 & T3). unfold gen_efield at 1. rewrite T1, T2. destruct (f_from_str (n_spec f)) as [[? show]|]; [reflexivity|congruence].
  - destruct (check_estmts (gen_efield _ _ _ _ _ _) g1); [|reflexivity]. eapply IH; eassumption.
Qed.
