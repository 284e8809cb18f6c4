(** Lemmas about generated decoders. *)
From Coq Require Import Ascii String.
From Verif Require Import Base BaseLemmas Ints Reader Writer Text Sugar AttrParse Decode Schema GenDecode GenSpec.
Close Scope string_scope.
Set Implicit Arguments.

(** ** Looking up names *)
Lemma look_cons {A} x y (a : A) l : look x ((y, a) :: l) = if bytes_eqb x y then Some a else look x l.
Proof. reflexivity. Qed.
Lemma look_app {A} x (l m : list (bytes * A)) :
  look x (l ++ m) = match look x l with Some a => Some a | None => look x m end.
Proof. induction l as [|[y a] l IH]; cbn; [reflexivity|]. destruct (bytes_eqb x y); auto. Qed.
Lemma look_in {A} x (l : list (bytes * A)) a : look x l = Some a -> In (x, a) l.
Proof.
  induction l as [|[y b] l IH]; cbn; [discriminate|].
  destruct (bytes_eqb x y) eqn:E; [|auto]. apply bytes_eqb_eq in E. intros [= ->]. left. congruence.
Qed.
Lemma look_none {A} x (l : list (bytes * A)) : look x l = None <-> forall y a, In (y, a) l -> y <> x.
Proof.
  induction l as [|[y b] l IH]; cbn; [split; [intros _ ? ? []|reflexivity]|].
  destruct (bytes_eqb x y) eqn:E.
  - apply bytes_eqb_eq in E. subst y. split; [discriminate|]. intros H. now destruct (H x b (or_introl eq_refl)).
  - assert (x <> y) by (intros ->; rewrite (proj2 (bytes_eqb_eq y y) eq_refl) in E; discriminate).
    rewrite IH. split.
    + intros H' z a [[= <- <-]|Hin]; [congruence|eauto].
    + intros H' z a Hin. eauto.
Qed.
Lemma eqb_refl x : bytes_eqb x x = true.
Proof. now apply bytes_eqb_eq. Qed.
Lemma eqb_neq x y : x <> y -> bytes_eqb x y = false.
Proof. intros H. destruct (bytes_eqb x y) eqn:E; [|reflexivity]. apply bytes_eqb_eq in E. contradiction. Qed.

(** ** What a statement binds *)
Definition binds (c : stmt) : scope :=
  match c with
  | LetFattr _ => [(FATTR_NEW, KFattr)]
  | LetCall b _ | LetDefault b _ | LetParsed b _ | LetDecoded b _ | LetValue b _ =>
      [(b_name b, KField (b_index b) (is_usize (b_type b)))]
  | LetText b => [(b_name b, KText)]
  | LetPosition => [(POSITION, KUsize)]
  | LetCattr2 => [(CATTR_NEW2, KOther)]
  | _ => []
  end.
Lemma check_binds c g g' : check_stmt c g = Some g' -> g' = binds c ++ g.
Proof.
  destruct c; cbn; repeat match goal with
  | |- context[if ?b then _ else _] => destruct b
  | |- context[match ?o with _ => _ end] => destruct o
  end; intros [= <-]; reflexivity.
Qed.
Fixpoint all_binds (l : list stmt) : scope :=
  match l with [] => [] | c :: r => all_binds r ++ binds c end.
Lemma checks_binds l : forall g g', check_stmts l g = Some g' -> g' = all_binds l ++ g.
Proof.
  induction l as [|c l IH]; cbn; intros g g'; [now intros [= <-]|].
  destruct (check_stmt c g) eqn:E; [|discriminate]. intros H. apply IH in H. apply check_binds in E.
  subst. now rewrite <- app_assoc.
Qed.
Lemma all_binds_app l m : all_binds (l ++ m) = all_binds m ++ all_binds l.
Proof. induction l; cbn; [now rewrite app_nil_r|]. rewrite IHl. now rewrite app_assoc. Qed.
Lemma in_all_binds x l : In x (all_binds l) <-> exists c, In c l /\ In x (binds c).
Proof.
  induction l as [|c l IH]; cbn; [split; [easy|now intros (? & [] & _)]|].
  rewrite in_app_iff, IH. split.
  - intros [(c' & H1 & H2)|H]; eauto.
  - intros (c' & [->|H1] & H2); eauto.
Qed.
Lemma check_app l m g : check_stmts (l ++ m) g = match check_stmts l g with Some g' => check_stmts m g' | None => None end.
Proof. revert g. induction l; cbn; intros g; [reflexivity|]. destruct (check_stmt a g); auto. Qed.
Lemma bind_ext {A B} (m m' : rd A) (k k' : A -> rd B) d p :
  m d p = m' d p -> (forall a q, k a d q = k' a d q) -> bind m k d p = bind m' k' d p.
Proof. unfold bind. intros ->. intros H. destruct (m' d p); auto. Qed.
Lemma run_app dty l m s d p :
  run_stmts dty (l ++ m) s d p = (s' <- run_stmts dty l s ;; run_stmts dty m s') d p.
Proof.
  revert s p. induction l as [|c l IH]; cbn; intros s p; [reflexivity|].
  unfold bind at 1 2 3. destruct (run_stmt dty c s d p); try reflexivity. apply IH.
Qed.

(** Which sorts the code of one field, and of all fields, binds. *)
Definition own_sort (i : nat) (untake : bool) (yk : bytes * sort) : Prop :=
  match snd yk with
  | KField m _ => m = i
  | KUsize => untake = true /\ fst yk = POSITION
  | KFattr | KInput | KCattr _ => False
  | _ => True
  end.
Lemma gen_field_binds vars before b f yk :
  In yk (all_binds (gen_field vars before b f)) -> own_sort (b_index b) (f_untake f) yk.
Proof.
  rewrite in_all_binds. intros (c & Hc & Hyk). unfold gen_field in Hc.
  rewrite !in_app_iff in Hc. destruct Hc as [Hc|[Hc|Hc]].
  - destruct (f_offset f); [|easy]. destruct Hc as [<-|[]]. easy.
  - destruct (f_with_decode f); [destruct Hc as [<-|[]]; destruct Hyk as [<-|[]]; reflexivity|].
    destruct (f_skip_decode f); [destruct Hc as [<-|[]]; destruct Hyk as [<-|[]]; reflexivity|].
    destruct (f_from_str f) as [[parse ?]|].
    + destruct Hc as [<-|[<-|[]]]; destruct Hyk as [<-|[]]; reflexivity.
    + rewrite !in_app_iff in Hc. destruct Hc as [Hc|[Hc|[Hc|[Hc|Hc]]]].
      * destruct (f_untake f); [|easy]. destruct Hc as [<-|[]]; destruct Hyk as [<-|[]]. now split.
      * destruct Hc as [<-|[]]; destruct Hyk as [<-|[]]. reflexivity.
      * destruct (f_untake f); [|easy]. destruct Hc as [<-|[]]; easy.
      * destruct (f_value_decode f); [|easy]. destruct Hc as [<-|[]]; destruct Hyk as [<-|[]]. reflexivity.
      * destruct (f_check f); [|easy]. destruct Hc as [<-|[]]; easy.
  - destruct (f_vars f) as [|nx vs] eqn:E; [easy|]. destruct Hc as [<-|Hc].
    + destruct Hyk as [<-|[]]. exact I.
    + apply in_map_iff in Hc as (? & <- & _). easy.
Qed.
Definition later_sort (i : nat) (fs : list field) (yk : bytes * sort) : Prop :=
  match snd yk with
  | KField m _ => (i <= m)%nat
  | KUsize => fst yk = POSITION /\ exists g, In g fs /\ f_untake (n_spec g) = true
  | KInput | KCattr _ => False
  | _ => True
  end.
Lemma gen_fields_binds named vars fs : forall before i yk,
  In yk (all_binds (gen_fields named vars before i fs)) -> later_sort i fs yk.
Proof.
  induction fs as [|f fs IH]; cbn [gen_fields]; intros before i yk H; [easy|].
  rewrite !all_binds_app, !in_app_iff in H. destruct H as [[H|H]|H].
  - apply IH in H. unfold later_sort in *. destruct yk as [y k]; destruct k; cbn in *; auto; [|lia].
    destruct H as (H & g & Hg & Hu). split; [exact H|]. exists g. auto.
  - apply gen_field_binds in H. unfold own_sort, later_sort in *. destruct yk as [y k]; destruct k; cbn in *; auto; [|lia].
    destruct H as (Hu & ->). split; [reflexivity|]. exists f. auto.
  - destruct (named || f_use (n_spec f)); [|easy]. destruct H as [<-|[]]. exact I.
Qed.

(** ** Nothing that is returned is hidden on the way *)
Definition returns (b : binder) (g : scope) : bool :=
  match look (b_name b) g with
  | Some (KField i _) => Nat.eqb i (b_index b)
  | Some KUsize => is_usize (b_type b)
  | _ => false
  end.
Lemma not_hidden named vars fs before i g g' b :
  check_stmts (gen_fields named vars before i fs) g = Some g' ->
  (b_index b < i)%nat -> returns b g' = true ->
  (b_name b = POSITION -> b_type b = TInt Usize -> forall f, In f fs -> f_untake (n_spec f) = false) ->
  look (b_name b) (all_binds (gen_fields named vars before i fs)) = None /\ returns b g = true.
Proof.
  intros Hc Hi Hr Hp. apply checks_binds in Hc. subst g'. unfold returns in Hr. rewrite look_app in Hr.
  destruct (look (b_name b) (all_binds (gen_fields named vars before i fs))) eqn:E; [|now split].
  exfalso. apply look_in in E. apply gen_fields_binds in E. unfold later_sort in E. cbn in E.
  destruct s; try discriminate; try easy.
  - destruct E as (Hn & f & Hf & Hu). unfold is_usize in Hr. destruct (b_type b) as [[]| | | | | | | | | | | | | | | | | | | | |] eqn:Et; try discriminate.
    rewrite (Hp Hn eq_refl f Hf) in Hu. discriminate.
  - apply Nat.eqb_eq in Hr. lia.
Qed.

(** ** Two runs that agree *)
Definition sim {A B} (m : rd A) (n : rd B) (R : A -> B -> Prop) : Prop :=
  forall d p,
  match m d p, n d p with
  | Ok a q, Ok b q' => q = q' /\ R a b
  | Err e q, Err e' q' => e = e' /\ q = q'
  | Panic, Panic | Hang, Hang => True
  | _, _ => False
  end.
Lemma sim_ret {A B} (a : A) (b : B) (R : A -> B -> Prop) : R a b -> sim (ret a) (ret b) R.
Proof. intros H d p. cbn. auto. Qed.
Lemma sim_bind {A B A' B'} (m : rd A) (n : rd B) R (k : A -> rd A') (l : B -> rd B') R' :
  sim m n R -> (forall a b, R a b -> sim (k a) (l b) R') -> sim (bind m k) (bind n l) R'.
Proof.
  intros H1 H2 d p. specialize (H1 d p). unfold bind.
  destruct (m d p), (n d p); try easy. destruct H1 as [-> H1]. apply (H2 _ _ H1).
Qed.
Lemma sim_same {A} (m : rd A) : sim m m eq.
Proof. intros d p. destruct (m d p); auto. Qed.
Lemma sim_panic {A B} (R : A -> B -> Prop) : sim panic panic R.
Proof. now intros d p. Qed.
Lemma sim_fail {A B} k (R : A -> B -> Prop) : sim (fail k) (fail k) R.
Proof. intros d p. cbn. auto. Qed.
Lemma sim_weaken {A B} (m : rd A) (n : rd B) (R R' : A -> B -> Prop) :
  sim m n R -> (forall a b, R a b -> R' a b) -> sim m n R'.
Proof. intros H1 H2 d p. specialize (H1 d p). destruct (m d p), (n d p); try easy. destruct H1. auto. Qed.
Lemma sim_left {A B} (m m' : rd A) (n : rd B) R : (forall d p, m d p = m' d p) -> sim m' n R -> sim m n R.
Proof. intros H1 H2 d p. rewrite H1. apply H2. Qed.
Lemma sim_right {A B} (m : rd A) (n n' : rd B) R : (forall d p, n d p = n' d p) -> sim m n' R -> sim m n R.
Proof. intros H1 H2 d p. rewrite H1. apply H2. Qed.

(** ** Store and scope agree *)
Definition fits1 (l : bytes * local) (k : bytes * sort) : Prop :=
  fst l = fst k /\
  match snd k, snd l with
  | KInput, LInput | KFattr, LFattr _ | KUsize, LPos _ | KOther, LOther | KCattr _, LCattr _ => True
  | KText, LVal (VBytes _) => True
  | KField _ _, LVal _ => True
  | _, _ => False
  end.
Definition fits : store -> scope -> Prop := Forall2 fits1.
Lemma fits_look s g x : fits s g ->
  match look x g with
  | Some k => exists l, look x s = Some l /\ fits1 (x, l) (x, k)
  | None => look x s = None
  end.
Proof.
  induction 1 as [|[y l] [z k] s g [H1 H2] Hs IH]; cbn; [reflexivity|]. cbn in H1. subst z.
  destruct (bytes_eqb x y); [|exact IH]. exists l. split; [reflexivity|]. split; [reflexivity|exact H2].
Qed.
Lemma fits_input s g : fits s g -> has_input g = true -> look INPUT s = Some LInput.
Proof.
  intros H. apply fits_look with (x := INPUT) in H. unfold has_input.
  destruct (look INPUT g) as [[]|]; try discriminate. intros _. destruct H as (l & Hl & _ & Hf). cbn in Hf.
  destruct l; try easy.
Qed.

(** The state between two fields. *)
Record good (s : store) (g : scope) (before : list bytes) (done : list val) (ca : cattr) (prev : fattr) : Prop := mkgood {
  go_fits : fits s g;
  go_cattr : forall m, look CATTR_NEW g = Some (KCattr m) -> look CATTR_NEW s = Some (LCattr ca);
  go_fattr : look FATTR_NEW g = Some KFattr -> look FATTR_NEW s = Some (LFattr prev);
  go_done : Forall2 (fun x v => look x s = Some (LVal v)) before done }.

Lemma good_sees s g before done ca prev vars : good s g before done ca prev -> sees before vars s = mkenv done vars.
Proof.
  intros [_ _ _ H]. unfold sees. f_equal. induction H; cbn; [reflexivity|]. now rewrite H, IHForall2.
Qed.
Lemma good_modifiers s g before done ca prev k :
  good s g before done ca prev -> has_modifiers g = true -> with_modifiers s k = k ca prev.
Proof.
  intros [Hf Hc Ha _] H. unfold has_modifiers in H. apply andb_true_iff in H as [H1 H2].
  unfold with_modifiers, on_input. rewrite (fits_input Hf H1).
  destruct (look CATTR_NEW g) as [[]|]; try discriminate. rewrite (Hc mutable eq_refl).
  destruct (look FATTR_NEW g) as [[]|]; try discriminate. now rewrite Ha.
Qed.
Lemma good_input s g before done ca prev k :
  good s g before done ca prev -> has_input g = true -> on_input s k = k.
Proof. intros [Hf _ _ _] H. unfold on_input. now rewrite (fits_input Hf H). Qed.

(** New bindings that hide nothing of interest. *)
Lemma good_extend s g before done ca prev ex nw :
  good s g before done ca prev -> fits ex nw ->
  (forall x, In x before -> look x nw = None) ->
  (forall y k, In (y, k) nw -> k <> KFattr /\ forall m, k <> KCattr m) ->
  good (ex ++ s) (nw ++ g) before done ca prev.
Proof.
  intros [Hf Hc Ha Hd] Hx Hn Hk. split.
  - now apply Forall2_app.
  - intros m. rewrite !look_app. pose proof (fits_look CATTR_NEW Hx) as Hl.
    destruct (look CATTR_NEW nw) eqn:E.
    + intros [= ->]. apply look_in in E. destruct (Hk _ _ E) as [_ E']. now destruct (E' m).
    + rewrite Hl. apply Hc.
  - rewrite !look_app. pose proof (fits_look FATTR_NEW Hx) as Hl.
    destruct (look FATTR_NEW nw) eqn:E.
    + intros [= ->]. apply look_in in E. now destruct (Hk _ _ E) as [E' _].
    + rewrite Hl. apply Ha.
  - assert (Hn' : forall x, In x before -> look x (ex ++ s) = look x s).
    { intros x Hin. rewrite look_app. pose proof (fits_look x Hx) as Hl. rewrite (Hn x Hin) in Hl. now rewrite Hl. }
    clear -Hd Hn'. induction Hd; constructor.
    + rewrite Hn' by (now left). assumption.
    + apply IHHd. intros z Hz. apply Hn'. now right.
Qed.

(** ** One field *)
Section Field.
Variable dty : ty -> cattr -> fattr -> rd val.
Variable vars : list (nat * N).

Lemma run_one c s d p : run_stmts dty [c] s d p = run_stmt dty c s d p.
Proof. cbn. unfold bind, ret. now destruct (run_stmt dty c s d p). Qed.

Definition offset_part (before : list bytes) (o : option expr) : list stmt :=
  match o with Some e => [Advance (fun s => e (sees before vars s))] | None => [] end.
Definition tail_part (before : list bytes) (b : binder) (f : fspec) : list stmt :=
  (match f_value_decode f with Some g => [LetValue b (fun s => g (sees before vars s))] | None => [] end) ++
  (match f_check f with Some c => [CheckValue b (fun s => c (sees before vars s))] | None => [] end).
Definition value_part (before : list bytes) (b : binder) (f : fspec) : list stmt :=
  match f_with_decode f with
  | Some g => [LetCall b (fun s => g (sees before vars s))]
  | None =>
  match f_skip_decode f with
  | Some v => [LetDefault b v]
  | None =>
  match f_from_str f with
  | Some (parse, _) => [LetText b; LetParsed b parse]
  | None =>
      (if f_untake f then [LetPosition] else []) ++
      [LetDecoded b (option_map (fun c s => c (sees before vars s)) (f_if f))] ++
      (if f_untake f then [RestorePosition] else []) ++
      tail_part before b f
  end
  end
  end.
Definition publish_part (before : list bytes) (b : binder) (f : fspec) : list stmt :=
  match f_vars f with
  | [] => []
  | vs => LetCattr2 :: map (fun nx => Publish (fst nx) (fun s => snd nx (sees (before ++ [b_name b]) vars s))) vs
  end.
Lemma gen_field_parts before b f :
  gen_field vars before b f = offset_part before (f_offset f) ++ value_part before b f ++ publish_part before b f.
Proof. reflexivity. Qed.

Lemma offset_sim before o s g g' done ca fa :
  good s g before done ca fa -> check_stmts (offset_part before o) g = Some g' ->
  g' = g /\ sim (run_stmts dty (offset_part before o) s) (dec_offset o (mkenv done vars)) (fun s' _ => s' = s).
Proof.
  intros Hg Hc. unfold dec_offset, eval_opt. destruct o as [e|]; cbn [offset_part option_map] in *.
  - cbn in Hc. destruct (has_input g) eqn:Hi; [|discriminate]. injection Hc as <-. split; [reflexivity|].
    eapply sim_left; [intros d p; apply run_one|]. cbn [run_stmt]. rewrite (good_input _ Hg Hi), (good_sees _ Hg).
    intros d p. cbn. auto.
  - injection Hc as <-. split; [reflexivity|]. now apply sim_ret.
Qed.

(** What the statements that decode a field have done. *)
Definition stepped (s : store) (nw : scope) (x : bytes) (s' : store) (v : val) : Prop :=
  exists ex, s' = ex ++ s /\ fits ex nw /\ look x s' = Some (LVal v).

Lemma fits_one x v i u : fits [(x, LVal v)] [(x, KField i u)].
Proof. repeat constructor. Qed.

Definition rest_of (f : fspec) (en : env) (v : val) : rd val :=
  let v := match f_value_decode f with Some g => g en v | None => v end in
  match f_check f with
  | Some c => if val_eqb v (c en) then ret v else fail InvalidValue
  | None => ret v
  end.
Lemma tail_sim before b f s g g' done ca fa v :
  good s g before done ca fa -> look (b_name b) s = Some (LVal v) ->
  ~ In (b_name b) before ->
  check_stmts (tail_part before b f) g = Some g' ->
  sim (run_stmts dty (tail_part before b f) s) (rest_of f (mkenv done vars) v)
      (stepped s (all_binds (tail_part before b f)) (b_name b)).
Proof.
  intros Hg Hv Hnb Hc. unfold tail_part, rest_of in *.
  assert (Hstep : forall (c : env -> val) s1 g1 v1,
             good s1 g1 before done ca fa -> look (b_name b) s1 = Some (LVal v1) ->
             check_stmts [CheckValue b (fun s => c (sees before vars s))] g1 <> None ->
             sim (run_stmts dty [CheckValue b (fun s => c (sees before vars s))] s1)
                 (if val_eqb v1 (c (mkenv done vars)) then ret v1 else fail InvalidValue)
                 (fun s' v' => s' = s1 /\ v' = v1)).
  { intros c s1 g1 v1 Hg1 Hv1 Hc1. cbn in Hc1. destruct (has_input g1 && holds_field b g1) eqn:E; [|easy].
    apply andb_true_iff in E as [Hi _].
    eapply sim_left; [intros d p; apply run_one|]. cbn [run_stmt]. rewrite Hv1, (good_sees _ Hg1). cbn [value_of_local].
    destruct (val_eqb v1 (c (mkenv done vars))); [now apply sim_ret|].
    rewrite (good_input _ Hg1 Hi). apply sim_fail. }
  destruct (f_value_decode f) as [h|].
  - cbn [app] in *. cbn in Hc. destruct (holds_field b g) eqn:Hh; [|discriminate].
    set (s1 := (b_name b, LVal (h (mkenv done vars) v)) :: s).
    assert (Hg1 : good s1 (bind_field b g) before done ca fa).
    { change (good ([(b_name b, LVal (h (mkenv done vars) v))] ++ s) ([(b_name b, KField (b_index b) (is_usize (b_type b)))] ++ g)
                   before done ca fa).
      apply good_extend; [assumption|apply fits_one| |].
      - intros x Hx. cbn. rewrite eqb_neq; [reflexivity|]. intros ->. contradiction.
      - intros y k [[= <- <-]|[]]. split; [discriminate|intros m; discriminate]. }
    assert (Hv1 : look (b_name b) s1 = Some (LVal (h (mkenv done vars) v))).
    { unfold s1. rewrite look_cons, eqb_refl. reflexivity. }
    assert (E : forall l d p, run_stmts dty (LetValue b (fun s0 => h (sees before vars s0)) :: l) s d p = run_stmts dty l s1 d p).
    { intros l d p. cbn. unfold bind, ret. rewrite (good_sees _ Hg), Hv. reflexivity. }
    destruct (f_check f) as [c|].
    + eapply sim_left; [intros d p; apply E|]. eapply sim_weaken; [apply (Hstep c s1 (bind_field b g))|].
      * exact Hg1.
      * exact Hv1.
      * intros Hn. rewrite Hn in Hc. discriminate.
      * cbv beta. intros s' v' [-> ->]. exists [(b_name b, LVal (h (mkenv done vars) v))].
        split; [reflexivity|]. split; [apply fits_one|exact Hv1].
    + eapply sim_left; [intros d p; apply E|]. cbn [run_stmts]. apply sim_ret.
      exists [(b_name b, LVal (h (mkenv done vars) v))].
      split; [reflexivity|]. split; [apply fits_one|exact Hv1].
  - cbn [app] in *. destruct (f_check f) as [c|].
    + eapply sim_weaken; [apply (Hstep c s g v Hg Hv)|].
      * rewrite Hc. discriminate.
      * cbv beta. intros s' v' [-> ->]. exists []. split; [reflexivity|]. split; [constructor|exact Hv].
    + cbn [run_stmts]. apply sim_ret. exists []. split; [reflexivity|]. split; [constructor|exact Hv].
Qed.

Definition body_of (d : cattr -> fattr -> rd val) (f : fspec) (ca : cattr) (fa : fattr) (en : env) : rd val :=
  match f_with_decode f with
  | Some g => g en ca fa
  | None =>
  match f_skip_decode f with
  | Some v => ret v
  | None =>
      match f_from_str f with
      | Some (parse, _) =>
          s <- dec_string ca fa ;;
          match parse s with Some v => ret v | None => fail Fail end
      | None =>
          p0 <- get_position ;;
          v <- (match f_if f with
                | Some c => if c en then d ca fa else ret (VOpt None)
                | None => d ca fa
                end) ;;
          _ <- (if f_untake f then set_position p0 else ret tt) ;;
          rest_of f en v
      end
  end
  end.
Lemma dec_field_parts d f ca fa en :
  dec_field d f ca fa en = (_ <- dec_offset (f_offset f) en ;; body_of d f ca fa en).
Proof. reflexivity. Qed.

Lemma value_sim before b f s g g' done ca fa :
  good s g before done ca fa ->
  ~ In (b_name b) before ->
  (f_untake f = true -> In (POSITION, KUsize) (all_binds (value_part before b f)) -> ~ In POSITION before) ->
  (b_name b = POSITION -> b_type b = TInt Usize -> f_untake f = false) ->
  check_stmts (value_part before b f) g = Some g' ->
  sim (run_stmts dty (value_part before b f) s) (body_of (dty (b_type b)) f ca fa (mkenv done vars))
      (stepped s (all_binds (value_part before b f)) (b_name b)).
Proof.
  intros Hg Hnb Hpos Hown Hc. unfold value_part, body_of in *.
  destruct (f_with_decode f) as [h|].
  { cbn in Hc. destruct (has_modifiers g) eqn:Hm; [|discriminate].
    eapply sim_left; [intros d p; apply run_one|]. cbn [run_stmt]. rewrite (good_modifiers _ Hg Hm), (good_sees _ Hg).
    intros d p. unfold bind, ret. destruct (h (mkenv done vars) ca fa d p); auto. split; [reflexivity|].
    exists [(b_name b, LVal a)]. split; [reflexivity|]. split; [apply fits_one|]. unfold bound. now rewrite look_cons, eqb_refl. }
  destruct (f_skip_decode f) as [v|].
  { cbn [run_stmts run_stmt]. eapply sim_left; [intros d p; unfold bind, ret; reflexivity|]. intros d p. cbn.
    split; [reflexivity|].
    exists [(b_name b, LVal v)]. split; [reflexivity|]. split; [apply fits_one|]. unfold bound. now rewrite look_cons, eqb_refl. }
  destruct (f_from_str f) as [[parse show]|].
  { cbn in Hc. destruct (has_modifiers g) eqn:Hm; [|discriminate].
    assert (Hi : has_input ((b_name b, KText) :: g) = true) by (destruct (has_input ((b_name b, KText) :: g)); [reflexivity|discriminate]).
    rewrite Hi in Hc.
    change (run_stmts dty [LetText b; LetParsed b parse] s)
      with (s' <- run_stmt dty (LetText b) s ;; run_stmts dty [LetParsed b parse] s').
    cbn [run_stmt]. rewrite (good_modifiers _ Hg Hm).
    apply sim_left with (m' := l <- dec_string ca fa ;; run_stmts dty [LetParsed b parse] (bound b (VBytes l) s)).
    { intros d p. unfold bind, ret. now destruct (dec_string ca fa d p). }
    eapply sim_bind; [apply sim_same|]. intros l ? <-.
    eapply sim_left; [intros d p; apply run_one|]. cbn [run_stmt].
    assert (Hg1 : good (bound b (VBytes l) s) ((b_name b, KText) :: g) before done ca fa).
    { change (good ([(b_name b, LVal (VBytes l))] ++ s) ([(b_name b, KText)] ++ g) before done ca fa).
      apply good_extend; [assumption|repeat constructor| |].
      - intros x Hx. cbn. rewrite eqb_neq; [reflexivity|]. intros ->. contradiction.
      - intros y k [[= <- <-]|[]]. split; [discriminate|intros m; discriminate]. }
    rewrite (good_input _ Hg1 Hi). unfold bound at 1. rewrite look_cons, eqb_refl.
    destruct (parse l) as [v|]; [|apply sim_fail]. apply sim_ret.
    exists [(b_name b, LVal v); (b_name b, LVal (VBytes l))]. split; [reflexivity|].
    split; [repeat constructor|]. unfold bound. now rewrite look_cons, eqb_refl. }
  set (cond := option_map (fun c s => c (sees before vars s)) (f_if f)) in *.
  (* the decoding statement, in any good state *)
  assert (Hdec : forall s1 g1 v1, good s1 g1 before done ca fa -> check_stmt (LetDecoded b cond) g1 = Some v1 ->
            sim (run_stmt dty (LetDecoded b cond) s1)
                (match f_if f with
                 | Some c => if c (mkenv done vars) then dty (b_type b) ca fa else ret (VOpt None)
                 | None => dty (b_type b) ca fa
                 end)
                (fun s' v => s' = bound b v s1)).
  { intros s1 g1 v1 Hg1 Hc1. cbn in Hc1. destruct (has_modifiers g1) eqn:Hm; [|discriminate].
    cbn [run_stmt]. rewrite (good_modifiers _ Hg1 Hm). unfold cond. destruct (f_if f) as [c|]; cbn [option_map].
    - rewrite (good_sees _ Hg1). intros d p. unfold bind, ret.
      destruct (c (mkenv done vars)); [|auto]. destruct (dty (b_type b) ca fa d p); auto.
    - intros d p. unfold bind, ret. destruct (dty (b_type b) ca fa d p); auto. }
  assert (Hgood1 : forall s1 g1 v, good s1 g1 before done ca fa -> good (bound b v s1) (bind_field b g1) before done ca fa).
  { intros s1 g1 v Hg1.
    change (good ([(b_name b, LVal v)] ++ s1) ([(b_name b, KField (b_index b) (is_usize (b_type b)))] ++ g1) before done ca fa).
    apply good_extend; [assumption|apply fits_one| |].
    - intros x Hx. cbn. rewrite eqb_neq; [reflexivity|]. intros ->. contradiction.
    - intros y k [[= <- <-]|[]]. split; [discriminate|intros m; discriminate]. }
  destruct (f_untake f) eqn:Hu.
  - cbn [app] in *.
    set (L1 := RestorePosition :: tail_part before b f) in *.
    cbn [check_stmts] in Hc.
    destruct (check_stmt LetPosition g) as [g1|] eqn:Hc1; [|discriminate].
    unfold check_stmt in Hc1. destruct (has_input g) eqn:Hi; [|discriminate]. injection Hc1 as <-.
    destruct (check_stmt (LetDecoded b cond) ((POSITION, KUsize) :: g)) as [g2|] eqn:Hc2; [|discriminate].
    assert (Eg2 : g2 = bind_field b ((POSITION, KUsize) :: g)) by (now apply check_binds in Hc2).
    unfold L1 in Hc. cbn [check_stmts] in Hc.
    destruct (check_stmt RestorePosition g2) as [g3|] eqn:Hc3; [|discriminate].
    assert (Eg3 : g3 = g2) by (now apply check_binds in Hc3). subst g3.
    assert (Hnp : ~ In POSITION before).
    { apply Hpos; [reflexivity|]. cbn. rewrite !in_app_iff. right. now left. }
    assert (Hxp : b_name b <> POSITION).
    { intros E. unfold check_stmt in Hc3. subst g2. destruct (has_input (bind_field b ((POSITION, KUsize) :: g))); [|discriminate].
      unfold bind_field in Hc3. rewrite look_cons, <- E, eqb_refl in Hc3.
      destruct (is_usize (b_type b)) eqn:Et; [|discriminate]. unfold is_usize in Et.
      destruct (b_type b) as [[]| | | | | | | | | | | | | | | | | | | | |] eqn:Ety; try discriminate.
      specialize (Hown E eq_refl). discriminate. }
    cbn [run_stmts]. eapply sim_bind with (R := fun s' p0 => s' = (POSITION, LPos p0) :: s).
    { cbn [run_stmt]. rewrite (good_input _ Hg Hi). intros d p. cbn. auto. }
    intros s' p0 ->.
    assert (Hg1 : good ((POSITION, LPos p0) :: s) ((POSITION, KUsize) :: g) before done ca fa).
    { change (good ([(POSITION, LPos p0)] ++ s) ([(POSITION, KUsize)] ++ g) before done ca fa).
      apply good_extend; [assumption|repeat constructor| |].
      - intros x Hx. cbn [look]. rewrite eqb_neq; [reflexivity|]. intros ->. contradiction.
      - intros y k [[= <- <-]|[]]. split; [discriminate|intros m; discriminate]. }
    eapply sim_bind; [eapply Hdec; eassumption|]. cbv beta. intros s' v ->.
    pose proof (Hgood1 _ _ v Hg1) as Hg2. rewrite <- Eg2 in Hg2.
    eapply sim_bind with (R := fun s' _ => s' = bound b v ((POSITION, LPos p0) :: s)).
    { cbn [run_stmt]. unfold check_stmt in Hc3. destruct (has_input g2) eqn:Hi2; [|discriminate].
      rewrite (good_input _ Hg2 Hi2). unfold bound at 1. rewrite look_cons, eqb_neq by congruence.
      rewrite look_cons, eqb_refl. intros d p. cbn. auto. }
    intros s' ? ->.
    eapply sim_weaken.
    { eapply tail_sim; [exact Hg2| |exact Hnb|exact Hc]. unfold bound. now rewrite look_cons, eqb_refl. }
    intros s' v' (ex & -> & Hf & Hl). exists (ex ++ [(b_name b, LVal v); (POSITION, LPos p0)]).
    split; [unfold bound; rewrite <- app_assoc; reflexivity|]. split; [|exact Hl].
    cbn [all_binds binds L1]. rewrite !app_nil_r, <- app_assoc. apply Forall2_app; [exact Hf|]. repeat constructor.
  - cbn [app] in *. cbn [check_stmts] in Hc.
    destruct (check_stmt (LetDecoded b cond) g) as [g2|] eqn:Hc2; [|discriminate].
    assert (Eg2 : g2 = bind_field b g) by (now apply check_binds in Hc2).
    cbn [run_stmts].
    apply sim_right with (n' := v <- (match f_if f with
                 | Some c => if c (mkenv done vars) then dty (b_type b) ca fa else ret (VOpt None)
                 | None => dty (b_type b) ca fa
                 end) ;; rest_of f (mkenv done vars) v).
    { intros d p. unfold bind at 1. cbn [get_position]. unfold bind, ret.
      destruct (match f_if f with
                | Some c => if c (mkenv done vars) then dty (b_type b) ca fa else (fun _ p0 => Ok (VOpt None) p0)
                | None => dty (b_type b) ca fa
                end d p); reflexivity. }
    eapply sim_bind; [eapply Hdec; eassumption|]. cbv beta. intros s' v ->.
    pose proof (Hgood1 _ _ v Hg) as Hg2. rewrite <- Eg2 in Hg2.
    eapply sim_weaken.
    { eapply tail_sim; [exact Hg2| |exact Hnb|exact Hc]. unfold bound. now rewrite look_cons, eqb_refl. }
    intros s' v' (ex & -> & Hf & Hl). exists (ex ++ [(b_name b, LVal v)]).
    split; [unfold bound; rewrite <- app_assoc; reflexivity|]. split; [|exact Hl].
    cbn [all_binds binds]. apply Forall2_app; [exact Hf|]. repeat constructor.
Qed.
End Field.

(** ** Publishing variables *)
Lemma insert_look n z s x : x <> CATTR_NEW -> look x (insert_variable n z s) = look x s.
Proof.
  intros Hx. induction s as [|[y a] s IH]; cbn [insert_variable look]; [reflexivity|].
  destruct (bytes_eqb CATTR_NEW y) eqn:E; cbn [look].
  - apply bytes_eqb_eq in E. subst y. now rewrite !eqb_neq by assumption.
  - now rewrite IH.
Qed.
Lemma insert_look_cattr n z s ca : look CATTR_NEW s = Some (LCattr ca) ->
  look CATTR_NEW (insert_variable n z s) = Some (LCattr (mkcattr (k_order ca) (k_byte_count ca) ((n, z) :: k_vars ca))).
Proof.
  induction s as [|[y a] s IH]; cbn [insert_variable look]; [discriminate|].
  destruct (bytes_eqb CATTR_NEW y) eqn:E; cbn [look]; rewrite E; [|exact IH]. now intros [= ->].
Qed.
Lemma insert_fits n z s g : fits s g -> fits (insert_variable n z s) g.
Proof.
  induction 1 as [|[y l] [y' k] s g [H1 H2] Hs IH]; [constructor|]. cbn [insert_variable]. cbn in H1. subst y'.
  destruct (bytes_eqb CATTR_NEW y); (constructor; [|assumption]); split; cbn in *; try reflexivity; try assumption.
  destruct k, l; try easy.
Qed.
Lemma insert_good n z s g before done ca fa m :
  good s g before done ca fa -> look CATTR_NEW g = Some (KCattr m) ->
  good (insert_variable n z s) g before done (mkcattr (k_order ca) (k_byte_count ca) ((n, z) :: k_vars ca)) fa.
Proof.
  intros [Hf Hc Ha Hd] Hk. pose proof (Hc _ Hk) as Hl. split.
  - now apply insert_fits.
  - intros m' _. now apply insert_look_cattr.
  - intros H. rewrite insert_look; [now apply Ha|discriminate].
  - induction Hd as [|x v l l' Hx _ IH]; constructor; [|exact IH]. rewrite insert_look; [assumption|].
    intros ->. congruence.
Qed.

Section Fields.
Variable dty : ty -> cattr -> fattr -> rd val.
Variable vars : list (nat * N).

Definition publishes (before : list bytes) (vs : list (nat * expr)) : list stmt :=
  map (fun nx : nat * expr => Publish (fst nx) (fun s => snd nx (sees before vars s))) vs.
Lemma publishes_sim before vs : forall s g g' done ca fa,
  good s g before done ca fa -> check_stmts (publishes before vs) g = Some g' ->
  g' = g /\
  sim (run_stmts dty (publishes before vs) s)
      (ret (mkcattr (k_order ca) (k_byte_count ca)
                    (fold_left (fun l nx => (fst nx, as_usize (snd nx (mkenv done vars))) :: l) vs (k_vars ca))))
      (fun s' ca' => good s' g before done ca' fa).
Proof.
  induction vs as [|[n e] vs IH]; cbn [publishes map check_stmts check_stmt]; intros s g g' done ca fa Hg Hc.
  - injection Hc as <-. split; [reflexivity|]. apply sim_ret. cbn. destruct ca; exact Hg.
  - destruct (look CATTR_NEW g) as [[]|] eqn:Hk; try discriminate.
    pose proof (insert_good n (as_usize (e (mkenv done vars))) Hg Hk) as Hg1.
    destruct (IH _ _ _ _ _ _ Hg1 Hc) as [-> Hs]. split; [reflexivity|].
    eapply sim_left with (m' := run_stmts dty (publishes before vs) (insert_variable n (as_usize (e (mkenv done vars))) s)).
    { intros d p. cbn [run_stmts run_stmt fst snd]. rewrite (good_sees _ Hg). reflexivity. }
    cbn [fold_left fst snd]. exact Hs.
Qed.
Lemma publish_part_publishes before b f :
  publish_part vars before b f = match f_vars f with [] => [] | vs => LetCattr2 :: publishes (before ++ [b_name b]) vs end.
Proof. reflexivity. Qed.
Lemma publishes_binds before vs : all_binds (publishes before vs) = [].
Proof. induction vs; [reflexivity|]. cbn [publishes map all_binds binds]. rewrite app_nil_r. exact IHvs. Qed.

Lemma publish_sim before b f s g g' done v ca fa :
  good s g (before ++ [b_name b]) (done ++ [v]) ca fa ->
  check_stmts (publish_part vars before b f) g = Some g' ->
  (forall x, In x (before ++ [b_name b]) -> look x (all_binds (publish_part vars before b f)) = None) ->
  sim (run_stmts dty (publish_part vars before b f) s) (ret (publish f (mkenv (done ++ [v]) vars) ca))
      (fun s' ca' => good s' g' (before ++ [b_name b]) (done ++ [v]) ca' fa).
Proof.
  rewrite publish_part_publishes. unfold publish. destruct (f_vars f) as [|nx vs] eqn:Ev; intros Hg Hc Hn.
  - injection Hc as <-. apply sim_ret. cbn. destruct ca; exact Hg.
  - cbn [check_stmts check_stmt] in Hc. destruct (look CATTR_NEW g) as [[]|] eqn:Hk; try discriminate.
    destruct mutable; [|discriminate].
    assert (Hg1 : good ((CATTR_NEW2, LOther) :: s) ((CATTR_NEW2, KOther) :: g) (before ++ [b_name b]) (done ++ [v]) ca fa).
    { change (good ([(CATTR_NEW2, LOther)] ++ s) ([(CATTR_NEW2, KOther)] ++ g) (before ++ [b_name b]) (done ++ [v]) ca fa).
      apply good_extend; [assumption|repeat constructor| |].
      - intros x Hx. specialize (Hn x Hx). cbn [all_binds] in Hn. rewrite publishes_binds in Hn. exact Hn.
      - intros y k [[= <- <-]|[]]. split; [discriminate|intros m; discriminate]. }
    destruct (publishes_sim _ Hg1 Hc) as [-> Hs].
    exact Hs.
Qed.

Lemma value_part_binds before b f : look (b_name b) (all_binds (value_part vars before b f)) <> None.
Proof.
  rewrite look_none. intros H. unfold value_part in H.
  destruct (f_with_decode f); [apply (H _ _ (or_introl eq_refl)); reflexivity|].
  destruct (f_skip_decode f); [apply (H _ _ (or_introl eq_refl)); reflexivity|].
  destruct (f_from_str f) as [[parse ?]|].
  { apply (H _ _ (or_introl eq_refl)); reflexivity. }
  apply (H (b_name b) (KField (b_index b) (is_usize (b_type b)))); [|reflexivity].
  apply in_all_binds. exists (LetDecoded b (option_map (fun c s => c (sees before vars s)) (f_if f))).
  split; [|now left]. rewrite !in_app_iff. right. left. now left.
Qed.

Lemma field_sim before b f s g g' done ca fa :
  good s g before done ca fa ->
  check_stmts (gen_field vars before b f) g = Some g' ->
  (forall x, In x before -> look x (all_binds (gen_field vars before b f)) = None) ->
  returns b g' = true ->
  (b_name b = POSITION -> b_type b = TInt Usize -> f_untake f = false) ->
  sim (run_stmts dty (gen_field vars before b f) s)
      (v <- dec_field (dty (b_type b)) f ca fa (mkenv done vars) ;; ret (v, publish f (mkenv (done ++ [v]) vars) ca))
      (fun s' vc => good s' g' (before ++ [b_name b]) (done ++ [fst vc]) (snd vc) fa).
Proof.
  intros Hg Hc Hn Hr Hp.
  rewrite gen_field_parts in *. rewrite check_app in Hc.
  destruct (check_stmts (offset_part vars before (f_offset f)) g) as [g0|] eqn:Hc0; [|discriminate].
  destruct (offset_sim dty vars (f_offset f) Hg Hc0) as [-> Hs0].
  rewrite check_app in Hc. destruct (check_stmts (value_part vars before b f) g) as [g1|] eqn:Hc1; [|discriminate].
  assert (Hnv : forall x, In x before -> look x (all_binds (value_part vars before b f)) = None).
  { intros x Hx. specialize (Hn x Hx). rewrite !all_binds_app, !look_app in Hn.
    destruct (look x (all_binds (publish_part vars before b f))); [discriminate|].
    destruct (look x (all_binds (value_part vars before b f))); [discriminate|reflexivity]. }
  assert (Hnp : forall x, In x before -> look x (all_binds (publish_part vars before b f)) = None).
  { intros x Hx. specialize (Hn x Hx). rewrite !all_binds_app, !look_app in Hn.
    destruct (look x (all_binds (publish_part vars before b f))); [discriminate|reflexivity]. }
  assert (Hnb : ~ In (b_name b) before).
  { intros Hx. apply (value_part_binds before b f). now apply Hnv. }
  assert (Hown : look (b_name b) (all_binds (publish_part vars before b f)) = None).
  { pose proof (checks_binds _ _ Hc) as ->. unfold returns in Hr. rewrite look_app in Hr.
    rewrite publish_part_publishes in *. destruct (f_vars f); [reflexivity|]. cbn [all_binds] in *.
    rewrite publishes_binds in *. cbn [app binds] in *. rewrite look_cons in *.
    destruct (bytes_eqb (b_name b) CATTR_NEW2); [discriminate|reflexivity]. }
  eapply sim_left; [intros d p; apply run_app|].
  apply sim_right with (n' := _ <- dec_offset (f_offset f) (mkenv done vars) ;;
    (v <- body_of (dty (b_type b)) f ca fa (mkenv done vars) ;; ret (v, publish f (mkenv (done ++ [v]) vars) ca))).
  { intros d p. rewrite dec_field_parts. unfold bind. now destruct (dec_offset (f_offset f) (mkenv done vars) d p). }
  eapply sim_bind; [exact Hs0|]. cbv beta. intros ? _ ->.
  eapply sim_left; [intros d p; apply run_app|].
  eapply sim_bind.
  { eapply value_sim; try eassumption. intros _ Hin Hb. specialize (Hnv _ Hb).
    rewrite look_none in Hnv. now apply (Hnv _ _ Hin). }
  intros s1 v (ex & -> & Hf & Hl).
  pose proof (checks_binds _ _ Hc1) as ->.
  assert (Hg1 : good (ex ++ s) (all_binds (value_part vars before b f) ++ g) before done ca fa).
  { apply good_extend; [assumption|assumption|assumption|]. intros y k Hin.
    assert (Ho : own_sort (b_index b) (f_untake f) (y, k)).
    { eapply gen_field_binds with (vars := vars) (before := before). rewrite gen_field_parts, !all_binds_app, !in_app_iff.
      left. right. exact Hin. }
    destruct k; cbn in Ho; (split; [easy|]); intros m; easy. }
  assert (Hg2 : good (ex ++ s) (all_binds (value_part vars before b f) ++ g) (before ++ [b_name b]) (done ++ [v]) ca fa).
  { destruct Hg1 as [A1 A2 A3 A4]. split; auto. apply Forall2_app; [assumption|]. now constructor. }
  eapply sim_right with (n' := c <- ret (publish f (mkenv (done ++ [v]) vars) ca) ;; ret (v, c)); [reflexivity|].
  eapply sim_left with (m' := s' <- run_stmts dty (publish_part vars before b f) (ex ++ s) ;; ret s').
  { intros d p. unfold bind, ret. now destruct (run_stmts dty (publish_part vars before b f) (ex ++ s) d p). }
  eapply sim_bind; [eapply publish_sim; [exact Hg2|exact Hc|]|].
  - intros x Hx. apply in_app_iff in Hx as [Hx|[<-|[]]]; auto.
  - cbv beta. intros s' c Hg'. now apply sim_ret.
Qed.

(** ** All fields *)
Lemma fields_sim named fs : forall before i s g g' done ca prev bs,
  good s g before done ca prev ->
  length before = i -> map b_name bs = before -> (forall b, In b bs -> (b_index b < i)%nat) ->
  check_stmts (gen_fields named vars before i fs) g = Some g' ->
  check_return (bs ++ binders i fs) g' = true ->
  (forall b, In b bs -> b_name b = POSITION -> b_type b = TInt Usize -> forall f, In f fs -> f_untake (n_spec f) = false) ->
  ~ position_taken fs ->
  sim (run_stmts dty (gen_fields named vars before i fs) s)
      (dec_fields dty (negb named) vars (nameless fs) ca prev done)
      (fun s' vs => run_return (bs ++ binders i fs) s' = vs).
Proof.
  induction fs as [|f fs IH]; intros before i s g g' done ca prev bs Hg Hl Hb Hi Hc Hr Hp Hpt.
  - cbn [gen_fields run_stmts nameless map dec_fields binders] in *. apply sim_ret.
    rewrite app_nil_r. unfold run_return. destruct Hg as [_ _ _ Hd]. subst before. clear -Hd.
    revert done Hd. induction bs as [|b bs IH]; cbn; intros done Hd; inversion Hd; subst; [reflexivity|].
    cbn. rewrite H1. cbn. f_equal. now apply IH.
  - set (b := mkbinder (n_name f) i (n_type f)).
    assert (Hret : forall b', In b' (bs ++ binders i (f :: fs)) -> returns b' g' = true).
    { unfold check_return in Hr. rewrite forallb_forall in Hr. exact Hr. }
    assert (Hnf : forall x, In x before -> look x (all_binds (gen_fields named vars before i (f :: fs))) = None).
    { intros x Hx. rewrite <- Hb in Hx. apply in_map_iff in Hx as (b' & <- & Hin).
      eapply not_hidden; [exact Hc|now apply Hi| |intros E1 E2; now apply (Hp b')].
      apply Hret. apply in_app_iff. now left. }
    cbn [gen_fields] in Hc, Hnf |- *. cbn [nameless map dec_fields].
    rewrite check_app in Hc.
    set (first := if named || f_use (n_spec f) then _ else _) in *.
    destruct (check_stmts first g) as [g0|] eqn:Hc0; [|discriminate].
    rewrite check_app in Hc.
    destruct (check_stmts (gen_field vars before (mkbinder (n_name f) i (n_type f)) (n_spec f)) g0) as [g1|] eqn:Hc1; [|discriminate].
    fold b in Hc1, Hc, Hnf |- *.
    assert (Hnfst : forall x, In x before -> look x (all_binds first) = None).
    { intros x Hx. specialize (Hnf x Hx). rewrite !all_binds_app, !look_app in Hnf.
      destruct (look x _); [discriminate|]. destruct (look x _); [discriminate|]. exact Hnf. }
    assert (Hnown : forall x, In x before -> look x (all_binds (gen_field vars before b (n_spec f))) = None).
    { intros x Hx. specialize (Hnf x Hx). rewrite !all_binds_app, !look_app in Hnf.
      destruct (look x (all_binds (gen_fields _ _ _ _ _))); [discriminate|].
      destruct (look x (all_binds (gen_field _ _ _ _))); [discriminate|]. reflexivity. }
    assert (Hret1 : returns b g1 = true).
    { eapply proj2. eapply not_hidden with (b := b); [exact Hc| | |].
      - cbn. lia.
      - apply Hret. apply in_app_iff. right. now left.
      - intros E1 E2 h Hh. destruct (f_untake (n_spec h)) eqn:Eu; [|reflexivity]. exfalso. apply Hpt.
        apply In_nth_error in Hh as (j & Hj). exists 0%nat, (S j), f, h. repeat split; auto. lia. }
    assert (Hposown : b_name b = POSITION -> b_type b = TInt Usize -> f_untake (n_spec f) = false).
    { intros E1 E2. destruct (f_untake (n_spec f)) eqn:Eu; [|reflexivity]. exfalso. apply Hpt.
      exists 0%nat, 0%nat, f, f. repeat split; auto. }
    (* the modifiers *)
    assert (Hmod : f_use (n_spec f) = false -> modifiers (n_spec f) (mkenv done vars) = Some no_fattr).
    { intros E. unfold modifiers. now rewrite E. }
    set (fa := fun own => if negb named && negb (f_use (n_spec f)) then prev else own).
    assert (H0 : sim (run_stmts dty first s)
                     (match modifiers (n_spec f) (mkenv done vars) with Some own => ret own | None => panic end)
                     (fun s' own => good s' g0 before done ca (fa own))).
    { unfold first, fa in *. destruct (named || f_use (n_spec f)) eqn:E.
      - cbn [check_stmts check_stmt] in Hc0. injection Hc0 as <-.
        eapply sim_left; [intros d p; apply run_one|]. cbn [run_stmt].
        rewrite (good_sees _ Hg). destruct (modifiers (n_spec f) (mkenv done vars)) as [own|]; [|apply sim_panic].
        apply sim_ret. replace (negb named && negb (f_use (n_spec f))) with false
          by (destruct named, (f_use (n_spec f)); easy).
        destruct Hg as [A1 A2 A3 A4]. split.
        + constructor; [|assumption]. split; [reflexivity|exact I].
        + intros m. rewrite !look_cons, eqb_neq by discriminate. apply A2.
        + intros _. rewrite look_cons, eqb_refl. reflexivity.
        + assert (Hx : forall x, In x before -> look x ((FATTR_NEW, LFattr own) :: s) = look x s).
          { intros x Hx. specialize (Hnfst x Hx). change (look x [(FATTR_NEW, KFattr)] = None) in Hnfst. rewrite look_cons in Hnfst. rewrite look_cons.
            destruct (bytes_eqb x FATTR_NEW); [discriminate|reflexivity]. }
          clear -A4 Hx. induction A4; constructor.
          * rewrite Hx by (now left). assumption.
          * apply IHA4. intros z Hz. apply Hx. now right.
      - injection Hc0 as <-. apply orb_false_iff in E as [E1 E2]. rewrite E1, E2, (Hmod E2). cbn. now apply sim_ret. }
    eapply sim_left; [intros d p; apply run_app|].
    apply sim_right with (n' := own <- (match modifiers (n_spec f) (mkenv done vars) with Some own => ret own | None => panic end) ;;
       vc <- (v <- dec_field (dty (n_type f)) (n_spec f) ca (fa own) (mkenv done vars) ;;
              ret (v, publish (n_spec f) (mkenv (done ++ [v]) vars) ca)) ;;
       dec_fields dty (negb named) vars (nameless fs) (snd vc) (fa own) (done ++ [fst vc])).
    { intros d p. destruct (modifiers (n_spec f) (mkenv done vars)) as [own|]; [|reflexivity].
      unfold bind, ret. fold (fa own).
      destruct (dec_field (dty (n_type f)) (n_spec f) ca (fa own) (mkenv done vars) d p); reflexivity. }
    eapply sim_bind; [exact H0|]. cbv beta. intros s0 own Hg0.
    eapply sim_left; [intros d p; apply run_app|].
    eapply sim_bind; [exact (field_sim _ _ Hg0 Hc1 Hnown Hret1 Hposown)|]. cbv beta.
    intros s1 [v c] Hg1. cbn [fst snd] in *.
    replace (bs ++ binders i (f :: fs)) with ((bs ++ [b]) ++ binders (S i) fs) in * by (cbn; now rewrite <- app_assoc).
    change (n_name f) with (b_name b).
    eapply IH.
    + exact Hg1.
    + rewrite app_length. cbn. lia.
    + rewrite map_app, Hb. reflexivity.
    + intros b' Hin. apply in_app_iff in Hin as [Hin|[<-|[]]]; [specialize (Hi _ Hin); lia|cbn; lia].
    + exact Hc.
    + exact Hr.
    + intros b' Hin E1 E2 h Hh. apply in_app_iff in Hin as [Hin|[<-|[]]]; [eapply Hp; eauto; now right|].
      destruct (f_untake (n_spec h)) eqn:Eu; [|reflexivity]. exfalso. apply Hpt.
      apply In_nth_error in Hh as (j & Hj). exists 0%nat, (S j), f, h. repeat split; auto. lia.
    + intros (j & k & h & h' & H1 & H2 & H3 & H4). apply Hpt. exists (S j), (S k), h, h'. repeat split; try apply H4; auto. lia.
Qed.
End Fields.

(** ** What compiles *)
Definition ready (m : bool) (g : scope) : Prop :=
  look INPUT g = Some KInput /\ look CATTR_NEW g = Some (KCattr m) /\ look FATTR_NEW g = Some KFattr.
Lemma ready_cons m g y k : ready m g -> y <> INPUT -> y <> CATTR_NEW -> y <> FATTR_NEW -> ready m ((y, k) :: g).
Proof. intros (H1 & H2 & H3) A B C. unfold ready. rewrite !look_cons, !eqb_neq by congruence. auto. Qed.
Lemma ready_input m g : ready m g -> has_input g = true.
Proof. intros (H & _). unfold has_input. now rewrite H. Qed.
Lemma ready_modifiers m g : ready m g -> has_modifiers g = true.
Proof. intros H. unfold has_modifiers. rewrite (ready_input H). destruct H as (_ & -> & ->). reflexivity. Qed.

Lemma unreserved x : ~ In x reserved -> x <> INPUT /\ x <> CATTR_NEW /\ x <> CATTR_NEW2 /\ x <> FATTR_NEW /\ x <> POSITION.
Proof. intros H. repeat split; intros ->; apply H; cbn; auto 8. Qed.

Lemma tail_checks vars before b f g m :
  ready m g -> ~ In (b_name b) reserved -> holds_field b g = true ->
  exists g', check_stmts (tail_part vars before b f) g = Some g' /\ ready m g' /\ holds_field b g' = true.
Proof.
  intros Hr Hn Hh. apply unreserved in Hn as (N1 & N2 & N3 & N4 & N5). unfold tail_part.
  assert (Hb : forall g, holds_field b (bind_field b g) = true).
  { intros g0. unfold holds_field, bind_field. now rewrite look_cons, eqb_refl, Nat.eqb_refl. }
  destruct (f_value_decode f), (f_check f); cbn [app check_stmts check_stmt]; rewrite ?Hh.
  - assert (Hr' : ready m (bind_field b g)) by (apply ready_cons; auto).
    rewrite (ready_input Hr'), Hb. cbn. eauto.
  - eexists. split; [reflexivity|]. split; [apply ready_cons; auto|apply Hb].
  - rewrite (ready_input Hr). cbn. eauto.
  - eauto.
Qed.
Lemma value_checks vars before b f g m :
  ready m g -> ~ In (b_name b) reserved ->
  exists g', check_stmts (value_part vars before b f) g = Some g' /\ ready m g' /\ holds_field b g' = true.
Proof.
  intros Hr Hn. pose proof (unreserved Hn) as (N1 & N2 & N3 & N4 & N5). unfold value_part.
  assert (Hb : forall g, holds_field b (bind_field b g) = true).
  { intros g0. unfold holds_field, bind_field. now rewrite look_cons, eqb_refl, Nat.eqb_refl. }
  assert (Hrb : forall g, ready m g -> ready m (bind_field b g)) by (intros; apply ready_cons; auto).
  destruct (f_with_decode f).
  { cbn [check_stmts check_stmt]. rewrite (ready_modifiers Hr). eauto. }
  destruct (f_skip_decode f).
  { cbn [check_stmts check_stmt]. eauto. }
  destruct (f_from_str f) as [[parse ?]|].
  { cbn [check_stmts check_stmt]. rewrite (ready_modifiers Hr).
    assert (Hr' : ready m ((b_name b, KText) :: g)) by (apply ready_cons; auto).
    rewrite (ready_input Hr'), look_cons, eqb_refl. eauto. }
  destruct (f_untake f).
  - cbn [app check_stmts]. cbn [check_stmt]. rewrite (ready_input Hr).
    assert (Hr1 : ready m ((POSITION, KUsize) :: g)) by (apply ready_cons; auto; discriminate).
    rewrite (ready_modifiers Hr1). pose proof (Hrb _ Hr1) as Hr2. rewrite (ready_input Hr2).
    unfold bind_field at 1. rewrite look_cons, eqb_neq by congruence. rewrite look_cons, eqb_refl.
    apply tail_checks; auto.
  - cbn [app check_stmts check_stmt]. rewrite (ready_modifiers Hr). apply tail_checks; auto.
Qed.
Lemma publishes_check vars before vs g m : look CATTR_NEW g = Some (KCattr m) ->
  check_stmts (publishes vars before vs) g = Some g.
Proof. intros H. induction vs; [reflexivity|]. cbn [publishes map check_stmts check_stmt]. rewrite H. exact IHvs. Qed.
Lemma field_checks vars before b f g m :
  ready m g -> ~ In (b_name b) reserved -> (m = false -> f_vars f = []) ->
  exists g', check_stmts (gen_field vars before b f) g = Some g' /\ ready m g' /\ holds_field b g' = true.
Proof.
  intros Hr Hn Hv. pose proof (unreserved Hn) as (N1 & N2 & N3 & N4 & N5). rewrite gen_field_parts, check_app.
  replace (check_stmts (offset_part vars before (f_offset f)) g) with (Some g).
  2: { unfold offset_part. destruct (f_offset f); [|reflexivity]. cbn [check_stmts check_stmt]. now rewrite (ready_input Hr). }
  rewrite check_app. destruct (value_checks vars before b f Hr Hn) as (g1 & -> & Hr1 & Hh1).
  rewrite publish_part_publishes. destruct (f_vars f) eqn:Ev; [exists g1; auto|].
  destruct m; [|now specialize (Hv eq_refl)].
  cbn [check_stmts check_stmt]. destruct Hr1 as (A1 & A2 & A3). rewrite A2.
  assert (Hr2 : ready true ((CATTR_NEW2, KOther) :: g1)) by (apply ready_cons; [split; auto|discriminate..]).
  erewrite publishes_check by apply Hr2. eexists. split; [reflexivity|]. split; [exact Hr2|].
  unfold holds_field in *. now rewrite look_cons, eqb_neq by congruence.
Qed.

Lemma gen_field_names vars before b f y k :
  In (y, k) (all_binds (gen_field vars before b f)) -> y = b_name b \/ In y reserved.
Proof.
  rewrite in_all_binds. intros (c & Hc & Hyk). unfold gen_field in Hc.
  assert (R : In POSITION reserved /\ In CATTR_NEW2 reserved) by (split; cbn; auto 8).
  destruct R as [R1 R2].
  rewrite !in_app_iff in Hc. destruct Hc as [Hc|[Hc|Hc]].
  - destruct (f_offset f); [|easy]. destruct Hc as [<-|[]]. easy.
  - destruct (f_with_decode f); [destruct Hc as [<-|[]]; destruct Hyk as [[= <- <-]|[]]; now left|].
    destruct (f_skip_decode f); [destruct Hc as [<-|[]]; destruct Hyk as [[= <- <-]|[]]; now left|].
    destruct (f_from_str f) as [[parse ?]|].
    + destruct Hc as [<-|[<-|[]]]; destruct Hyk as [[= <- <-]|[]]; now left.
    + rewrite !in_app_iff in Hc. destruct Hc as [Hc|[Hc|[Hc|[Hc|Hc]]]].
      * destruct (f_untake f); [|easy]. destruct Hc as [<-|[]]; destruct Hyk as [[= <- <-]|[]]. now right.
      * destruct Hc as [<-|[]]; destruct Hyk as [[= <- <-]|[]]. now left.
      * destruct (f_untake f); [|easy]. destruct Hc as [<-|[]]; easy.
      * destruct (f_value_decode f); [|easy]. destruct Hc as [<-|[]]; destruct Hyk as [[= <- <-]|[]]. now left.
      * destruct (f_check f); [|easy]. destruct Hc as [<-|[]]; easy.
  - destruct (f_vars f) as [|nx vs] eqn:E; [easy|]. destruct Hc as [<-|Hc].
    + destruct Hyk as [[= <- <-]|[]]. now right.
    + apply in_map_iff in Hc as (? & <- & _). easy.
Qed.
Lemma gen_fields_names named vars fs : forall before i y k,
  In (y, k) (all_binds (gen_fields named vars before i fs)) -> In y (map n_name fs) \/ In y reserved.
Proof.
  induction fs as [|f fs IH]; cbn [gen_fields]; intros before i y k H; [easy|].
  rewrite !all_binds_app, !in_app_iff in H. destruct H as [[H|H]|H].
  - apply IH in H as [H|H]; [left; now right|now right].
  - apply gen_field_names in H as [H|H]; [left; now left|now right].
  - destruct (named || f_use (n_spec f)); [|easy]. destruct H as [[= <- <-]|[]]. right. cbn. auto 8.
Qed.

Lemma fields_check named vars fs m : forall before i g,
  look INPUT g = Some KInput -> look CATTR_NEW g = Some (KCattr m) ->
  (look FATTR_NEW g = Some KFattr \/ named = true \/ match fs with [] => True | f :: _ => f_use (n_spec f) = true end) ->
  (forall f, In f fs -> ~ In (n_name f) reserved) -> NoDup (map n_name fs) ->
  (m = false -> forall f, In f fs -> f_vars (n_spec f) = []) ->
  exists g', check_stmts (gen_fields named vars before i fs) g = Some g' /\ check_return (binders i fs) g' = true.
Proof.
  induction fs as [|f fs IH]; intros before i g H1 H2 H3 Hn Hd Hv.
  - exists g. split; reflexivity.
  - cbn [gen_fields]. rewrite check_app. set (first := if named || f_use (n_spec f) then _ else _).
    assert (Hf : exists g0, check_stmts first g = Some g0 /\ ready m g0).
    { unfold first. destruct (named || f_use (n_spec f)) eqn:E.
      - eexists. split; [reflexivity|]. unfold ready. rewrite !look_cons.
        replace (bytes_eqb INPUT FATTR_NEW) with false by reflexivity.
        replace (bytes_eqb CATTR_NEW FATTR_NEW) with false by reflexivity. rewrite eqb_refl. auto.
      - exists g. split; [reflexivity|]. apply orb_false_iff in E as [E1 E2].
        destruct H3 as [H3|[H3|H3]]; [|congruence|congruence]. repeat split; auto. }
    destruct Hf as (g0 & -> & Hr0). rewrite check_app.
    assert (Hnf : ~ In (n_name f) reserved) by (apply Hn; now left).
    destruct (field_checks vars before (mkbinder (n_name f) i (n_type f)) (n_spec f) Hr0 Hnf) as (g1 & -> & Hr1 & Hh).
    { intros Em. apply Hv; [exact Em|now left]. }
    inversion Hd as [|? ? Hnin Hd']; subst. destruct Hr1 as (A1 & A2 & A3).
    destruct (IH (before ++ [n_name f]) (S i) g1 A1 A2 (or_introl A3)) as (g' & Hc & Hret).
    { intros h Hin. apply Hn. now right. }
    { exact Hd'. }
    { intros Em h Hin. apply Hv; [exact Em|now right]. }
    exists g'. split; [exact Hc|]. cbn [binders]. unfold check_return in *. cbn [forallb]. rewrite Hret, andb_true_r.
    apply checks_binds in Hc. subst g'. rewrite look_app.
    replace (look _ (all_binds (gen_fields named vars (before ++ [n_name f]) (S i) fs))) with (@None sort).
    + unfold holds_field in Hh. destruct (look (b_name (mkbinder (n_name f) i (n_type f))) g1) as [[]|]; try discriminate. exact Hh.
    + symmetry. apply look_none. intros y k Hin ->. cbn [b_name] in *.
      apply gen_fields_names in Hin as [Hin|Hin]; contradiction.
Qed.

(** ** What does not compile *)
Lemma gen_fields_app named vars l : forall before i r,
  gen_fields named vars before i (l ++ r) =
  gen_fields named vars before i l ++ gen_fields named vars (before ++ map n_name l) (i + length l) r.
Proof.
  induction l as [|f l IH]; intros before i r; cbn [gen_fields app map length].
  - now rewrite app_nil_r, Nat.add_0_r.
  - rewrite IH, <- !app_assoc. cbn [app]. replace (S i + length l)%nat with (i + S (length l))%nat by lia. reflexivity.
Qed.

(** The name stands for something that is neither the reader nor modifiers. *)
Definition lost (k : sort) : Prop := k <> KInput /\ k <> KFattr /\ forall m, k <> KCattr m.
Definition broken (x : bytes) (g : scope) : Prop := exists k, look x g = Some k /\ lost k.
Lemma own_lost i u y k : own_sort i u (y, k) -> lost k.
Proof. unfold lost. destruct k; cbn; intros H; repeat split; try easy; intros m; easy. Qed.
Lemma broken_more x l g g' : broken x g -> check_stmts l g = Some g' ->
  (forall y k, In (y, k) (all_binds l) -> y <> x \/ lost k) -> broken x g'.
Proof.
  intros (k & Hk & Hl) Hc Hb. apply checks_binds in Hc. subst g'. unfold broken. rewrite look_app.
  destruct (look x (all_binds l)) as [k'|] eqn:E; [|eauto]. exists k'. split; [reflexivity|].
  apply look_in in E. apply Hb in E as [E|E]; [congruence|exact E].
Qed.
Lemma own_broken vars before b f g g' : check_stmts (gen_field vars before b f) g = Some g' -> broken (b_name b) g'.
Proof.
  intros Hc. apply checks_binds in Hc. subst g'. unfold broken. rewrite look_app.
  destruct (look (b_name b) (all_binds (gen_field vars before b f))) as [k|] eqn:E.
  - exists k. split; [reflexivity|]. apply look_in in E. apply gen_field_binds in E. eapply own_lost, E.
  - exfalso. rewrite gen_field_parts, !all_binds_app, !look_app in E.
    destruct (look (b_name b) (all_binds (publish_part vars before b f))); [discriminate|].
    destruct (look (b_name b) (all_binds (value_part vars before b f))) eqn:E2; [discriminate|].
    now apply value_part_binds in E2.
Qed.
Lemma gen_fields_fattr named vars fs y : forall before i,
  In (y, KFattr) (all_binds (gen_fields named vars before i fs)) -> y = FATTR_NEW.
Proof.
  induction fs as [|f fs IH]; cbn [gen_fields]; intros before i Hin; [easy|].
  rewrite !all_binds_app, !in_app_iff in Hin. destruct Hin as [[Hin|Hin]|Hin].
  - eapply IH, Hin.
  - now apply gen_field_binds in Hin.
  - destruct (named || f_use (n_spec f)); [|easy]. destruct Hin as [[= <-]|[]]. reflexivity.
Qed.
Lemma fields_broken named vars before i fs x g g' : x <> FATTR_NEW -> broken x g ->
  check_stmts (gen_fields named vars before i fs) g = Some g' -> broken x g'.
Proof.
  intros Hx Hb Hc. eapply broken_more; [exact Hb|exact Hc|]. intros y k Hin.
  pose proof Hin as Hs. apply gen_fields_binds in Hs.
  destruct k; cbn in Hs; try easy; try (right; unfold lost; repeat split; try easy; intros m; easy).
  left. apply gen_fields_fattr in Hin. congruence.
Qed.
Lemma field_lacking vars before b f g : has_modifiers g = false -> f_skip_decode f = None ->
  check_stmts (gen_field vars before b f) g = None.
Proof.
  intros Hm Hs. rewrite gen_field_parts, check_app.
  destruct (check_stmts (offset_part vars before (f_offset f)) g) as [g0|] eqn:E; [|reflexivity].
  assert (g0 = g) as ->.
  { apply checks_binds in E. subst g0. unfold offset_part. now destruct (f_offset f). }
  rewrite check_app. unfold value_part. rewrite Hs.
  destruct (f_with_decode f); [cbn [check_stmts check_stmt]; now rewrite Hm|].
  destruct (f_from_str f) as [[parse ?]|]; [cbn [check_stmts check_stmt]; now rewrite Hm|].
  destruct (f_untake f); cbn [app check_stmts check_stmt].
  - destruct (has_input g); [|reflexivity].
    replace (has_modifiers ((POSITION, KUsize) :: g)) with (has_modifiers g) by reflexivity. now rewrite Hm.
  - now rewrite Hm.
Qed.
Lemma broken_lacks x g : x = INPUT \/ x = CATTR_NEW -> broken x g -> has_modifiers g = false.
Proof.
  intros Hx (k & Hk & H1 & H2 & H3). unfold has_modifiers, has_input. destruct Hx; subst x; rewrite Hk.
  - destruct k; try reflexivity. now destruct H1.
  - apply andb_false_iff. right. destruct k; try reflexivity. now destruct (H3 mutable).
Qed.
Lemma frozen l : forall g, look CATTR_NEW g <> Some (KCattr true) -> In LetCattr2 l -> check_stmts l g = None.
Proof.
  induction l as [|c l IH]; intros g Hg Hin; [easy|]. cbn [check_stmts].
  destruct Hin as [->|Hin].
  - cbn [check_stmt]. destruct (look CATTR_NEW g) as [[]|]; try reflexivity. destruct mutable; [congruence|reflexivity].
  - destruct (check_stmt c g) as [g'|] eqn:E; [|reflexivity]. apply IH; [|exact Hin].
    apply check_binds in E. subst g'. rewrite look_app.
    destruct (look CATTR_NEW (binds c)) as [k|] eqn:Ek; [|exact Hg].
    apply look_in in Ek. destruct c; cbn in Ek; try easy; destruct Ek as [Ek|[]]; congruence.
Qed.
Lemma publishes_in named vars f fs : forall before i, In f fs -> f_vars (n_spec f) <> [] ->
  In LetCattr2 (gen_fields named vars before i fs).
Proof.
  induction fs as [|h fs IH]; intros before i Hin Hv; [easy|]. cbn [gen_fields]. rewrite !in_app_iff.
  destruct Hin as [->|Hin]; [|right; right; now apply IH]. right. left.
  rewrite gen_field_parts, !in_app_iff. right. right. rewrite publish_part_publishes.
  destruct (f_vars (n_spec f)); [congruence|]. now left.
Qed.
