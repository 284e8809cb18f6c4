(** Proofs about [Buffer] as one file. *)
From Verif Require Import Base Ints Reader Writer BufIo ReadAny Schema Decode Encode Spec SpecOps RunSpec WireSpec SafetySpec BufferCalls FileSpec.
From Verif Require Import BaseLemmas ReaderLemmas ReaderHist WriterLemmas WriterHist Bounds.
From Verif Require Import PropsContainers PropsRobust.

Lemma reads_within o rest r n : reads o rest r n -> n <= size rest.
Proof.
  assert (L : forall needle before, leftmost needle rest before -> size before + size needle <= size rest).
  { intros needle before (after & -> & _). change size with (@lenN byte). rewrite !lenN_app. lia. }
  assert (M : forall needles needle before, first_to_end needles needle rest before -> size before + size needle <= size rest).
  { intros needles needle before (_ & after & -> & _). change size with (@lenN byte). rewrite !lenN_app. lia. }
  induction 1; try lia; try (specialize (L _ _ H); lia); try (specialize (M _ _ _ H); lia).
  - destruct (peeks o); lia.
  - change size with (@lenN byte). rewrite lenN_app. lia.
Qed.

Lemma occurs_cut needle rest i : occurs_at needle rest i <-> exists before after, cut needle rest before after /\ size before = N.of_nat i.
Proof.
  split.
  - intros (b & a & E & L). exists b, a. split; [exact E|]. unfold size. lia.
  - intros (b & a & E & L). exists b, a. split; [exact E|]. unfold size in L. lia.
Qed.
Lemma cut_firstn needle rest before after : cut needle rest before after -> firstn (length before) rest = before.
Proof. intros ->. rewrite firstn_app, Nat.sub_diag, firstn_all. apply app_nil_r. Qed.
Lemma leftmost_of needle rest i : occurs_at needle rest i -> (forall j, (j < i)%nat -> ~ occurs_at needle rest j) ->
  leftmost needle rest (firstn i rest) /\ size (firstn i rest) = N.of_nat i.
Proof.
  intros O M. destruct (proj1 (occurs_cut _ _ _) O) as (b & a & C & L).
  assert (i = length b) as -> by (unfold size in L; lia). rewrite (cut_firstn _ _ _ _ C). split; [|exact L].
  exists a. split; [exact C|]. intros b' a' C'. destruct (N.le_gt_cases (size b) (size b')) as [Q|Q]; [exact Q|]. exfalso.
  apply (M (length b')); [unfold size in Q; lia|]. apply occurs_cut. exists b', a'. split; [exact C'|reflexivity].
Qed.
Lemma nowhere_of needle rest : (forall i, ~ occurs_at needle rest i) -> forall before after, ~ cut needle rest before after.
Proof. intros H b a C. apply (H (length b)). apply occurs_cut. exists b, a. split; [exact C|reflexivity]. Qed.
Lemma first_of needles needle rest i : In needle needles -> occurs_at needle rest i ->
  (forall other j, In other needles -> occurs_at other rest j ->
     (i + length needle < j + length other)%nat \/ (i + length needle = j + length other)%nat /\ (length other <= length needle)%nat) ->
  first_to_end needles needle rest (firstn i rest) /\ size (firstn i rest) = N.of_nat i.
Proof.
  intros I O M. destruct (proj1 (occurs_cut _ _ _) O) as (b & a & C & L).
  assert (i = length b) as -> by (unfold size in L; lia). rewrite (cut_firstn _ _ _ _ C). split; [|exact L].
  split; [exact I|]. exists a. split; [exact C|]. intros other b' a' I' C'.
  assert (O' : occurs_at other rest (length b')) by (apply occurs_cut; exists b', a'; split; [exact C'|reflexivity]).
  destruct (M other (length b') I' O') as [Q|[Q R]]; unfold size; [left|right]; lia.
Qed.

Lemma cut_nil needle : needle <> [] -> forall before after, ~ cut needle [] before after.
Proof. intros N b a E. unfold cut in E. symmetry in E. apply app_eq_nil in E as [_ E]. apply app_eq_nil in E as [E _]. contradiction. Qed.

Lemma read_past o n f d p : reading o = Some (n, f) -> 0 < n -> allocatable d -> size d < p ->
  run_rop o d p = Err (mkerr p InvalidByteLength) p.
Proof.
  intros R Hn A P. unfold allocatable in A. change size with (@lenN byte) in *.
  assert (T : take_bytes n d p = Err (mkerr p InvalidByteLength) p) by (apply take_bytes_out; lia).
  assert (U : untake_bytes n d p = Err (mkerr p InvalidByteLength) p) by (apply untake_bytes_out; lia).
  assert (W : take_array n d p = Err (mkerr p InvalidByteLength) p).
  { unfold take_array. rewrite remaining_out by exact P. unfold slice_get_to. change (lenN []) with 0. destruct (N.leb_spec n 0); [lia|]. reflexivity. }
  destruct o; cbn [reading run_rop] in *; try discriminate R;
    repeat match type of R with context [if ?b then _ else _] => destruct b eqn:?; try discriminate R end;
    try (destruct bo; injection R as -> _; unfold rmap, take_byteorder_array, bind; rewrite W; reflexivity);
    try (injection R as -> _; unfold rmap, bind; rewrite ?T, ?U, ?W; reflexivity);
    try (injection R as <- _; unfold rmap, take_bool, take_char, untake_bool, untake_char, take_f32, take_f64, untake_f32, untake_f64,
           take_fixed, untake_fixed, bind; rewrite ?T, ?U; reflexivity);
    try (injection R as <- _; unfold rmap, take_u24, untake_u24, take_n, untake_n, take_n_be, untake_n_be, take_n_le, untake_n_le, bind;
         destruct (order_of k); cbn [N.ltb N.compare Pos.compare Pos.compare_cont]; rewrite ?T, ?U; reflexivity);
    try (injection R as -> _; unfold rmap, take_uint, untake_uint, take_sint, untake_sint, take_n, untake_n, take_n_be, untake_n_be, take_n_le, untake_n_le, bind;
         assert (E : 8 <? n = false) by (apply N.ltb_ge; apply N.leb_le; assumption); destruct (order_of k); rewrite E, ?T, ?U; reflexivity).
  all: injection R as <- _; rewrite width_sizeN in *; unfold rmap, take_int, untake_int, bind;
    destruct t; change (sizeN U8) with 1 in *; change (sizeN I8) with 1 in *; unfold take_u8, untake_u8, take_fixed, untake_fixed, bind; rewrite ?T, ?U; reflexivity.
Qed.

Lemma ahead_past f : size (f_contents f) < f_offset f -> ahead f = [].
Proof. intros H. unfold ahead. apply skipn_all2. unfold size in H. lia. Qed.
Lemma size_ahead d p : size (skipn (N.to_nat p) d) = size d - p.
Proof. unfold size. rewrite skipn_length. lia. Qed.

(** The outcome of a reading call, in the words of [reads]. *)
Definition read_outcome (p : N) (r : rval + ekind) (n : N) : res N rval :=
  match r with inl v => Ok v (p + n) | inr k => Err (mkerr p k) (p + n) end.
Lemma read_step o d p : allocatable d -> p < W63 -> wide_le o = false -> p <= size d \/ ~ asks_nothing o ->
  exists r n, run_rop o d p = read_outcome p r n /\ reads o (skipn (N.to_nat p) d) r n.
Proof.
  intros A P W I.
  destruct (reading o) as [[n f]|] eqn:R.
  { destruct (N.le_gt_cases p (size d)) as [Q|Q].
    - destruct (N.leb_spec (p + n) (size d)) as [L|L].
      + exists (inl (f (window d p n))), (if peeks o then 0 else n). split.
        * rewrite (reading_answers o n f R d p A Q). destruct (N.leb_spec (p + n) (size d)); [|lia].
          cbn [read_outcome]. destruct (peeks o); [rewrite N.add_0_r|]; reflexivity.
        * apply reads_bytes; [exact R|]. rewrite size_ahead. lia.
      + exists (inr InvalidByteLength), 0. split.
        * rewrite (reading_answers o n f R d p A Q). destruct (N.leb_spec (p + n) (size d)); [lia|]. cbn [read_outcome]. now rewrite N.add_0_r.
        * apply (reads_short o n f); [exact R|]. rewrite size_ahead. lia.
    - destruct I as [I|I]; [lia|]. exists (inr InvalidByteLength), 0.
      assert (0 < n) as Hn.
      { destruct (N.eq_0_gt_0_cases n) as [->|]; [exfalso; apply I|assumption].
        destruct o; cbn [asks_nothing]; try (exists f; exact R); discriminate R. }
      split; [cbn [read_outcome]; rewrite N.add_0_r; apply (read_past o n f); assumption|].
      apply (reads_short o n f); [exact R|]. rewrite size_ahead. lia. }
  destruct (too_wide o) eqn:T.
  { exists (inr InvalidByteLength), 0. split; [|apply reads_wide; exact T]. cbn [read_outcome]. rewrite N.add_0_r.
    destruct o; try discriminate T; cbn [too_wide wide_le run_rop] in *; rewrite T in W; cbn [andb] in W;
      apply N.ltb_lt in T; unfold rmap, take_uint, take_sint, untake_uint, untake_sint, bind, take_n, untake_n, order_of, named_order in *;
      destruct k as [| | | |[]]; try discriminate W; unfold take_n_be, untake_n_be, fail;
      destruct (N.ltb_spec 8 n); (reflexivity || lia). }
  destruct (N.le_gt_cases p (size d)) as [Q|Q].
  - set (rest := skipn (N.to_nat p) d).
    destruct o as [| | |m| | | | | | | | |s|s i|ss|ss i| | | | | | | | |]; cbn [reading too_wide] in *; try discriminate R;
      try (destruct bo; discriminate R);
      try (match type of R with context [if ?b then _ else _] => destruct b eqn:B end;
           [discriminate R|apply N.leb_gt in B; apply N.ltb_ge in T; lia]); cbn [run_rop]; unfold rmap, bind.
    + destruct (take_bytes_starts_spec m d p A Q) as [[(a & E) ->]|[[L ->]|(L & D & ->)]].
      * exists (inl RvUnit), (size m). split; [reflexivity|]. unfold rest. rewrite E. apply reads_prefix.
      * exists (inr InvalidByteLength), 0. split; [cbn; now rewrite N.add_0_r|]. now apply reads_no_room.
      * exists (inr Fail), 0. split; [cbn; now rewrite N.add_0_r|]. apply reads_other; [exact L|].
        intros a E. apply D. unfold rest in E. rewrite E, firstn_app, Nat.sub_diag, firstn_all. apply app_nil_r.
    + destruct (find_subsequence_spec s d p A Q) as [(i & O & M & ->)|[O ->]].
      * destruct (leftmost_of s rest i O M) as [L Z]. exists (inl (RvBytes (firstn i rest))), (size (firstn i rest) + size s).
        split; [cbn; rewrite Z, N.add_assoc; reflexivity|]. now apply reads_up_to.
      * exists (inr Fail), 0. split; [cbn; now rewrite N.add_0_r|]. apply (reads_nowhere _ s); [now left|]. now apply nowhere_of.
    + destruct (find_subsequence_needle_spec s i d p A Q) as [(j & O & M & ->)|[O ->]].
      * destruct (leftmost_of s rest j O M) as [L Z]. destruct i.
        -- exists (inl (RvBytes (firstn j rest ++ s))), (size (firstn j rest) + size s).
           split; [cbn; rewrite Z, N.add_assoc; reflexivity|]. now apply reads_with.
        -- exists (inl (RvBytes (firstn j rest))), (size (firstn j rest)).
           split; [cbn; rewrite Z; reflexivity|]. now apply reads_without.
      * exists (inr Fail), 0. split; [cbn; now rewrite N.add_0_r|]. apply (reads_nowhere _ s); [right; now exists i|]. now apply nowhere_of.
    + destruct (find_subsequences_spec ss d p A Q) as [(s & j & I' & O & M & -> & _)|(O & -> & _)].
      * destruct (first_of ss s rest j I' O M) as [L Z]. exists (inl (RvBytes (firstn j rest))), (size (firstn j rest) + size s).
        split; [cbn; rewrite Z, N.add_assoc; reflexivity|]. now apply reads_up_to_any.
      * exists (inr Fail), 0. split; [cbn; now rewrite N.add_0_r|]. apply (reads_none _ ss); [now left|].
        intros s b a Is. apply nowhere_of. intros j. now apply O.
    + destruct (find_subsequences_spec ss d p A Q) as [(s & j & I' & O & M & _ & F1 & F2)|(O & _ & F)].
      * destruct (first_of ss s rest j I' O M) as [L Z]. destruct i.
        -- rewrite F2. exists (inl (RvBytes (firstn j rest ++ s))), (size (firstn j rest) + size s).
           split; [cbn; rewrite Z, N.add_assoc; reflexivity|]. now apply reads_with_any.
        -- rewrite F1. exists (inl (RvBytes (firstn j rest))), (size (firstn j rest)).
           split; [cbn; rewrite Z; reflexivity|]. now apply (reads_without_any ss s).
      * rewrite F. exists (inr Fail), 0. split; [cbn; now rewrite N.add_0_r|]. apply (reads_none _ ss); [right; now exists i|].
        intros s b a Is. apply nowhere_of. intros j. now apply O.
  - destruct I as [I|I]; [lia|]. rewrite skipn_all2 by (unfold size in Q; lia).
    change (size d) with (lenN d) in Q. pose proof (remaining_out d p Q) as RO.
    assert (N0 : forall s : bytes, s <> [] -> memmem_find s [] = None) by (intros [|x s] H; [contradiction|reflexivity]).
    assert (N1 : forall ss : list bytes, ~ In [] ss -> ac_find ss [] = None).
    { intros ss H. destruct (ac_find ss []) as [[s e]|] eqn:F; [|reflexivity]. exfalso.
      apply ac_find_some in F as (_ & (needle & In' & O & _) & _). destruct O as (b & a & E & _).
      symmetry in E. apply app_eq_nil in E as [_ E]. apply app_eq_nil in E as [-> _]. contradiction. }
    destruct o as [| | |m| | | | | | | | |s|s i|ss|ss i| | | | | | | | |]; cbn [reading too_wide asks_nothing] in *; try discriminate R;
      try (destruct bo; discriminate R);
      try (match type of R with context [if ?b then _ else _] => destruct b eqn:B end;
           [discriminate R|apply N.leb_gt in B; apply N.ltb_ge in T; lia]); cbn [run_rop]; unfold rmap, bind.
    + unfold take_bytes_starts, remaining_len. rewrite RO. destruct m as [|x m].
      * exists (inl RvUnit), 0. split; [cbn; unfold lenN; cbn [length]; rewrite wadd_small by lia; reflexivity|]. apply (reads_prefix [] []).
      * exists (inr InvalidByteLength), 0. split; [cbn; unfold lenN; cbn [length]; rewrite N.add_0_r; destruct (N.ltb_spec (N.of_nat 0) (N.of_nat (S (length m)))); [reflexivity|lia]|].
        apply reads_no_room. unfold size. cbn [length]. lia.
    + exists (inr Fail), 0. split; [|apply (reads_nowhere _ s); [now left|now apply cut_nil]].
      unfold find_subsequence. rewrite RO, N0 by exact I. cbn. now rewrite N.add_0_r.
    + exists (inr Fail), 0. split; [|apply (reads_nowhere _ s); [right; now exists i|now apply cut_nil]].
      unfold find_subsequence_needle. rewrite RO, N0 by exact I. cbn. now rewrite N.add_0_r.
    + exists (inr Fail), 0. split; [|apply (reads_none _ ss); [now left|intros s b a H; apply cut_nil; intros ->; contradiction]].
      unfold find_subsequences. rewrite RO, N1 by exact I. cbn. now rewrite N.add_0_r.
    + exists (inr Fail), 0. split; [|apply (reads_none _ ss); [right; now exists i|intros s b a H; apply cut_nil; intros ->; contradiction]].
      unfold find_subsequences_needle. rewrite RO, N1 by exact I. cbn. now rewrite N.add_0_r.
Qed.

(** ** The file's answers are determined *)
Lemma cut_same needle rest b a b' a' : cut needle rest b a -> cut needle rest b' a' -> size b = size b' -> b = b'.
Proof.
  intros C C' L. rewrite <- (cut_firstn _ _ _ _ C), <- (cut_firstn _ _ _ _ C'). f_equal. unfold size in L. lia.
Qed.
Lemma leftmost_same needle rest b b' : leftmost needle rest b -> leftmost needle rest b' -> b = b'.
Proof.
  intros (a & C & M) (a' & C' & M'). apply (cut_same needle rest b a b' a' C C'). specialize (M b' a' C'). specialize (M' b a C). lia.
Qed.
Lemma cut_needle needle needle' rest b a a' : cut needle rest b a -> cut needle' rest b a' -> size needle = size needle' -> needle = needle'.
Proof.
  unfold cut. intros -> E L. apply app_inv_head in E.
  apply (f_equal (firstn (length needle))) in E. rewrite firstn_app, Nat.sub_diag, firstn_all, app_nil_r in E.
  replace (length needle) with (length needle') in E by (unfold size in L; lia). rewrite firstn_app, Nat.sub_diag, firstn_all, app_nil_r in E. exact E.
Qed.
Lemma first_same needles needle needle' rest b b' : first_to_end needles needle rest b -> first_to_end needles needle' rest b' ->
  b = b' /\ needle = needle'.
Proof.
  intros (I & a & C & M) (I' & a' & C' & M').
  specialize (M needle' b' a' I' C'). specialize (M' needle b a I C).
  assert (size needle = size needle' /\ size b = size b') as [L Lb] by lia.
  assert (b = b') as <-.
  { rewrite <- (cut_firstn _ _ _ _ C), <- (cut_firstn _ _ _ _ C'). f_equal. unfold size in Lb. lia. }
  split; [reflexivity|]. exact (cut_needle _ _ _ _ _ _ C C' L).
Qed.
Lemma reading_narrow o n f : reading o = Some (n, f) -> too_wide o = false.
Proof.
  destruct o; intros R; try reflexivity; cbn [reading too_wide] in *;
    (match type of R with context [if ?b then _ else _] => destruct b eqn:B; [|discriminate R] end); apply N.ltb_ge; apply N.leb_le; exact B.
Qed.
Lemma reads_same o rest r n r' n' : reads o rest r n -> reads o rest r' n' -> r = r' /\ n = n'.
Proof.
  intros H H'.
  assert (LC : forall rest needle before, leftmost needle rest before -> exists after, cut needle rest before after) by (intros ? ? ? (a & C & _); eauto).
  assert (FC : forall rest needles needle before, first_to_end needles needle rest before -> In needle needles /\ exists after, cut needle rest before after)
    by (intros ? ? ? ? (I & a & C & _); eauto).
  destruct H; inversion H'; subst; try discriminate;
    repeat match goal with
    | A : reading ?o = Some (?n, ?f), B : reading ?o = Some (?m, ?g) |- _ => rewrite A in B; injection B as <- <-
    | A : reading ?o = Some (?n, ?f), B : too_wide ?o = true |- _ => rewrite (reading_narrow _ _ _ A) in B; discriminate B
    | A : leftmost ?x ?y ?b, B : leftmost ?x ?y ?c |- _ => rewrite <- (leftmost_same _ _ _ _ A B) in *; clear B
    | A : first_to_end ?l ?x ?y ?b, B : first_to_end ?l ?z ?y ?c |- _ => destruct (first_same _ _ _ _ _ _ A B) as [<- <-]; clear B
    end; try (split; reflexivity); try lia;
    try (match goal with H : _ \/ exists _, _ |- _ => destruct H as [H|[? H]]; discriminate H end).
  all: try match goal with H : reading (RTakeStarts _) = _ |- _ => discriminate H | H : too_wide (RTakeStarts _) = _ |- _ => discriminate H end.
  all: try match goal with H : ?x ++ _ = ?x ++ _ |- _ => split; reflexivity end.
  all: try match goal with L : size (?m ++ ?r) < size ?m |- _ => change size with (@lenN byte) in L; rewrite lenN_app in L; lia end.
  all: try match goal with H : forall after, ?m ++ ?r <> ?m ++ after |- _ => exfalso; exact (H _ eq_refl) end.
  all: repeat match goal with H : _ \/ exists _, _ |- _ => destruct H as [H|[? H]]; try discriminate H; injection H as; subst end.
  all: try (split; reflexivity).
  all: try match goal with L : leftmost ?x ?r ?b, N : forall b a, ~ cut ?x ?r b a |- _ => destruct (LC _ _ _ L) as [? C]; destruct (N _ _ C) end.
  all: try match goal with L : first_to_end ?l ?x ?r ?b, N : forall n b a, In n ?l -> ~ cut n ?r b a |- _ => destruct (FC _ _ _ _ L) as [I [? C]]; destruct (N _ _ _ I C) end.
  all: match goal with H : ?o = _ \/ exists _, ?o = _ |- _ => destruct H as [->|[? ->]]; discriminate end.
Qed.
