(** Reading from any implementor is reading from [Bytes]. *)
From Verif Require Import Base Ints Spec SpecOps Reader BaseLemmas ReaderLemmas ReaderHist ReadMut ReadAny.
From Verif Require Import Schema Utf8 Decode WireSpec CodecBase SafetySpec Bounds CheckedLemmas AnyDecode AnySpec.

Section Any.
Context {S : Type}.
Variables (I : impl S) (good : S -> Prop).
Local Notation pos := (im_position I).
Local Notation data := (im_data I).
Local Notation at_ := (arrives good pos data).
Local Notation same := (same_outcome good pos data).

Record fine : Prop := mkfine {
  fine_small : forall s, good s -> small (data s);
  fine_pos : forall s, good s -> pos s < W64;
  fine_rem : forall s, good s -> im_remaining I s = remaining (data s) (pos s);
  fine_adv : forall s, good s -> forall n, n <= remaining_len (data s) (pos s) -> at_ s (im_advance I s n) (pos s + n);
  fine_take : forall s, good s -> forall n, same (data s) (im_take_bytes I s n) (take_bytes n (data s) (pos s))
}.
Hypothesis F : fine.

Definition sim {A} (c : mrd A) (m : rd A) : Prop := forall s, good s -> same (data s) (c s) (m (data s) (pos s)).

Lemma sim_ret {A} (a : A) : sim (mret a) (ret a).
Proof. intros s H. cbn. auto. Qed.
Lemma sim_fail {A} k : sim (@mfail S I A k) (fail k).
Proof. intros s H. cbn. auto. Qed.
Lemma sim_panic {A} : sim (@mpanic S A) panic.
Proof. intros s H. exact Logic.I. Qed.
Lemma sim_hang {A} : sim (fun _ => @Hang S A) (fun _ _ => Hang).
Proof. intros s H. exact Logic.I. Qed.
Lemma sim_bind {A B} (c : mrd A) m (f : A -> mrd B) g : sim c m -> (forall a, sim (f a) (g a)) -> sim (mbind c f) (Reader.bind m g).
Proof.
  intros H K s G. specialize (H s G). unfold mbind, Reader.bind.
  destruct (c s) as [a s'|e s'| |], (m (data s) (pos s)) as [b q|f' q| |]; cbn [same_outcome] in *; try contradiction; try exact Logic.I.
  - destruct H as (-> & G' & E & Q). specialize (K b s' G'). rewrite E, Q in K. exact K.
  - exact H.
Qed.
Lemma sim_map {A B} (c : mrd A) m (f : A -> B) : sim c m -> sim (mbind c (fun x => mret (f x))) (x <- m ;; ret (f x)).
Proof. intros H. apply sim_bind; [exact H|intros; apply sim_ret]. Qed.
(** Case analysis on what a call did. *)
Lemma sim_match {A B} (c : mrd A) m (f : A -> mrd B) g (f' : error -> mrd B) g' :
  sim c m -> (forall a, sim (f a) (g a)) -> (forall e, sim (f' e) (g' e)) ->
  sim (fun s => match c s with Ok a s' => f a s' | Err e s' => f' e s' | Panic => Panic | Hang => Hang end)
      (fun d p => match m d p with Ok a q => g a d q | Err e q => g' e d q | Panic => Panic | Hang => Hang end).
Proof.
  intros H K K' s G. specialize (H s G).
  destruct (c s) as [a s'|e s'| |], (m (data s) (pos s)) as [b q|f0 q| |]; cbn [same_outcome] in *; try contradiction; try exact Logic.I;
    destruct H as (-> & G' & E & Q).
  - specialize (K b s' G'). rewrite E, Q in K. exact K.
  - specialize (K' f0 s' G'). rewrite E, Q in K'. exact K'.
Qed.
Lemma sim_idx l : sim (midx0 l) (idx0 l).
Proof. destruct l; [apply sim_panic|]. intros s G. cbn. auto. Qed.

Lemma sim_take_bytes n : sim (m_take_bytes I n) (take_bytes n).
Proof. intros s G. apply (fine_take F), G. Qed.
Lemma same_adv {A} s n (a : A) : good s -> n <= remaining_len (data s) (pos s) ->
  same (data s) (match im_advance I s n with Some s' => Ok a s' | None => Panic end) (Ok a (wadd (pos s) n)).
Proof.
  intros G L. destruct (fine_adv F _ G _ L) as (s' & -> & G' & E & Q). cbn.
  rewrite wadd_small; [auto|]. apply (rem_bound (data s)); [apply (fine_small F), G|apply (fine_pos F), G|exact L].
Qed.
Lemma sim_take_array n : sim (m_take_array I n) (take_array n).
Proof.
  intros s G. unfold m_take_array, take_array. rewrite (fine_rem F) by exact G.
  destruct (slice_get_to (remaining (data s) (pos s)) n) as [v|] eqn:E; [|cbn; auto].
  apply same_adv; [exact G|]. unfold slice_get_to in E. destruct (N.leb_spec n (lenN (remaining (data s) (pos s)))); [assumption|discriminate].
Qed.
Lemma sim_untake_bytes n : sim (m_untake_bytes I n) (untake_bytes n).
Proof.
  intros s G. unfold m_untake_bytes, untake_bytes, remaining_len, slice_ok. rewrite (fine_rem F) by exact G.
  destruct (lenN (remaining (data s) (pos s)) <? n); [cbn; auto|].
  destruct (slice_get (data s) (pos s) (wadd (pos s) n)); cbn; auto.
Qed.
Lemma sim_starts m : sim (m_take_bytes_starts I m) (take_bytes_starts m).
Proof.
  intros s G. unfold m_take_bytes_starts, take_bytes_starts. rewrite (fine_rem F) by exact G. fold (remaining_len (data s) (pos s)).
  destruct (N.ltb_spec (remaining_len (data s) (pos s)) (lenN m)); [cbn; auto|].
  destruct (starts_with m (remaining (data s) (pos s))); [apply same_adv; assumption|cbn; auto].
Qed.
Lemma same_after s n a b : good s -> n <= remaining_len (data s) (pos s) ->
  same (data s) (m_after I s n a b) (slice_ok (data s) a b (wadd (pos s) n)).
Proof.
  intros G L. unfold m_after, slice_ok. pose proof (same_adv s n tt G L) as H.
  destruct (im_advance I s n) as [s'|]; [|contradiction]. cbn in H. destruct H as (_ & G' & E & Q). rewrite E.
  destruct (slice_get (data s) a b); cbn; auto.
Qed.
Lemma memmem_rem needle d p i : memmem_find needle (remaining d p) = Some i -> N.of_nat i + lenN needle <= remaining_len d p.
Proof. apply memmem_bound. Qed.
Lemma wadd_rem s a b : good s -> a + b <= remaining_len (data s) (pos s) -> wadd a b = a + b.
Proof.
  intros G L. apply wadd_small. pose proof (rem_bound _ _ _ (fine_small F s G) (fine_pos F s G) L). lia.
Qed.
Lemma sim_find n : sim (m_find_subsequence I n) (find_subsequence n).
Proof.
  intros s G. unfold m_find_subsequence, find_subsequence. rewrite (fine_rem F) by exact G.
  destruct (memmem_find n (remaining (data s) (pos s))) as [i|] eqn:E; [|cbn; auto]. apply memmem_rem in E.
  apply same_after; [exact G|]. rewrite (wadd_rem s) by assumption. exact E.
Qed.
Lemma sim_find_needle n incl : sim (m_find_subsequence_needle I n incl) (find_subsequence_needle n incl).
Proof.
  intros s G. unfold m_find_subsequence_needle, find_subsequence_needle. rewrite (fine_rem F) by exact G.
  destruct (memmem_find n (remaining (data s) (pos s))) as [i|] eqn:E; [|cbn; auto]. apply memmem_rem in E. cbv zeta.
  apply same_after; [exact G|]. destruct incl; [rewrite (wadd_rem s) by assumption; exact E|lia].
Qed.
Lemma ac_rem pats d p st e : ac_find pats (remaining d p) = Some (st, e) -> N.of_nat st <= remaining_len d p /\ N.of_nat e <= remaining_len d p.
Proof. intros E. destruct (ac_find_some _ _ _ _ E) as [L _]. unfold remaining_len, lenN in *. lia. Qed.
Lemma sim_finds ns : sim (m_find_subsequences I ns) (find_subsequences ns).
Proof.
  intros s G. unfold m_find_subsequences, find_subsequences. rewrite (fine_rem F) by exact G.
  destruct (ac_find ns (remaining (data s) (pos s))) as [[st e]|] eqn:E; [|cbn; auto]. apply ac_rem in E.
  apply same_after; [exact G|apply E].
Qed.
Lemma sim_finds_needle ns incl : sim (m_find_subsequences_needle I ns incl) (find_subsequences_needle ns incl).
Proof.
  intros s G. unfold m_find_subsequences_needle, find_subsequences_needle. rewrite (fine_rem F) by exact G.
  destruct (ac_find ns (remaining (data s) (pos s))) as [[st e]|] eqn:E; [|cbn; auto]. apply ac_rem in E. cbv zeta.
  apply same_after; [exact G|]. destruct incl; apply E.
Qed.
Lemma sim_n bo size n : sim (m_take_n I bo size n) (take_n bo size n).
Proof.
  destruct bo; cbn [m_take_n take_n]; unfold take_n_be, take_n_le; destruct (size <? n).
  - apply sim_fail.
  - apply sim_bind; [apply sim_take_bytes|intros a; apply sim_ret].
  - apply sim_panic.
  - apply sim_bind; [apply sim_take_bytes|intros a; apply sim_ret].
Qed.
Lemma sim_un bo size n : sim (m_untake_n I bo size n) (untake_n bo size n).
Proof.
  destruct bo; cbn [m_untake_n untake_n]; unfold untake_n_be, untake_n_le; destruct (size <? n).
  - apply sim_fail.
  - apply sim_bind; [apply sim_untake_bytes|intros a; apply sim_ret].
  - apply sim_panic.
  - apply sim_bind; [apply sim_untake_bytes|intros a; apply sim_ret].
Qed.
Ltac sim_step :=
  repeat first
    [ apply sim_ret | apply sim_idx | apply sim_take_bytes | apply sim_untake_bytes
    | apply sim_take_array | apply sim_n | apply sim_un
    | (apply sim_bind; [|intros ?a]) ].
Lemma sim_u8 : sim (m_take_u8 I) take_u8.
Proof. unfold m_take_u8, take_u8. sim_step. Qed.
Lemma sim_char : sim (m_take_u8 I) take_char.
Proof. unfold m_take_u8, take_char. sim_step. Qed.
Lemma sim_bool : sim (m_take_bool I) take_bool.
Proof. unfold m_take_bool, take_bool. sim_step. Qed.
Lemma sim_fixed bo n : sim (m_take_fixed I bo n) (take_fixed bo n).
Proof. unfold m_take_fixed, take_fixed. sim_step. Qed.
Lemma sim_int k t : sim (m_take_int I k t) (take_int k t).
Proof. destruct t; cbn [m_take_int take_int]; apply sim_map; first [apply sim_u8|apply sim_fixed]. Qed.
Lemma sim_op o : is_byteorder_uint o = false -> sim (run_mop I o) (run_rop o).
Proof.
  destruct o; intros Hb; cbn [run_mop run_rop]; unfold mmap, rmap;
    try (apply sim_bind; [|intros; apply sim_ret]).
  - sim_step.
  - unfold m_take_byteorder_array, take_byteorder_array. sim_step.
  - sim_step.
  - apply sim_starts.
  - apply sim_bool.
  - apply sim_char.
  - apply sim_int.
  - sim_step.
  - destruct k; try discriminate; unfold m_take_uint, take_uint; sim_step.
  - destruct k; try discriminate; unfold m_take_sint, m_take_uint, take_sint; sim_step.
  - apply sim_fixed.
  - apply sim_fixed.
  - apply sim_find.
  - apply sim_find_needle.
  - apply sim_finds.
  - apply sim_finds_needle.
  - sim_step.
  - unfold m_untake_bool, untake_bool. sim_step.
  - unfold m_untake_u8, untake_char. sim_step.
  - destruct t; cbn [m_untake_int untake_int]; unfold m_untake_u8, untake_u8, m_untake_fixed, untake_fixed; sim_step.
  - sim_step.
  - unfold m_untake_uint, untake_uint; sim_step.
  - unfold m_untake_sint, untake_sint; sim_step.
  - unfold m_untake_fixed, untake_f32, untake_fixed; sim_step.
  - unfold m_untake_fixed, untake_f64, untake_fixed; sim_step.
Qed.
End Any.

(** *** Decoders *)
Section AnyDec.
Context {S : Type}.
Variables (X : source S) (good : S -> Prop) (U : rd val -> @mrd S val).
Local Notation I := (impl_of X).
Local Notation pos := (src_position X).
Local Notation data := (src_data X).
Local Notation at_ := (arrives good pos data).
Local Notation sim := (sim I good).
(** [placed]: positions the source can be set to. [o]: whether no type has an offset. *)
Variables (placed : bytes -> N -> Prop) (o : bool).
Record ready : Prop := mkready {
  ready_fine : fine I good;
  ready_placed : forall s, good s -> placed (data s) (pos s);
  ready_set : forall s n, good s -> placed (data s) n -> at_ s (src_set_position X s n) n;
  ready_reset : forall s, good s -> at_ s (src_reset_position X s) 0;
  ready_adv : o = false -> forall s n, good s -> at_ s (src_advance X s n) (wadd (pos s) n)
}.
Hypothesis R : ready.
Let F := ready_fine R.

Lemma sim_arrives s r n : at_ s r n -> same_outcome good pos data (data s) (effect r) (Ok tt n).
Proof. intros (s' & -> & G & E & Q). cbn. auto. Qed.
Lemma sim_uint k n : sim (s_take_uint X k n) (take_uint k n).
Proof. apply (sim_n I good F). Qed.
Lemma sim_sop op : sim (run_sop X op) (run_rop op).
Proof.
  destruct op; try (apply (sim_op I good F); reflexivity); cbn [run_sop run_rop]; unfold mmap, rmap; apply sim_map.
  - apply sim_uint.
  - unfold s_take_sint, take_sint. apply sim_map, (sim_n I good F).
Qed.
Lemma sim_dec_n {A} n (c : mrd A) m : sim c m -> sim (any_dec_n n c) (dec_n n m).
Proof.
  intros H. induction n as [|n IH]; [apply sim_ret|]. cbn [any_dec_n dec_n]. apply sim_bind; [exact H|]. intros x. apply sim_map, IH.
Qed.
Lemma sim_dec_try {A} n (c : mrd A) m : sim c m -> sim (any_dec_try n c) (dec_try n m).
Proof.
  intros H. induction n as [|n IH]; [apply sim_ret|]. cbn [any_dec_try dec_try].
  apply (sim_match I good c m (fun x => mbind (any_dec_try n c) (fun xs => mret (x :: xs))) (fun x => xs <- dec_try n m ;; ret (x :: xs))
           (fun _ => mret []) (fun _ => ret [])); [exact H|intros x; apply sim_map, IH|intros _; apply sim_ret].
Qed.
Lemma sim_dec_loop {A} fuel k (c : mrd A) m : sim c m -> sim (any_dec_loop X fuel k c) (dec_loop fuel k m).
Proof.
  intros H. induction fuel as [|fuel IH]; [apply sim_hang|]. cbn [any_dec_loop dec_loop].
  apply (sim_match I good _ _ (fun _ => mbind c (fun x => mbind (any_dec_loop X fuel k c) (fun xs => mret (x :: xs))))
           (fun _ => x <- m ;; xs <- dec_loop fuel k m ;; ret (x :: xs))
           (fun _ => mret []) (fun _ => ret [])); [apply (sim_starts I good F)| |intros _; apply sim_ret].
  intros _. apply sim_bind; [exact H|]. intros x. apply sim_map, IH.
Qed.
Lemma sim_dec_seq cs ms : Forall2 sim cs ms -> sim (any_dec_seq cs) (dec_seq ms).
Proof.
  induction 1 as [|c m cs ms H _ IH]; [apply sim_ret|]. cbn [any_dec_seq dec_seq]. apply sim_bind; [exact H|]. intros x. apply sim_map, IH.
Qed.
Lemma sim_skip_to k : sim (any_skip_to X k) (skip_to k).
Proof. destruct k; [|apply sim_ret]. apply sim_bind; [apply (sim_find_needle I good F)|intros; apply sim_ret]. Qed.
Lemma sim_counted {A} ca fa (c : mrd A) m : sim c m -> sim (any_dec_counted X ca fa c) (dec_counted ca fa m).
Proof.
  intros H. apply sim_bind.
  - unfold any_get_count_and_try_count, get_count_and_try_count. destruct (a_count fa); [apply sim_ret|].
    destruct (a_try_count fa); [apply sim_ret|]. destruct (a_byte_count_outside fa); apply sim_map; [apply sim_uint|apply (sim_u8 I good F)].
  - intros [c' [n|]]; cbn [fst snd]; [apply sim_dec_try, H|apply sim_dec_n, H].
Qed.
Lemma sim_dec_int t ca fa : sim (any_dec_int X t ca fa) (dec_int t ca fa).
Proof.
  apply sim_map. destruct (a_length fa); [|apply (sim_int I good F)]. destruct (_ <? _); [apply sim_fail|apply sim_map, sim_uint].
Qed.
Lemma sim_dec_raw ca fa : sim (any_dec_raw X ca fa) (dec_raw ca fa).
Proof.
  apply sim_bind; [apply sim_skip_to|intros _]. apply sim_bind; [apply sim_skip_to|intros _].
  destruct (a_length fa); [apply (sim_take_bytes I good F)|].
  destruct (a_byte_count fa); [apply sim_bind; [apply sim_uint|intros; apply (sim_take_bytes I good F)]|].
  destruct (a_linend fa); [apply (sim_finds I good F)|]. destruct (a_linend_value fa); [apply (sim_find I good F)|].
  destruct (a_remaining fa).
  - intros s G. rewrite (fine_rem I good F) by exact G. apply (sim_take_bytes I good F), G.
  - apply sim_bind; [apply (sim_u8 I good F)|intros; apply (sim_take_bytes I good F)].
Qed.
Lemma sim_dec_string ca fa : sim (any_dec_string X ca fa) (dec_string ca fa).
Proof. apply sim_bind; [apply sim_dec_raw|]. intros l. destruct (utf8_ok l); [apply sim_ret|apply sim_fail]. Qed.
Lemma sim_mac ca fa : sim (any_dec_mac X ca fa) (dec_mac ca fa).
Proof. apply sim_map, sim_uint. Qed.
Lemma sim_ipv4 ca fa : sim (any_dec_ipv4 X ca fa) (dec_ipv4 ca fa).
Proof. apply sim_map, (sim_int I good F). Qed.
Lemma sim_ipv6 ca fa : sim (any_dec_ipv6 X ca fa) (dec_ipv6 ca fa).
Proof. apply sim_map, (sim_int I good F). Qed.
Lemma sim_ipaddr ca fa : sim (any_dec_ipaddr X ca fa) (dec_ipaddr ca fa).
Proof.
  unfold any_dec_ipaddr, dec_ipaddr. destruct (a_length fa) as [l|]; [|apply sim_fail].
  destruct (l =? 16); [apply sim_map, sim_ipv6|]. destruct (l =? 4); [apply sim_map, sim_ipv4|apply sim_fail].
Qed.
Lemma sim_netaddr ca fa : sim (any_dec_netaddr X ca fa) (dec_netaddr ca fa).
Proof.
  unfold any_dec_netaddr, dec_netaddr. destruct (a_length fa) as [l|]; [|apply sim_fail].
  destruct (l =? 0); [apply sim_fail|]. destruct (l =? 4); [apply sim_map, sim_ipv4|].
  destruct (l =? 6); [apply sim_map, sim_mac|]. destruct (l =? 16); [apply sim_map, sim_ipv6|apply sim_map, sim_dec_int].
Qed.
Lemma sim_offset e en : (o = true -> e = None) -> sim (any_dec_offset X e en) (dec_offset e en).
Proof.
  intros H. unfold any_dec_offset, dec_offset. destruct (eval_opt e en) as [n|] eqn:E; [|apply sim_ret].
  intros s G. apply sim_arrives, (ready_adv R); [|exact G]. destruct o; [|reflexivity]. rewrite (H eq_refl) in E. discriminate.
Qed.
Lemma sim_field (c : cattr -> fattr -> mrd val) m f ca fa en : (o = true -> no_offset f = true) ->
  (forall g, f_with_decode f = Some g -> forall en ca fa, sim (U (g en ca fa)) (g en ca fa)) ->
  sim (c ca fa) (m ca fa) -> sim (any_dec_field X U c f ca fa en) (dec_field m f ca fa en).
Proof.
  intros Ho Hu Hd. apply sim_bind.
  { apply sim_offset. intros T. specialize (Ho T). unfold no_offset in Ho. destruct (f_offset f); [discriminate|reflexivity]. }
  intros _. destruct (f_with_decode f) as [g|]; [apply Hu; reflexivity|].
  destruct (f_skip_decode f); [apply sim_ret|]. destruct (f_from_str f) as [[parse show]|].
  { apply sim_bind; [apply sim_dec_string|]. intros l. destruct (parse l); [apply sim_ret|apply sim_fail]. }
  intros s G. change (mbind (s_get_position X) ?k s) with (k (pos s) s). 
  unfold Reader.bind at 1. unfold get_position at 1. cbv beta iota.
  set (dm := match f_if f with Some c0 => if c0 en then m ca fa else ret (VOpt None) | None => m ca fa end).
  set (dc := match f_if f with Some c0 => if c0 en then c ca fa else mret (VOpt None) | None => c ca fa end).
  assert (Hdd : sim dc dm) by (unfold dc, dm; destruct (f_if f) as [k|]; [destruct (k en); [exact Hd|apply sim_ret]|exact Hd]).
  set (rest := fun v0 : val => let v := match f_value_decode f with Some g => g en v0 | None => v0 end in
        match f_check f with Some c0 => if val_eqb v (c0 en) then ret v else fail InvalidValue | None => ret v end).
  set (restc := fun v0 : val => let v := match f_value_decode f with Some g => g en v0 | None => v0 end in
        match f_check f with Some c0 => if val_eqb v (c0 en) then mret v else mfail I InvalidValue | None => mret v end).
  assert (Hr : forall v, sim (restc v) (rest v)).
  { intros v. unfold restc, rest. cbv zeta. destruct (f_check f); [|apply sim_ret]. destruct (val_eqb _ _); [apply sim_ret|apply sim_fail]. }
  change (same_outcome good pos data (data s)
    (mbind dc (fun v => mbind (if f_untake f then s_set_position X (pos s) else mret tt) (fun _ => restc v)) s)
    ((v <- dm ;; _ <- (if f_untake f then set_position (pos s) else ret tt) ;; rest v) (data s) (pos s))).
  unfold mbind at 1. unfold Reader.bind at 1. specialize (Hdd s G).
  change (im_data I s) with (data s) in Hdd. change (im_position I s) with (pos s) in Hdd.
  destruct (dc s) as [a s'|e s'| |], (dm (data s) (pos s)) as [b q|e' q| |]; cbn [same_outcome] in *; try contradiction; try exact Logic.I.
  2:{ exact Hdd. }
  destruct Hdd as (-> & G' & E & Q). change (im_data I s') with (data s') in E. change (im_position I s') with (pos s') in Q.
  unfold mbind, Reader.bind. destruct (f_untake f).
  - unfold s_set_position, set_position. destruct (ready_set R s' (pos s) G') as (s2 & -> & G2 & E2 & Q2).
    { rewrite E. apply (ready_placed R), G. }
    cbn [effect]. pose proof (Hr b s2 G2) as H. change (im_data I s2) with (data s2) in H. change (im_position I s2) with (pos s2) in H.
    rewrite E2, E, Q2 in H. exact H.
  - unfold mret, ret. pose proof (Hr b s' G') as H. change (im_data I s') with (data s') in H. change (im_position I s') with (pos s') in H.
    rewrite E, Q in H. exact H.
Qed.
Lemma sim_fields fs inherit vars :
  Forall (fun ft => forall ca fa, sim (any_dec X U (snd ft) ca fa) (dec (snd ft) ca fa)) fs ->
  Forall (fun ft : fspec * ty => forall g, f_with_decode (fst ft) = Some g -> forall en ca fa, sim (U (g en ca fa)) (g en ca fa)) fs ->
  (o = true -> forallb (fun ft : fspec * ty => no_offset (fst ft)) fs = true) ->
  forall ca prev done, sim (any_dec_fields X U (any_dec X U) inherit vars fs ca prev done) (dec_fields dec inherit vars fs ca prev done).
Proof.
  induction fs as [|[f t] r IH]; intros HF HU Ho ca prev done; [apply sim_ret|].
  inversion HF as [|? ? Ht HF']; subst. inversion HU as [|? ? Hu HU']; subst. cbn [fst snd] in *.
  assert (O1 : o = true -> no_offset f = true) by (intros T; specialize (Ho T); apply andb_prop in Ho; apply Ho).
  assert (O2 : o = true -> forallb (fun ft : fspec * ty => no_offset (fst ft)) r = true) by (intros T; specialize (Ho T); apply andb_prop in Ho; apply Ho).
  cbn [any_dec_fields dec_fields]. destruct (modifiers f (mkenv done vars)); [|apply sim_panic]. cbv zeta.
  apply sim_bind; [apply sim_field; auto|]. intros v. apply (IH HF' HU' O2).
Qed.

Definition TA (t : ty) : Prop := (o = true -> offset_free t = true) -> each_decoder (fun m => sim (U m) m) t ->
  forall ca fa, sim (any_dec X U t ca fa) (dec t ca fa).
Lemma sim_fields_T inherit vars fs ca prev : Forall (fun ft => TA (snd ft)) fs ->
  (o = true -> offset_free_fields offset_free fs = true) -> Forall (with_fine (fun m => sim (U m) m)) fs ->
  sim (any_dec_fields X U (any_dec X U) inherit vars fs ca prev []) (dec_fields dec inherit vars fs ca prev []).
Proof.
  intros HT HO HU. apply sim_fields.
  - rewrite Forall_forall in *. intros ft J ca' fa'. apply (HT _ J); [|exact (proj2 (HU _ J))].
    intros T. destruct (offset_free_fields_inv _ _ (HO T)) as [_ O]. rewrite Forall_forall in O. exact (O _ J).
  - eapply Forall_impl; [|exact HU]. intros ft H. exact (proj1 H).
  - intros T. exact (proj1 (offset_free_fields_inv _ _ (HO T))).
Qed.
Lemma sim_arms hit eat nomatch ca vars vs s : good s -> forall i next,
  Forall (fun vf => Forall (fun ft => TA (snd ft)) (snd vf)) vs ->
  (o = true -> forallb (fun vf : vspec * list (fspec * ty) =>
                 no_offset (v_attr (fst vf)) && offset_free_fields offset_free (snd vf)) vs = true) ->
  every (fun vf : vspec * list (fspec * ty) => Forall (with_fine (fun m => sim (U m) m)) (snd vf)) vs ->
  (forall v n, hit v n = true -> eat v <= remaining_len (data s) (pos s)) ->
  same_outcome good pos data (data s) (any_dec_arms X U (any_dec X U) hit eat nomatch ca vars vs i next s)
    (dec_arms dec hit eat nomatch ca vars vs i next (data s) (pos s)).
Proof.
  intros G. induction vs as [|[v fs] r IH]; intros i next HT HO HU Heat; [cbn; auto|].
  inversion HT as [|? ? HT1 HT2]; subst. cbn [snd] in HT1.
  assert (O1 : o = true -> no_offset (v_attr v) = true /\ offset_free_fields offset_free fs = true).
  { intros T. specialize (HO T). cbn [forallb fst snd] in HO. apply andb_prop in HO. destruct HO as [HO _]. apply andb_prop in HO. exact HO. }
  cbn [any_dec_arms dec_arms]. cbv zeta. destruct (hit v (variant_index v next)) eqn:Eh.
  2:{ apply IH; try assumption; [|exact (proj2 HU)]. intros T. specialize (HO T). apply andb_prop in HO. apply HO. }
  specialize (Heat _ _ Eh). unfold mbind at 1. unfold Reader.bind at 1. unfold s_advance, advance.
  pose proof (same_adv I good F s (eat v) tt G Heat) as H. change (im_advance I s (eat v)) with (src_advance X s (eat v)) in H.
  destruct (src_advance X s (eat v)) as [s'|]; [|contradiction]. cbn in H. destruct H as (_ & G' & E & Q). cbn [effect].
  rewrite <- Q. change (im_data I s') with (data s') in E. rewrite <- E.
  revert s' G' E Q. 
  assert (K : sim match modifiers (v_attr v) (mkenv [] vars) with
     | Some prev => mbind (any_dec_offset X (f_offset (v_attr v)) (mkenv [] vars)) (fun _ =>
         mbind (any_dec_fields X U (any_dec X U) (negb (v_named v)) vars fs ca prev []) (fun xs => mret (VVariant i xs)))
     | None => mpanic end
     match modifiers (v_attr v) (mkenv [] vars) with
     | Some prev => _ <- dec_offset (f_offset (v_attr v)) (mkenv [] vars) ;;
         xs <- dec_fields dec (negb (v_named v)) vars fs ca prev [] ;; ret (VVariant i xs)
     | None => panic end).
  { destruct (modifiers (v_attr v) (mkenv [] vars)) as [prev|]; [|apply sim_panic].
    apply sim_bind.
    - apply sim_offset. intros T. destruct (O1 T) as [O _]. unfold no_offset in O. destruct (f_offset (v_attr v)); [discriminate|reflexivity].
    - intros _. apply sim_map. apply sim_fields_T; [exact HT1|intros T; apply (O1 T)|exact (proj1 HU)]. }
  intros s' G' E Q. exact (K s' G').
Qed.
Theorem sim_dec t : TA t.
Proof.
  induction t as [t Hl|n t IH|ts IH|t IH|t IH|k v IHk IHv|t IH|named c fs IH|e vs IH] using ty_nested_ind;
    intros HO HU ca fa.
  - destruct t; try discriminate Hl; cbn [any_dec dec]; try apply sim_map; try apply sim_ret.
    + apply sim_dec_int.
    + apply (sim_bool I good F).
    + apply (sim_char I good F).
    + apply (sim_fixed I good F).
    + apply (sim_fixed I good F).
    + apply sim_dec_raw.
    + apply sim_dec_string.
    + apply sim_mac.
    + apply sim_ipv4.
    + apply sim_ipv6.
    + apply sim_ipaddr.
    + apply sim_netaddr.
    + apply HU.
  - cbn [any_dec dec]. apply sim_map, sim_dec_n, IH; assumption.
  - cbn [any_dec dec]. apply sim_map, sim_dec_seq. cbn [offset_free] in HO. cbn [each_decoder] in HU.
    induction IH as [|t ts Ht _ IHr]; [constructor|]. cbn [map]. constructor.
    + apply Ht; [intros T; specialize (HO T); apply andb_prop in HO; apply HO|apply HU].
    + apply IHr; [intros T; specialize (HO T); apply andb_prop in HO; apply HO|apply HU].
  - cbn [any_dec dec]. destruct (a_loop fa) as [m|].
    + apply sim_map. intros s G. apply sim_dec_loop; [apply IH; assumption|exact G].
    + apply sim_map, sim_counted, IH; assumption.
  - cbn [any_dec dec]. apply sim_map, sim_counted, IH; assumption.
  - cbn [any_dec dec]. apply sim_map, sim_counted.
    assert (O : o = true -> offset_free k = true /\ offset_free v = true) by (intros T; apply andb_prop, (HO T)).
    apply sim_bind; [apply IHk; [apply O|apply HU]|]. intros a. apply sim_map, IHv; [apply O|apply HU].
  - cbn [any_dec dec]. assert (K : sim (fun s => match any_dec X U t ca fa s with Ok v s' => Ok (VOpt (Some v)) s' | Err _ s' => Ok (VOpt None) s' | Panic => Panic | Hang => Hang end)
      (fun d p => match dec t ca fa d p with Ok v q => Ok (VOpt (Some v)) q | Err _ q => Ok (VOpt None) q | Panic => Panic | Hang => Hang end)).
    { apply (sim_match I good _ _ (fun v => mret (VOpt (Some v))) (fun v => ret (VOpt (Some v))) (fun _ => mret (VOpt None)) (fun _ => ret (VOpt None)));
        [apply IH; assumption|intros; apply sim_ret|intros; apply sim_ret]. }
    destruct (a_length fa) as [[|l]|]; [apply (sim_ret I good)|exact K|exact K].
  - cbn [any_dec dec]. apply sim_map. apply sim_fields_T; [exact IH|exact HO|apply with_fine_all, HU].
  - assert (HU' : every (fun vf : vspec * list (fspec * ty) => Forall (with_fine (fun m => sim (U m) m)) (snd vf)) vs).
    { cbn [each_decoder] in HU. clear - HU. induction vs as [|vf vs IHv]; [exact Logic.I|].
      split; [apply with_fine_all, HU|apply IHv, HU]. }
    cbn [any_dec dec]. destruct vs as [|v0 r]; [apply sim_ret|]. destruct (e_branching e).
    + apply sim_bind.
      * unfold any_enum_tag, enum_tag. destruct (a_branch fa); [apply sim_ret|].
        destruct (a_byte_count fa); [apply sim_uint|]. destruct (c_byte_count (e_c e)); [apply sim_uint|apply (sim_u8 I good F)].
      * intros tag s G. apply sim_arms; try assumption. intros. apply N.le_0_l.
    + intros s G. rewrite (fine_rem I good F) by exact G. apply sim_arms; try assumption. intros v n Hh. destruct (v_default v); [apply N.le_0_l|].
      cbn in Hh. apply starts_len in Hh. exact Hh.
    + intros s G. rewrite (fine_rem I good F) by exact G. apply sim_arms; try assumption. intros. apply N.le_0_l.
    + apply sim_bind; [apply (sim_take_bytes I good F)|]. intros x s G. apply sim_arms; try assumption. intros. apply N.le_0_l.
Qed.
End AnyDec.

(** *** Functions written against the trait *)
Lemma same_by_calls {S} (good : S -> Prop) pos data X pr d s p :
  same_run good pos data d (run_on_source X pr s) (run_on_bytes pr d p) -> same_outcome good pos data d (by_calls_on X pr s) (by_calls pr d p).
Proof.
  unfold by_calls_on, by_calls. destruct (run_on_source X pr s) as [[[v|e] s']|], (run_on_bytes pr d p) as [[[w|f] q]|]; cbn; try contradiction; auto;
    intros (E & K); try discriminate; injection E as ->; auto.
Qed.

(** *** The promises suffice *)
Section Promises.
Context {S : Type}.
Variables (X : source S) (good : S -> Prop).
Local Notation pos := (src_position X).
Local Notation data := (src_data X).
Local Notation at_ := (arrives good pos data).

Lemma fine_source : (forall s, good s -> small (data s)) -> (forall s, good s -> pos s < W64) ->
  (forall s, good s -> forall n, n <= remaining_len (data s) (pos s) -> at_ s (src_advance X s n) (pos s + n)) ->
  fine (impl_of X) good.
Proof.
  intros H1 H2 H3. split; cbn [impl_of im_position im_data im_advance im_remaining im_take_bytes]; try assumption.
  - intros s G. reflexivity.
  - intros s G n. unfold default_take_bytes, take_bytes. change (src_remaining X s) with (remaining (data s) (pos s)).
    fold (remaining_len (data s) (pos s)). destruct (N.ltb_spec (remaining_len (data s) (pos s)) n) as [|L]; [cbn; auto|].
    destruct (H3 s G n L) as (s' & -> & G' & E & Q). cbv zeta. rewrite Q, E, wadd_small by (apply (rem_bound (data s)); auto).
    destruct (slice_get (data s) (wsub (pos s + n) n) (pos s + n)); cbn; auto.
Qed.
Lemma ready_inside : reads_inside X good -> ready X good (fun d n => n <= lenN d) true.
Proof.
  intros H. split.
  - apply fine_source.
    + intros s G. destruct (H s G) as (A & _). unfold allocatable, size, small, lenN in *. lia.
    + intros s G. destruct (H s G) as (A & B & _). unfold allocatable, size, lenN in *. lia.
    + intros s G n L. destruct (H s G) as (A & B & C & _). apply C. rewrite remaining_len_eq in L. unfold size, lenN in *. lia.
  - intros s G. apply (H s G).
  - intros s n G L. apply (H s G), L.
  - intros s G. apply (H s G).
  - discriminate.
Qed.
Lemma ready_anywhere : reads_anywhere X good -> ready X good (fun _ n => n < W64) false.
Proof.
  intros H. split.
  - apply fine_source.
    + intros s G. destruct (H s G) as (A & _). unfold allocatable, size, small, lenN in *. lia.
    + intros s G. apply (H s G).
    + intros s G n L. destruct (H s G) as (A & B & C & _). specialize (C n).
      assert (Hs : small (data s)) by (unfold allocatable, size, small, lenN in *; lia).
      pose proof (rem_bound (data s) (pos s) n Hs B L). rewrite N.mod_small in C; [exact C|]. lia.
  - intros s G. apply (H s G).
  - intros s n G L. apply (H s G), L.
  - intros s G. apply (H s G).
  - intros _ s n G. destruct (H s G) as (A & B & C & _). exact (C n).
Qed.

Lemma on_source_bytes placed o c s : ready X good placed o -> good s ->
  match c with CAdvance n => o = false | CSetPosition n => placed (data s) n | _ => True end ->
  match on_source X c s, on_bytes c (data s) (pos s) with
  | Some (a, s'), Some (b, q) => a = b /\ good s' /\ data s' = data s /\ pos s' = q
  | None, None => True
  | _, _ => False
  end.
Proof.
  intros R G Hc. destruct c as [r| | | | |n|n|]; cbn [on_source on_bytes]; try (cbn; auto; fail).
  - pose proof (sim_sop X good placed o R r s G) as H. change (im_data (impl_of X) s) with (data s) in H. change (im_position (impl_of X) s) with (pos s) in H.
    destruct (run_sop X r s), (run_rop r (data s) (pos s)); cbn [same_outcome attempt] in *; try contradiction; try exact Logic.I;
      destruct H as (-> & H); auto.
  - unfold s_advance, advance. destruct (ready_adv _ _ _ _ R Hc s n G) as (s' & -> & H). cbn. auto.
  - unfold s_set_position, set_position. destruct (ready_set _ _ _ _ R s n G Hc) as (s' & -> & H). cbn. auto.
  - unfold s_reset_position, reset_position. destruct (ready_reset _ _ _ _ R s G) as (s' & -> & H). cbn. auto.
Qed.
Lemma run_inside {A} (pr : program A) : reads_inside X good -> only_reads pr -> forall s, good s ->
  same_run good pos data (data s) (run_on_source X pr s) (run_on_bytes pr (data s) (pos s)).
Proof.
  intros H O. induction O as [a|c k Hc _ IH]; intros s G; cbn [run_on_source run_on_bytes]; [cbn; auto|].
  pose proof (on_source_bytes _ _ c s (ready_inside H) G) as K.
  assert (Hc' : match c with CAdvance n => true = false | CSetPosition n => n <= lenN (data s) | _ => True end) by (destruct c; (exact Logic.I || contradiction)).
  specialize (K Hc'). destruct (on_source X c s) as [[a s']|], (on_bytes c (data s) (pos s)) as [[b q]|]; try contradiction; [|exact Logic.I].
  destruct K as (-> & G' & E & Q). specialize (IH b s' G'). rewrite E, Q in IH. exact IH.
Qed.
Lemma run_anywhere {A} (pr : program A) : reads_anywhere X good -> places_usize pr -> forall s, good s ->
  same_run good pos data (data s) (run_on_source X pr s) (run_on_bytes pr (data s) (pos s)).
Proof.
  intros H O. induction O as [a|c k Hc _ IH]; intros s G; cbn [run_on_source run_on_bytes]; [cbn; auto|].
  pose proof (on_source_bytes _ _ c s (ready_anywhere H) G) as K.
  assert (Hc' : match c with CAdvance n => false = false | CSetPosition n => n < W64 | _ => True end) by (destruct c; (exact Logic.I || reflexivity || exact Hc)).
  specialize (K Hc'). destruct (on_source X c s) as [[a s']|], (on_bytes c (data s) (pos s)) as [[b q]|]; try contradiction; [|exact Logic.I].
  destruct K as (-> & G' & E & Q). specialize (IH b s' G'). rewrite E, Q in IH. exact IH.
Qed.
End Promises.

Lemma fine_forward {S} (I : impl S) good : reads_forward I good -> fine I good.
Proof.
  intros H. assert (Sm : forall s, good s -> small (im_data I s)).
  { intros s G. destruct (H s G) as (A & _). unfold allocatable, size, small, lenN in *. lia. }
  split.
  - exact Sm.
  - intros s G. destruct (H s G) as (A & B & _). unfold allocatable, size, lenN in *. lia.
  - intros s G. destruct (H s G) as (A & B & C & _). rewrite C. symmetry. apply remaining_in, B.
  - intros s G n L. destruct (H s G) as (A & B & C & D & _). apply D. rewrite remaining_len_eq in L. unfold size, lenN in *. lia.
  - intros s G n. specialize (Sm s G). destruct (H s G) as (A & B & C & D & E1 & E2). change (size (im_data I s)) with (lenN (im_data I s)) in *.
    destruct (N.le_gt_cases (im_position I s + n) (lenN (im_data I s))) as [L|L].
    + destruct (E1 n L) as (s' & -> & s2 & [= <-] & K). rewrite take_bytes_in by assumption. cbn. auto.
    + destruct (E2 n L) as (s' & -> & s2 & [= <-] & K). rewrite take_bytes_out by (auto; right; exact B). cbn. auto.
Qed.
Lemma mops_forward {S} (I : impl S) good : reads_forward I good -> forall ops s, good s ->
  (forall o, In o ops -> is_byteorder_uint o = false) ->
  match run_mops I ops s, run_rops ops (im_data I s) (im_position I s) with
  | Some (xs, s'), Some (ys, q) => xs = ys /\ good s' /\ im_data I s' = im_data I s /\ im_position I s' = q
  | None, None => True
  | _, _ => False
  end.
Proof.
  intros H. induction ops as [|o ops IH]; intros s G Ho; cbn [run_mops run_rops]; [auto|].
  pose proof (sim_op I good (fine_forward I good H) o (Ho o (or_introl eq_refl)) s G) as K.
  destruct (run_mop I o s) as [v s'|e s'| |], (run_rop o (im_data I s) (im_position I s)) as [w q|f q| |]; cbn [same_outcome] in K; try contradiction; try exact Logic.I;
    destruct K as (-> & G' & E & Q); specialize (IH s' G' (fun o' J => Ho o' (or_intror J))); rewrite E, Q in IH;
    destruct (run_mops I ops s') as [[xs s2]|], (run_rops ops (im_data I s) q) as [[ys q2]|]; try contradiction; try exact Logic.I;
    destruct IH as (-> & IH); auto.
Qed.

(** *** Implementors that give up what has been read *)
Section Off.
Context {S : Type}.
Variables (I : impl S) (good : S -> Prop).
Hypothesis H : reads_off I good.

Definition leave {A} (d : bytes) (x : res S A) (y : res N A) : Prop :=
  match x, y with
  | Ok a s, Ok b p => a = b /\ good s /\ im_remaining I s = skipn (N.to_nat p) d /\ p <= lenN d
  | Err e s, Err e' p => e_kind e = e_kind e' /\ good s /\ im_remaining I s = skipn (N.to_nat p) d /\ p <= lenN d
  | Panic, Panic | Hang, Hang => True
  | _, _ => False
  end.
Definition osim {A} (m : mrd A) (r : rd A) : Prop :=
  forall d p s, small d -> p <= lenN d -> good s -> im_remaining I s = skipn (N.to_nat p) d -> leave d (m s) (r d p).

Lemma osim_bind {A B} (m : mrd A) r (f : A -> mrd B) g : osim m r -> (forall a, osim (f a) (g a)) -> osim (mbind m f) (Reader.bind r g).
Proof.
  intros K HF d p s Hs Hp G E. unfold mbind, Reader.bind. specialize (K d p s Hs Hp G E).
  destruct (m s), (r d p); cbn [leave] in K |- *; try contradiction; try exact Logic.I; [|exact K].
  destruct K as (-> & G' & E' & Hq). apply HF; assumption.
Qed.
Lemma osim_ret {A} (a : A) : osim (mret a) (ret a).
Proof. intros d p s Hs Hp G E; cbn; auto. Qed.
Lemma osim_fail {A} k : osim (@mfail S I A k) (fail k).
Proof. intros d p s Hs Hp G E; cbn; auto. Qed.
Lemma osim_panic {A} : osim (@mpanic S A) panic.
Proof. intros d p s Hs Hp G E; exact Logic.I. Qed.
Lemma osim_idx l : osim (midx0 l) (idx0 l).
Proof. intros d p s Hs Hp G E; destruct l; cbn; auto. Qed.
Lemma rest_size (d : bytes) p : lenN (skipn (N.to_nat p) d) = lenN d - p.
Proof. apply lenN_skipn. Qed.
Lemma rest_skip (d : bytes) p n : skipn (N.to_nat n) (skipn (N.to_nat p) d) = skipn (N.to_nat (p + n)) d.
Proof. rewrite <- skipn_add. f_equal. lia. Qed.
Lemma osim_take_bytes n : osim (m_take_bytes I n) (take_bytes n).
Proof.
  intros d p s Hs Hp G E. unfold m_take_bytes. destruct (H s G) as (_ & _ & _ & _ & T1 & T2). cbv zeta in T1, T2. rewrite E in T1, T2.
  change (size (skipn (N.to_nat p) d)) with (lenN (skipn (N.to_nat p) d)) in *. rewrite rest_size in T1, T2.
  destruct (N.le_gt_cases (p + n) (lenN d)) as [L|L].
  - destruct (T1 n ltac:(lia)) as (s' & -> & G' & E'). rewrite take_bytes_in by assumption. rewrite rest_skip in E'. cbn. auto.
  - destruct (T2 n ltac:(lia)) as (q & s' & -> & G' & E'). rewrite take_bytes_out by (auto; lia). cbn. auto.
Qed.
Lemma off_adv s d p n : good s -> p + n <= lenN d -> im_remaining I s = skipn (N.to_nat p) d ->
  exists s', im_advance I s n = Some s' /\ good s' /\ im_remaining I s' = skipn (N.to_nat (p + n)) d.
Proof.
  intros G L E. destruct (H s G) as (_ & _ & _ & T & _). cbv zeta in T. rewrite E in T.
  change (size (skipn (N.to_nat p) d)) with (lenN (skipn (N.to_nat p) d)) in *. rewrite rest_size in T.
  destruct (T n ltac:(lia)) as (s' & A & G' & E'). rewrite rest_skip in E'. exists s'. auto.
Qed.
Lemma osim_take_array n : osim (m_take_array I n) (take_array n).
Proof.
  intros d p s Hs Hp G E. rewrite take_array_bytes by assumption. unfold m_take_array. rewrite E.
  destruct (N.le_gt_cases (p + n) (lenN d)) as [L|L].
  - rewrite slice_get_to_ok by (rewrite rest_size; lia). destruct (off_adv s d p n G L E) as (s' & -> & G' & E').
    rewrite take_bytes_in by assumption. cbn. auto.
  - rewrite slice_get_to_none by (rewrite rest_size; lia). rewrite take_bytes_out by (auto; lia). cbn. auto.
Qed.
Lemma osim_untake_bytes n : osim (m_untake_bytes I n) (untake_bytes n).
Proof.
  intros d p s Hs Hp G E. unfold m_untake_bytes. destruct (H s G) as (A & B & C & _). cbv zeta in C.
  rewrite E, rest_size. rewrite E in C. pose proof (f_equal (@lenN _) C) as Cl. rewrite !rest_size in Cl.
  change (size (im_data I s)) with (lenN (im_data I s)) in B. unfold allocatable in A. change (size (im_data I s)) with (lenN (im_data I s)) in A.
  unfold small in Hs. destruct (N.le_gt_cases (p + n) (lenN d)) as [L|L].
  - destruct (N.ltb_spec (lenN d - p) n); [lia|]. rewrite wadd_small by lia. rewrite slice_get_ok by lia.
    rewrite untake_bytes_in by assumption. cbn [leave]. split; [|auto]. unfold sub. rewrite C. f_equal. lia.
  - destruct (N.ltb_spec (lenN d - p) n); [|lia]. rewrite untake_bytes_out by (assumption || lia). cbn; auto.
Qed.
Lemma osim_starts m : osim (m_take_bytes_starts I m) (take_bytes_starts m).
Proof.
  intros d p s Hs Hp G E. unfold m_take_bytes_starts, take_bytes_starts, remaining_len. rewrite E, remaining_in by exact Hp.
  unfold small in Hs. rewrite rest_size. destruct (N.ltb_spec (lenN d - p) (lenN m)) as [|L]; [cbn; auto|].
  destruct (starts_with m (skipn (N.to_nat p) d)); [|cbn; auto].
  destruct (off_adv s d p (lenN m) G ltac:(lia) E) as (s' & -> & G' & E'). cbn [leave]. rewrite wadd_small by lia.
  split; [reflexivity|split; [exact G'|split; [exact E'|lia]]].
Qed.
Lemma osim_n bo size n : osim (m_take_n I bo size n) (take_n bo size n).
Proof.
  destruct bo; cbn [m_take_n take_n]; unfold take_n_be, take_n_le; destruct (size <? n).
  - apply osim_fail.
  - apply osim_bind; [apply osim_take_bytes|intros a; apply osim_ret].
  - apply osim_panic.
  - apply osim_bind; [apply osim_take_bytes|intros a; apply osim_ret].
Qed.
Lemma osim_un bo size n : osim (m_untake_n I bo size n) (untake_n bo size n).
Proof.
  destruct bo; cbn [m_untake_n untake_n]; unfold untake_n_be, untake_n_le; destruct (size <? n).
  - apply osim_fail.
  - apply osim_bind; [apply osim_untake_bytes|intros a; apply osim_ret].
  - apply osim_panic.
  - apply osim_bind; [apply osim_untake_bytes|intros a; apply osim_ret].
Qed.
Ltac osim_step :=
  repeat first
    [ apply osim_ret | apply osim_idx | apply osim_take_bytes | apply osim_untake_bytes
    | apply osim_take_array | apply osim_n | apply osim_un | apply osim_starts
    | (apply osim_bind; [|intros ?a]) ].
Lemma osim_op o : is_byteorder_uint o = false -> is_find o = false -> osim (run_mop I o) (run_rop o).
Proof.
  destruct o; intros Hb Hf; cbn [run_mop run_rop]; unfold mmap, rmap; try discriminate;
    (apply osim_bind; [|intros; apply osim_ret]).
  - osim_step.
  - unfold m_take_byteorder_array, take_byteorder_array. osim_step.
  - osim_step.
  - osim_step.
  - unfold m_take_bool, take_bool. osim_step.
  - unfold m_take_u8, take_char. osim_step.
  - destruct t; cbn [m_take_int take_int]; unfold m_take_u8, take_u8, m_take_fixed, take_fixed; osim_step.
  - osim_step.
  - destruct k; try discriminate; unfold m_take_uint, take_uint; osim_step.
  - destruct k; try discriminate; unfold m_take_sint, m_take_uint, take_sint; osim_step.
  - unfold m_take_fixed, take_f32, take_fixed; osim_step.
  - unfold m_take_fixed, take_f64, take_fixed; osim_step.
  - osim_step.
  - unfold m_untake_bool, untake_bool. osim_step.
  - unfold m_untake_u8, untake_char. osim_step.
  - destruct t; cbn [m_untake_int untake_int]; unfold m_untake_u8, untake_u8, m_untake_fixed, untake_fixed; osim_step.
  - osim_step.
  - unfold m_untake_uint, untake_uint; osim_step.
  - unfold m_untake_sint, untake_sint; osim_step.
  - unfold m_untake_fixed, untake_f32, untake_fixed; osim_step.
  - unfold m_untake_fixed, untake_f64, untake_fixed; osim_step.
Qed.
Lemma mops_off ops : forall d p s, allocatable d -> p <= size d -> good s -> im_remaining I s = skipn (N.to_nat p) d ->
  (forall o, In o ops -> is_byteorder_uint o = false /\ is_find o = false) ->
  match run_mops I ops s, run_rops ops d p with
  | Some (xs, s'), Some (ys, q) => Forall2 same_answer xs ys /\ good s' /\ im_remaining I s' = skipn (N.to_nat q) d
  | None, None => True
  | _, _ => False
  end.
Proof.
  induction ops as [|o ops IH]; intros d p s Hs Hp G E Ho; cbn [run_mops run_rops].
  - split; [constructor|auto].
  - destruct (Ho o (or_introl eq_refl)) as [Hb Hf].
    pose proof (osim_op o Hb Hf d p s Hs Hp G E) as K.
    assert (Htl : forall o, In o ops -> is_byteorder_uint o = false /\ is_find o = false)
      by (intros o' Ho'; apply Ho; right; exact Ho').
    destruct (run_mop I o s) as [v s'|e s'| |], (run_rop o d p) as [w q|f q| |]; cbn [leave] in K; try contradiction; try exact Logic.I;
      destruct K as (K & G' & E' & Hq); specialize (IH d q s' Hs Hq G' E' Htl);
      destruct (run_mops I ops s') as [[xs s2]|], (run_rops ops d q) as [[ys q2]|]; try contradiction; try exact Logic.I;
      destruct IH as [IH1 IH2]; (split; [constructor; [exact K|exact IH1]|exact IH2]).
Qed.
End Off.
