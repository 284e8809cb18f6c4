(** [BufReadMut] with and without overflow checks, on 32-bit and on 64-bit targets. *)
From Verif Require Import Base Ints Spec SpecOps Reader ReadMut BaseLemmas ReaderLemmas CheckedLemmas NarrowSpec NarrowLemmas MutBuildsSpec.
From Verif Require CheckedReader CheckedReadMut NarrowReader NarrowReadMut.

Section Alike.
Context {S : Type}.
Variables (good : S -> Prop) (J I : impl S) (bound : N).
Hypothesis HB : ends_below bound I good.
Hypothesis HA : alike_in good J I.

(** [c] does in the states [good] what [m] does, and does not leave them. *)
Definition ak {A} (c m : S -> res S A) : Prop := forall s, good s ->
  c s = m s /\ match m s with Ok _ s' | Err _ s' => good s' | _ => True end.

Lemma ak_ret {A} (a : A) : ak (mret a) (mret a).
Proof. intros s G. split; [reflexivity|exact G]. Qed.
Lemma ak_fail {A} k : ak (@mfail S J A k) (mfail I k).
Proof. intros s G. destruct (HA s G) as (E & _). unfold mfail. rewrite E. auto. Qed.
Lemma ak_panic {A} : ak (@mpanic S A) mpanic.
Proof. intros s G. split; [reflexivity|exact Logic.I]. Qed.
Lemma ak_idx0 l : ak (midx0 l) (midx0 l).
Proof. intros s G. destruct l; cbn; auto. Qed.
Lemma ak_bind {A B} (c m : S -> res S A) (f g : A -> S -> res S B) : ak c m -> (forall a, ak (f a) (g a)) -> ak (mbind c f) (mbind m g).
Proof. intros H K s G. unfold mbind. destruct (H s G) as [E Q]. rewrite E. destruct (m s); auto. apply K; exact Q. Qed.
Lemma ak_map {A B} (c m : S -> res S A) (f g : A -> B) : ak c m -> (forall a, f a = g a) -> ak (mbind c (fun x => mret (f x))) (mbind m (fun x => mret (g x))).
Proof. intros H E. apply ak_bind; [exact H|]. intros a. rewrite E. apply ak_ret. Qed.
Lemma ak_take n : ak (fun s => im_take_bytes J s n) (fun s => im_take_bytes I s n).
Proof. intros s G. destruct (HA s G) as (_ & _ & _ & _ & E). destruct (HB s G) as (_ & _ & K). split; [apply E|].
  specialize (K n). destruct (im_take_bytes I s n); tauto. Qed.
Lemma ak_array n : ak (m_take_array J n) (m_take_array I n).
Proof.
  intros s G. destruct (HA s G) as (E1 & _ & E3 & E4 & _). destruct (HB s G) as (_ & K & _). unfold m_take_array. rewrite E1, E3.
  destruct (slice_get_to (im_remaining I s) n) as [v|] eqn:E; [|auto]. unfold slice_get_to in E.
  destruct (N.leb_spec n (lenN (im_remaining I s))) as [L|]; [|discriminate]. rewrite (E4 n L). destruct (im_advance I s n) eqn:A; eauto.
Qed.
Lemma ak_starts m : ak (m_take_bytes_starts J m) (m_take_bytes_starts I m).
Proof.
  intros s G. destruct (HA s G) as (E1 & _ & E3 & E4 & _). destruct (HB s G) as (_ & K & _). unfold m_take_bytes_starts. rewrite E1, E3.
  destruct (N.ltb_spec (lenN (im_remaining I s)) (lenN m)) as [|L]; [auto|]. destruct (starts_with _ _); [|auto].
  rewrite (E4 _ L). destruct (im_advance I s (lenN m)) eqn:A; eauto.
Qed.
(** [advance] within what remains, then a slice *)
Lemma ak_move s n (k : S -> res S bytes) : good s -> n <= size (im_remaining I s) ->
  (forall s', match k s' with Ok _ q | Err _ q => q = s' | _ => True end) ->
  match match im_advance I s n with Some s' => k s' | None => Panic end with Ok _ s' | Err _ s' => good s' | _ => True end.
Proof.
  intros G L K. destruct (HB s G) as (_ & H & _). destruct (im_advance I s n) as [s'|] eqn:E; [|exact Logic.I].
  specialize (K s'). destruct (k s'); subst; eauto.
Qed.

(** *** With overflow checks *)
Section Checked.
Hypothesis Hb : bound = W64.
Lemma c_untake n : ak (CheckedReadMut.m_untake_bytes J n) (m_untake_bytes I n).
Proof.
  intros s G. destruct (HA s G) as (E1 & E2 & E3 & _). destruct (HB s G) as (B & _). unfold CheckedReadMut.m_untake_bytes, m_untake_bytes. rewrite E1, E2, E3.
  destruct (N.ltb_spec (lenN (im_remaining I s)) n) as [|L]; [auto|]. unfold size, lenN in *.
  rewrite add_ok, wadd_small by lia. destruct (slice_get _ _ _); auto.
Qed.
Lemma c_after s n l : good s -> n <= size (im_remaining I s) -> l <= n ->
  CheckedReadMut.m_after J s n (im_position I s) l = m_after I s n (im_position I s) (wadd (im_position I s) l) /\
  match m_after I s n (im_position I s) (wadd (im_position I s) l) with Ok _ s' | Err _ s' => good s' | _ => True end.
Proof.
  intros G L1 L2. destruct (HA s G) as (_ & _ & _ & E4 & _). destruct (HB s G) as (B & K & _).
  unfold CheckedReadMut.m_after, m_after. rewrite (E4 n L1). destruct (im_advance I s n) as [s'|] eqn:A; [|auto].
  pose proof (K n s' L1 A) as G'. destruct (HA s' G') as (_ & E2 & _). rewrite add_ok, wadd_small, E2 by lia. destruct (slice_get _ _ _); auto.
Qed.
Ltac now_after := match goal with |- context [CheckedReadMut.m_after _ ?s ?n _ ?l] => apply (c_after s n l); auto; unfold size; lia end.
Lemma c_find needle : ak (CheckedReadMut.m_find_subsequence J needle) (m_find_subsequence I needle).
Proof.
  intros s G. destruct (HA s G) as (E1 & _ & E3 & _). destruct (HB s G) as (B & _). unfold CheckedReadMut.m_find_subsequence, m_find_subsequence. cbv zeta. rewrite E1, E3.
  destruct (memmem_find needle (im_remaining I s)) as [i|] eqn:E; [|auto]. apply memmem_bound in E. unfold size, lenN in *.
  rewrite add_ok, (wadd_small (N.of_nat i)) by lia. now_after.
Qed.
Lemma c_find_needle needle incl : ak (CheckedReadMut.m_find_subsequence_needle J needle incl) (m_find_subsequence_needle I needle incl).
Proof.
  intros s G. destruct (HA s G) as (E1 & _ & E3 & _). destruct (HB s G) as (B & _). unfold CheckedReadMut.m_find_subsequence_needle, m_find_subsequence_needle. cbv zeta. rewrite E1, E3.
  destruct (memmem_find needle (im_remaining I s)) as [i|] eqn:E; [|auto]. apply memmem_bound in E. unfold size, lenN in *.
  destruct incl; [rewrite add_ok, (wadd_small (N.of_nat i)) by lia|]; now_after.
Qed.
Lemma c_finds needles : ak (CheckedReadMut.m_find_subsequences J needles) (m_find_subsequences I needles).
Proof.
  intros s G. destruct (HA s G) as (E1 & _ & E3 & _). unfold CheckedReadMut.m_find_subsequences, m_find_subsequences. cbv zeta. rewrite E1, E3.
  destruct (ac_find needles (im_remaining I s)) as [[st e]|] eqn:E; [|auto]. destruct (ac_find_some _ _ _ _ E) as [L _]. now_after.
Qed.
Lemma c_finds_needle needles incl : ak (CheckedReadMut.m_find_subsequences_needle J needles incl) (m_find_subsequences_needle I needles incl).
Proof.
  intros s G. destruct (HA s G) as (E1 & _ & E3 & _). unfold CheckedReadMut.m_find_subsequences_needle, m_find_subsequences_needle. cbv zeta. rewrite E1, E3.
  destruct (ac_find needles (im_remaining I s)) as [[st e]|] eqn:E; [|auto]. destruct (ac_find_some _ _ _ _ E) as [L _]. destruct incl; now_after.
Qed.
Ltac alike := repeat first [apply ak_ret | apply ak_fail | apply ak_panic | apply ak_idx0 | apply ak_take | apply c_untake | apply ak_array | apply ak_starts
  | apply c_find | apply c_find_needle | apply c_finds | apply c_finds_needle
  | match goal with |- ak (mbind _ _) (mbind _ _) => apply ak_bind; [|intros] | |- ak (if ?b then _ else _) _ => destruct b
    | |- ak (match ?x with Be => _ | Le => _ end) _ => destruct x end].
Lemma c_op o : ak (CheckedReadMut.run_mop J o) (run_mop I o).
Proof.
  destruct o; cbn [CheckedReadMut.run_mop run_mop]; unfold CheckedReadMut.mmap, mmap; (apply ak_map; [|reflexivity]).
  all: try (destruct t; cbn [CheckedReadMut.m_take_int m_take_int CheckedReadMut.m_untake_int m_untake_int]).
  all: try (destruct k; cbn [CheckedReadMut.m_take_sint m_take_sint CheckedReadMut.m_take_uint m_take_uint order_of]).
  all: unfold CheckedReadMut.m_take_sint, m_take_sint, CheckedReadMut.m_take_uint, m_take_uint, CheckedReadMut.m_untake_sint, m_untake_sint, CheckedReadMut.m_untake_uint, m_untake_uint,
    CheckedReadMut.m_take_n, m_take_n, CheckedReadMut.m_untake_n, m_untake_n, CheckedReadMut.m_take_fixed, m_take_fixed, CheckedReadMut.m_untake_fixed, m_untake_fixed,
    CheckedReadMut.m_take_bool, m_take_bool, CheckedReadMut.m_take_u8, m_take_u8, CheckedReadMut.m_untake_bool, m_untake_bool, CheckedReadMut.m_untake_u8, m_untake_u8,
    CheckedReadMut.m_take_byteorder_array, m_take_byteorder_array, CheckedReadMut.m_take_bytes, m_take_bytes.
  all: alike.
Qed.
Lemma c_ops ops : forall s, good s -> CheckedReadMut.run_mops J ops s = run_mops I ops s.
Proof.
  induction ops as [|o ops IH]; intros s G; [reflexivity|]. cbn [CheckedReadMut.run_mops run_mops]. destruct (c_op o s G) as [-> Q].
  destruct (run_mop I o s); try reflexivity; rewrite IH by exact Q; reflexivity.
Qed.
End Checked.

(** *** 32-bit targets *)
Section Narrow.
Hypothesis Hb : bound = 4294967296.
Lemma n_untake n : ak (NarrowReadMut.m_untake_bytes J n) (m_untake_bytes I n).
Proof.
  intros s G. destruct (HA s G) as (E1 & E2 & E3 & _). destruct (HB s G) as (B & _). unfold NarrowReadMut.m_untake_bytes, m_untake_bytes. rewrite E1, E2, E3.
  destruct (N.ltb_spec (lenN (im_remaining I s)) n) as [|L]; [auto|]. unfold size, lenN in *.
  rewrite add32, wadd_small by lia. destruct (slice_get _ _ _); auto.
Qed.
Lemma n_after s n l : good s -> n <= size (im_remaining I s) -> l <= n ->
  NarrowReadMut.m_after J s n (im_position I s) (NarrowReader.wadd (im_position I s) l) = m_after I s n (im_position I s) (wadd (im_position I s) l) /\
  match m_after I s n (im_position I s) (wadd (im_position I s) l) with Ok _ s' | Err _ s' => good s' | _ => True end.
Proof.
  intros G L1 L2. destruct (HA s G) as (_ & _ & _ & E4 & _). destruct (HB s G) as (B & K & _).
  unfold NarrowReadMut.m_after, m_after. rewrite (E4 n L1). destruct (im_advance I s n) as [s'|] eqn:A; [|auto].
  pose proof (K n s' L1 A) as G'. destruct (HA s' G') as (_ & E2 & _). rewrite add32, wadd_small, E2 by lia. destruct (slice_get _ _ _); auto.
Qed.
Ltac now_after := match goal with |- context [NarrowReadMut.m_after _ ?s ?n _ (NarrowReader.wadd _ ?l)] => apply (n_after s n l); auto; unfold size; lia end.
Lemma n_find needle : ak (NarrowReadMut.m_find_subsequence J needle) (m_find_subsequence I needle).
Proof.
  intros s G. destruct (HA s G) as (E1 & _ & E3 & _). destruct (HB s G) as (B & _). unfold NarrowReadMut.m_find_subsequence, m_find_subsequence. cbv zeta. rewrite E1, E3.
  destruct (memmem_find needle (im_remaining I s)) as [i|] eqn:E; [|auto]. apply memmem_bound in E. unfold size, lenN in *.
  rewrite (add32 (N.of_nat i)), (wadd_small (N.of_nat i)) by lia. now_after.
Qed.
Lemma n_find_needle needle incl : ak (NarrowReadMut.m_find_subsequence_needle J needle incl) (m_find_subsequence_needle I needle incl).
Proof.
  intros s G. destruct (HA s G) as (E1 & _ & E3 & _). destruct (HB s G) as (B & _). unfold NarrowReadMut.m_find_subsequence_needle, m_find_subsequence_needle. cbv zeta. rewrite E1, E3.
  destruct (memmem_find needle (im_remaining I s)) as [i|] eqn:E; [|auto]. apply memmem_bound in E. unfold size, lenN in *.
  destruct incl; [rewrite (add32 (N.of_nat i)), (wadd_small (N.of_nat i)) by lia|]; now_after.
Qed.
Lemma n_finds needles : ak (NarrowReadMut.m_find_subsequences J needles) (m_find_subsequences I needles).
Proof.
  intros s G. destruct (HA s G) as (E1 & _ & E3 & _). unfold NarrowReadMut.m_find_subsequences, m_find_subsequences. cbv zeta. rewrite E1, E3.
  destruct (ac_find needles (im_remaining I s)) as [[st e]|] eqn:E; [|auto]. destruct (ac_find_some _ _ _ _ E) as [L _]. now_after.
Qed.
Lemma n_finds_needle needles incl : ak (NarrowReadMut.m_find_subsequences_needle J needles incl) (m_find_subsequences_needle I needles incl).
Proof.
  intros s G. destruct (HA s G) as (E1 & _ & E3 & _). unfold NarrowReadMut.m_find_subsequences_needle, m_find_subsequences_needle. cbv zeta. rewrite E1, E3.
  destruct (ac_find needles (im_remaining I s)) as [[st e]|] eqn:E; [|auto]. destruct (ac_find_some _ _ _ _ E) as [L _]. destruct incl; now_after.
Qed.
Ltac alike := repeat first [apply ak_ret | apply ak_fail | apply ak_panic | apply ak_idx0 | apply ak_take | apply n_untake | apply ak_array | apply ak_starts
  | apply n_find | apply n_find_needle | apply n_finds | apply n_finds_needle
  | match goal with |- ak (mbind _ _) (mbind _ _) => apply ak_bind; [|intros] | |- ak (if ?b then _ else _) _ => destruct b
    | |- ak (match ?x with Be => _ | Le => _ end) _ => destruct x end].

Lemma int_small v : v < 16777216 -> int_of_raw I32 v = int_of_raw Isize v.
Proof.
  intros H. unfold int_of_raw. change (imod I32 / 2)%Z with 2147483648%Z. change (imod Isize / 2)%Z with 9223372036854775808%Z. cbn [signed andb].
  destruct (Z.leb_spec 2147483648 (Z.of_N v)); [lia|]. destruct (Z.leb_spec 9223372036854775808 (Z.of_N v)); [lia|reflexivity].
Qed.
(** At most four bytes make the same number in four bytes and in eight. *)
Lemma n_uint k n : (forall bo, k <> KOrder bo) -> n <= 4 -> ak (NarrowReadMut.m_take_uint J k n) (m_take_uint I k n).
Proof.
  intros K L. assert (E : NarrowReadMut.m_take_uint J k n = NarrowReadMut.m_take_n J (order_of k) 4 n) by (destruct k; try reflexivity; destruct (K _ eq_refl)).
  assert (F : m_take_uint I k n = m_take_n I (order_of k) 8 n) by (destruct k; try reflexivity; destruct (K _ eq_refl)).
  rewrite E, F. unfold NarrowReadMut.m_take_n, m_take_n. destruct (N.ltb_spec 4 n); [lia|]. destruct (N.ltb_spec 8 n); [lia|].
  destruct (order_of k); (apply ak_map; [apply ak_take|]); intros l; [rewrite !be_val_zeros_app|rewrite !le_val_app_zeros]; reflexivity.
Qed.
Lemma n_sint k n : (forall bo, k <> KOrder bo) -> n <= 3 -> ak (NarrowReadMut.m_take_sint J k n) (m_take_sint I k n).
Proof.
  intros K L s G. destruct (n_uint k n K ltac:(lia) s G) as [E Q]. unfold NarrowReadMut.m_take_sint, m_take_sint, mbind. rewrite E.
  assert (V : match m_take_uint I k n s with Ok v _ => v < 16777216 | _ => True end).
  { assert (F : m_take_uint I k n = m_take_n I (order_of k) 8 n) by (destruct k; try reflexivity; destruct (K _ eq_refl)). rewrite F.
    unfold m_take_n. destruct (N.ltb_spec 8 n); [lia|]. destruct (HB s G) as (_ & _ & T). specialize (T n).
    destruct (order_of k); unfold mbind, m_take_bytes; destruct (im_take_bytes I s n) as [l s'|? ?| |]; cbn [mret]; try exact Logic.I.
    all: destruct T as [_ T]; assert (B : 256 ^ lenN l <= 16777216) by (change (size l) with (lenN l) in T; rewrite T; transitivity (256 ^ 3); [apply N.pow_le_mono_r; lia|vm_compute; discriminate]).
    - rewrite be_val_zeros_app. pose proof (be_val_lt l). lia.
    - rewrite le_val_app_zeros. pose proof (le_val_lt l). lia. }
  destruct (m_take_uint I k n s) as [v s'|? ?| |]; auto. split; [|exact Q]. unfold mret. f_equal.
  apply int_small. exact V.
Qed.
Lemma n_op o : fixed_take o -> ak (NarrowReadMut.run_mop J o) (run_mop I o).
Proof.
  intros F.
  destruct o; cbn [NarrowReadMut.run_mop run_mop]; unfold NarrowReadMut.mmap, mmap; cbn [fixed_take] in F; try (apply ak_map; [|reflexivity]).
  all: try (destruct t; cbn [NarrowReadMut.m_take_int m_take_int NarrowReadMut.m_untake_int m_untake_int NarrowReader.on32];
    try (destruct F as [F1 F2]; congruence)).
  all: try (apply n_uint; tauto).
  all: try (apply n_sint; tauto).
  all: unfold NarrowReadMut.m_untake_sint, m_untake_sint, NarrowReadMut.m_untake_uint, m_untake_uint,
    NarrowReadMut.m_take_n, m_take_n, NarrowReadMut.m_untake_n, m_untake_n, NarrowReadMut.m_take_fixed, m_take_fixed, NarrowReadMut.m_untake_fixed, m_untake_fixed,
    NarrowReadMut.m_take_bool, m_take_bool, NarrowReadMut.m_take_u8, m_take_u8, NarrowReadMut.m_untake_bool, m_untake_bool, NarrowReadMut.m_untake_u8, m_untake_u8,
    NarrowReadMut.m_take_byteorder_array, m_take_byteorder_array, NarrowReadMut.m_take_bytes, m_take_bytes.
  all: alike.
Qed.
Lemma n_ops ops : Forall fixed_take ops -> forall s, good s -> NarrowReadMut.run_mops J ops s = run_mops I ops s.
Proof.
  induction ops as [|o ops IH]; intros HF s G; [reflexivity|]. inversion_clear HF as [|? ? F1 F2]. cbn [NarrowReadMut.run_mops run_mops].
  destruct (n_op o F1 s G) as [-> Q]. destruct (run_mop I o s); try reflexivity; rewrite IH by assumption; reflexivity.
Qed.
End Narrow.
End Alike.
