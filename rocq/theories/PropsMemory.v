(** Property C58: the [unsafe] blocks. *)
From Verif Require Import Base Ints Reader ReadMut Spec SpecOps RunSpec Memory.
From Verif Require Import BaseLemmas ReaderLemmas CodecBase Collections.
From Verif Require Import Schema Sugar Decode Containers.

(** ** C58. Only initialised memory is used

    Arrays of a type without drop glue (numbers, references, tuples and structs of these):
    no undefined behaviour, and the result is the one the model of decoding gives. *)
Definition array_value (r : res N (list val)) : res N val :=
  match r with Ok l q => Ok (VList l) q | Err e q => Err e q | Panic => Panic | Hang => Hang end.

Lemma assume_init_some {A} (l : list A) : assume_init (map Some l) = Some l.
Proof. induction l as [|x l IH]; cbn; [reflexivity|rewrite IH; reflexivity]. Qed.
Lemma fill_plain {A} (d : rd A) n data : forall (w : list A) p,
  fill false d (map Some w) (uninit A n) data p
  = Fine (match dec_n n d data p with Ok l q => Ok (map Some (w ++ l)) q | Err e q => Err e q | Panic => Panic | Hang => Hang end).
Proof.
  unfold uninit. induction n as [|n IH]; intros w p; cbn [repeat fill dec_n].
  - cbn. rewrite app_nil_r. reflexivity.
  - unfold bind. destruct (d data p) as [x q|e q| |]; try reflexivity. cbn [assign].
    change [Some x] with (map Some [x]). rewrite <- map_app, IH. destruct (dec_n n d data q) as [l q'|e q'| |]; try reflexivity.
    cbn. rewrite <- app_assoc. reflexivity.
Qed.
Lemma decode_array_plain {A} (d : rd A) n data p : decode_array false n d data p = Fine (dec_n n d data p).
Proof.
  unfold decode_array. pose proof (fill_plain d n data [] p) as F. cbn [map] in F. rewrite F. destruct (dec_n n d data p) as [l q|e q| |]; try reflexivity.
  cbn [app]. rewrite assume_init_some. reflexivity.
Qed.

Theorem C58_arrays_partial : forall n t ca fa data p,
  exists r, decode_array false n (dec t ca fa) data p = Fine r /\ dec (TArray n t) ca fa data p = array_value r.
Proof.
  intros. exists (dec_n n (dec t ca fa) data p). split; [apply decode_array_plain|].
  cbn [dec]. unfold bind, ret, array_value. reflexivity.
Qed.

(** Arrays of a type with drop glue (strings, vectors, maps, ...): as soon as one element
    has been decoded, uninitialised memory is dropped. Only empty arrays and arrays whose
    first element fails are spared. *)
Theorem C58_drop_refuted : forall n t ca fa data p,
  decode_array true n (dec t ca fa) data p = Undefined <-> n <> O /\ exists v q, dec t ca fa data p = Ok v q.
Proof.
  intros n t ca fa data p. unfold decode_array, uninit. destruct n as [|n]; cbn [repeat fill].
  - cbn. split; [discriminate|intros [H _]; contradiction].
  - destruct (dec t ca fa data p) as [v q|e q| |] eqn:E; cbn [assign].
    + split; [|reflexivity]. intros _. split; [discriminate|eauto].
    + split; [discriminate|]. intros [_ (v & q' & H)]. discriminate.
    + split; [discriminate|]. intros [_ (v & q' & H)]. discriminate.
    + split; [discriminate|]. intros [_ (v & q' & H)]. discriminate.
Qed.
(** For instance [[String; 2]] with [length = 1]. *)
Definition length_1 : fattr := mkfattr (Some 1) None false None None false None false None None None None None None None.
Example C58_drop_case : decode_array true 2 (dec TString no_cattr length_1) [x61; x62] 0 = Undefined
  /\ decode_array false 2 (dec TString no_cattr length_1) [x61; x62] 0 = Fine (Ok [VBytes [x61]; VBytes [x62]] 2).
Proof. split; vm_compute; reflexivity. Qed.

(** Numbers are read inside the slice. *)
Definition reads_inside {S} (n : N) (call : res S bytes) (m : mem S bytes) : Prop :=
  m = Fine call /\ forall l s, call = Ok l s -> size l = n.
Lemma cast_exact {S} n (r : res S bytes) : (forall l s, r = Ok l s -> lenN l = n) -> reads_inside n r (cast_read n r).
Proof.
  intros H. split; [|exact H]. destruct r as [l s|e s| |]; try reflexivity. cbn [cast_read].
  pose proof (H l s eq_refl) as L. replace (lenN l <? n) with false by lia.
  rewrite firstn_all2; [reflexivity|unfold lenN in L; lia].
Qed.
Lemma slice_get_len {A} (l : list A) a b v : slice_get l a b = Some v -> a <= b /\ lenN v = b - a.
Proof.
  unfold slice_get. destruct ((a <=? b) && (b <=? lenN l)) eqn:E; [|discriminate]. intros H. injection H as <-.
  apply andb_true_iff in E as [E1 E2]. apply N.leb_le in E1, E2. split; [exact E1|]. unfold lenN in *.
  rewrite firstn_length, skipn_length. lia.
Qed.
Lemma back_and_forth p n : n < W64 -> p < W64 -> wsub p n <= p -> p - wsub p n = n.
Proof.
  unfold wsub. intros H1 H2. rewrite (N.mod_small n W64) by lia. destruct (N.le_gt_cases n p) as [L|L].
  - replace (p + W64 - n) with ((p - n) + 1 * W64) by lia. rewrite N.mod_add by lia. rewrite N.mod_small by lia. lia.
  - rewrite N.mod_small by lia. lia.
Qed.
Lemma forth p n : n < W64 -> p <= wadd p n -> wadd p n - p = n.
Proof.
  unfold wadd. intros Hn L. pose proof (N.div_mod (p + n) W64 ltac:(lia)). pose proof (N.mod_lt (p + n) W64 ltac:(lia)).
  destruct (N.eq_0_gt_0_cases ((p + n) / W64)) as [Z|Z]; [rewrite Z in *; lia|]. nia.
Qed.

(** For [Bytes] and [Buffer], at any position. *)
Theorem C58_numbers : forall n data p, n < 2 ^ 64 ->
  reads_inside n (take_bytes n data p) (read_number n data p) /\ reads_inside n (untake_bytes n data p) (peek_number n data p).
Proof.
  intros n data p Hn. change (2 ^ 64) with W64 in Hn. split; apply cast_exact; intros l s H.
  - unfold take_bytes in H. destruct (remaining_len data p <? n); [discriminate|]. cbn zeta in H.
    destruct (slice_get data (wsub (wadd p n) n) (wadd p n)) as [v|] eqn:E; [|discriminate]. injection H as <- <-.
    apply slice_get_len in E as [L E]. rewrite E. apply back_and_forth; [exact Hn| |exact L]. unfold wadd. apply N.mod_lt. lia.
  - unfold untake_bytes, slice_ok in H. destruct (remaining_len data p <? n); [discriminate|].
    destruct (slice_get data p (wadd p n)) as [v|] eqn:E; [|discriminate]. injection H as <- <-.
    apply slice_get_len in E as [L E]. rewrite E. apply forth; [exact Hn|exact L].
Qed.

(** For every implementor of [BufReadMut] that keeps the provided [take_bytes], whatever
    its other methods do ([io::Cursor] is one), and for [&[u8]]. *)
Theorem C58_numbers_mut : forall S (I : impl S) n s, n < 2 ^ 64 -> (forall s', im_position I s' < 2 ^ 64) ->
  im_take_bytes I = default_take_bytes (im_position I) (im_data I) (im_advance I) (im_remaining I) ->
  reads_inside n (m_take_bytes I n s) (m_read_number I n s) /\ reads_inside n (m_untake_bytes I n s) (m_peek_number I n s).
Proof.
  intros S I n s Hn Hp HT. change (2 ^ 64) with W64 in *. split; apply cast_exact; intros l s' H.
  - unfold m_take_bytes in H. rewrite HT in H. unfold default_take_bytes in H.
    destruct (lenN (im_remaining I s) <? n); [discriminate|]. destruct (im_advance I s n) as [s1|]; [|discriminate]. cbn zeta in H.
    destruct (slice_get (im_data I s1) (wsub (im_position I s1) n) (im_position I s1)) as [v|] eqn:E; [|discriminate]. injection H as <- <-.
    apply slice_get_len in E as [L E]. rewrite E. apply back_and_forth; [exact Hn|apply Hp|exact L].
  - unfold m_untake_bytes in H. destruct (lenN (im_remaining I s) <? n); [discriminate|].
    destruct (slice_get (im_data I s) (im_position I s) (wadd (im_position I s) n)) as [v|] eqn:E; [|discriminate]. injection H as <- <-.
    apply slice_get_len in E as [L E]. rewrite E. apply forth; [exact Hn|exact L].
Qed.
Theorem C58_numbers_slice : forall n s,
  reads_inside n (m_take_bytes slice_impl n s) (m_read_number slice_impl n s).
Proof.
  intros n s. apply cast_exact. intros l s' H. unfold m_take_bytes in H. cbn [slice_impl im_take_bytes] in H.
  destruct (slice_get_to s n) as [v|] eqn:E; [|discriminate]. destruct (slice_get_from s n) as [s1|]; [|discriminate]. injection H as <- <-.
  unfold slice_get_to in E. destruct (n <=? lenN s) eqn:L; [|discriminate]. injection E as <-. apply N.leb_le in L.
  unfold lenN in *. rewrite firstn_length. lia.
Qed.
Example C58_numbers_case : m_read_number cursor_impl 2 ([x01; x02; x03], 1) = Fine (Ok [x02; x03] ([x01; x02; x03], 3))
  /\ im_take_bytes cursor_impl = default_take_bytes (im_position cursor_impl) (im_data cursor_impl) (im_advance cursor_impl) (im_remaining cursor_impl)
  /\ (exists e, m_read_number slice_impl 4 [x01; x02; x03] = Fine (Err e [x01; x02; x03]))
  /\ read_number 2 [x01; x02; x03] 1 = Fine (Ok [x02; x03] 3).
Proof. split; [vm_compute; reflexivity|]. split; [reflexivity|]. split; [eexists|]; vm_compute; reflexivity. Qed.

(** An implementor may replace [take_bytes] without writing [unsafe]. If it returns fewer
    bytes than asked for, reading a number uses memory outside the slice. *)
Definition short_reader : impl unit := mkimpl (fun _ => 0) (fun _ => []) (fun s _ => Some s) (fun _ => []) (fun s _ => Ok [x2a] s).
Theorem C58_implementor_refuted : forall n, 1 < n -> m_read_number short_reader n tt = Undefined.
Proof.
  intros n H. unfold m_read_number, m_take_bytes, short_reader. cbn [im_take_bytes cast_read].
  change (lenN [x2a]) with 1. replace (1 <? n) with true by lia. reflexivity.
Qed.

Print Assumptions C58_arrays_partial.
Print Assumptions C58_drop_refuted.
Print Assumptions C58_numbers.
Print Assumptions C58_numbers_mut.
Print Assumptions C58_numbers_slice.
Print Assumptions C58_implementor_refuted.
