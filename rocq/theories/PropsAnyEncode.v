(** Property C74: encoding into any implementor of [BufWrite]. *)
From Verif Require Import Base Ints Spec SpecOps Reader Writer ReadMut ReadAny WriteMut WriteMutSpec Schema Decode Encode.
From Verif Require Import SafetySpec CheckedSpec AnyEncode AnyWriteSpec.
From Verif Require Import BaseLemmas WriterLemmas WriteMutLemmas Bounds AnyEncLemmas AnyEncSim.
From Verif Require Import WireSpec CodecSpec Sugar Examples PropsContainers PropsWith.
From Verif Require PropsWriteMut.

(** C74. [writes] (AnyWriteSpec.v) is what the implementor promises, [U] what the functions
    written by hand do with it. The implementor at [s] fares as a new [Buffer] does. *)
Theorem C74_encode : forall S (K : sink S) limit U t v s, writes K limit -> grouped t = true ->
  each_encoder (fun _ _ => True) (fun m => follows K limit m (U m)) t ->
  let contents := src_data (sk_source K) s in let position := src_position (sk_source K) s in
  position <= size contents ->
  as_on_buffer K limit contents position (encode_into t v buf_new) (any_encode_into K U t v s).
Proof.
  intros S K limit U t v s HK HG HU contents position P.
  apply (sim_enc K limit HK U t HG HU no_cattr no_fattr v eq_refl).
  split; [exact P|]. split; [reflexivity|]. cbn [buf_new b_data b_pos]. split; [apply N.le_refl|]. split; [unfold position; lia|].
  exists []. rewrite app_nil_r. change (size []) with 0. split; [|split; [lia|split; [reflexivity|split; [intros _; lia|reflexivity]]]].
  rewrite overwrite_within by (change (lenN (@nil byte)) with 0; change (lenN contents) with (size contents); lia).
  cbn [length app skipn]. symmetry. apply firstn_skipn.
Qed.

(** In terms of [jbytes::encode]: the bytes it returns are written at the position, which
    ends up after them; or there is no room for them and [resize] returned 0. *)
Theorem C74_bytes : forall S (K : sink S) limit U t v s out, writes K limit -> grouped t = true ->
  each_encoder (fun _ _ => True) (fun m => follows K limit m (U m)) t ->
  encode t v = Ok out tt ->
  let contents := src_data (sk_source K) in let position := src_position (sk_source K) in
  position s <= size (contents s) -> position s + size out < limit ->
  (exists n b s' added, encode_into t v buf_new = Ok n b /\ any_encode_into K U t v s = Ok n s'
     /\ position s' = position s + size out
     /\ contents s' = overwrite (contents s ++ added) (position s) out
     /\ position s + size out <= size (contents s ++ added)
     /\ (position s + size out <= size (contents s) -> added = [])
     /\ (grows_exactly K -> size (contents s ++ added) <= N.max (size (contents s)) (position s + size out))
     /\ (never_grows K -> added = []))
  \/ (size (contents s) < position s + size out /\ resize_refuses K limit
     /\ exists s', any_encode_into K U t v s = Err (mkerr (position s') PushFail) s'
          /\ position s <= position s' <= size (contents s') /\ size (contents s) <= size (contents s')
          /\ (never_grows K -> size (contents s') = size (contents s))
          /\ firstn (N.to_nat (position s)) (contents s') = firstn (N.to_nat (position s)) (contents s)).
Proof.
  intros S K limit U t v s out HK HG HU E contents position P L.
  pose proof (C74_encode S K limit U t v s HK HG HU P) as H.
  destruct (sim_enc K limit HK U t HG HU no_cattr no_fattr v eq_refl) as [O _]. specialize (O buf_new eq_refl (N.le_refl _)).
  unfold encode in E. unfold encode_into in *. destruct (enc t no_cattr no_fattr v buf_new) as [n b|e b| |]; try discriminate E.
  injection E as <-. destruct O as (O1 & O2 & _ & O3). specialize (O3 eq_refl).
  destruct (H L) as [(s' & E & M0 & M1 & M2 & M3 & added & M4 & M5 & M6 & M7 & M8)|(R1 & R2 & s' & R3 & R4 & R5 & R6 & R7 & R8)].
  - left. exists n, b, s', added. repeat split; auto. unfold position. rewrite M3, O3. reflexivity.
  - right. split; [exact R1|]. split; [exact R2|]. exists s'. repeat split; auto.
Qed.
(** If there is room, that is all, whatever [resize] does. *)
Theorem C74_fits : forall S (K : sink S) limit U t v s out, writes K limit -> grouped t = true ->
  each_encoder (fun _ _ => True) (fun m => follows K limit m (U m)) t ->
  encode t v = Ok out tt ->
  let contents := src_data (sk_source K) in let position := src_position (sk_source K) in
  position s + size out <= size (contents s) -> position s + size out < limit ->
  exists n b s', encode_into t v buf_new = Ok n b /\ any_encode_into K U t v s = Ok n s'
    /\ position s' = position s + size out /\ contents s' = overwrite (contents s) (position s) out.
Proof.
  intros S K limit U t v s out HK HG HU E contents position P L.
  destruct (C74_bytes S K limit U t v s out HK HG HU E) as [(n & b & s' & a & E1 & E2 & E3 & E4 & E5 & E6 & E7 & E8)|(R & _)];
    [unfold contents, position in *; lia|exact L| |unfold contents, position in *; lia].
  exists n, b, s'. rewrite (E6 P), app_nil_r in E4. auto.
Qed.

(** Encoders written by hand with pushes and [?] are as asked. *)
Theorem C74_hand_written : forall S (K : sink S) limit, writes K limit ->
  forall p, follows K limit (by_pushes p) (by_pushes_on K p).
Proof. intros S K limit HK p. apply sim_pushes, HK. Qed.

(** *** [Buffer] is such a type, its [resize] never returns 0 when asked for room, and
    encoding into it is what Encode.v says, for all types. *)
Theorem C74_buffer : writes buffer_sink W63 /\ ~ resize_refuses buffer_sink W63 /\
  forall t, each_encoder (fun _ _ => True) (fun _ => True) t -> forall ca fa v b, any_enc buffer_sink (fun m => m) t ca fa v b = enc t ca fa v b.
Proof.
  split; [|split].
  - split; [vm_compute; discriminate|]. split.
    + destruct buffer_promises as [A1 A2 A3 A4 A5 A6]. split; assumption.
    + intros [d p] n _. eexists. split; [reflexivity|]. split; reflexivity.
  - intros ([d p] & n & s' & L & G & R). cbn [buffer_sink sk_source buffer_source src_position src_data sk_resize buffer_writer wi_resize b_data b_pos] in *.
    rewrite wadd_small in R by lia. destruct (vec_resize d (p + n)); [|discriminate]. injection R as R _. lia.
  - intros t HU ca fa v b. apply buffer_enc. revert HU. apply CheckedEnc.each_encoder_impl. reflexivity.
Qed.
Lemma overwrite_covers (d a v : bytes) p : size (d ++ a) <= N.max (size d) (p + size v) -> p <= size d -> overwrite (d ++ a) p v = overwrite d p v.
Proof.
  change size with (@lenN byte). rewrite lenN_app. intros H P. unfold overwrite. change size with (@lenN byte). rewrite lenN_app.
  replace (N.to_nat (p - (lenN d + lenN a))) with 0%nat by lia. replace (N.to_nat (p - lenN d)) with 0%nat by lia. cbn [repeat]. rewrite !app_nil_r.
  rewrite firstn_app. replace (N.to_nat p - length d)%nat with 0%nat by (unfold lenN in *; lia). cbn [firstn]. rewrite app_nil_r. f_equal. f_equal.
  rewrite skipn_app. destruct a as [|x a]; [rewrite skipn_nil; apply app_nil_r|].
  rewrite (skipn_all2 (x :: a)); [apply app_nil_r|]. unfold lenN in *. cbn [length] in *. lia.
Qed.
Lemma wadd_le a b : wadd a b <= a + b.
Proof. unfold wadd. apply N.mod_le. discriminate. Qed.
(** Encoding anywhere in a [Buffer] writes there what [jbytes::encode] returns. *)
Theorem C74_place : forall t v out, grouped t = true ->
  each_encoder (fun _ _ => True) (fun m => follows buffer_sink W63 m m) t -> encode t v = Ok out tt ->
  exists n, forall d p, allocatable d -> p <= size d -> p + size out < 9223372036854775808 ->
  encode_into t v (mkbuf d p) = Ok n (mkbuf (overwrite d p out) (p + size out)).
Proof.
  intros t v out HG HU E. destruct C74_buffer as (HB & HR & HE).
  assert (X : each_encoder (fun _ _ => True) (fun _ => True) t) by (revert HU; apply CheckedEnc.each_encoder_impl; auto).
  destruct (encode_into t v buf_new) as [n b| | |] eqn:EN; try (unfold encode in E; rewrite EN in E; discriminate E).
  exists n. intros d p A P L.
  destruct (C74_bytes buf buffer_sink W63 (fun m => m) t v (mkbuf d p) out HB HG HU E P L) as [(n' & b' & s' & a & E1 & E2 & E3 & E4 & E5 & E6 & E7 & E8)|(_ & R & _)];
    [|contradiction].
  unfold any_encode_into in E2. rewrite (HE t X) in E2. unfold encode_into. rewrite E2. rewrite EN in E1. injection E1 as <- <-.
  cbn [buffer_sink sk_source buffer_source src_position src_data b_pos b_data] in *. destruct s' as [d' p']. cbn [b_pos b_data] in *. subst p' d'.
  f_equal. f_equal. apply overwrite_covers; [|exact P].
  apply E7. intros [d0 p0] n0 k [d1 p1] G R. cbn [buffer_sink sk_source buffer_source src_position src_data sk_resize buffer_writer wi_resize b_data b_pos] in *.
  unfold vec_resize in R. destruct (N.ltb_spec (wadd p0 n0) W63) as [B|]; [|discriminate]. injection R as _ <- _.
  assert (WL : wadd p0 n0 <= p0 + n0) by (apply wadd_le).
  destruct (N.leb_spec (wadd p0 n0) (lenN d0)) as [Q|Q].
  - unfold size in *. rewrite firstn_length. unfold lenN in *. lia.
  - unfold size in *. rewrite app_length. unfold zeros. rewrite repeat_length. unfold lenN in *. lia.
Qed.

(** *** Types that do not grow, such as an array with a position: what fits is written,
    what does not is refused and nothing before the position is touched. *)
Theorem C74_fixed : forall S (K : sink S) limit U t v s out, writes K limit -> never_grows K -> grouped t = true ->
  each_encoder (fun _ _ => True) (fun m => follows K limit m (U m)) t ->
  encode t v = Ok out tt ->
  let contents := src_data (sk_source K) in let position := src_position (sk_source K) in
  position s <= size (contents s) -> position s + size out < limit ->
  match any_encode_into K U t v s with
  | Ok n s' => position s + size out <= size (contents s) /\ position s' = position s + size out
      /\ contents s' = overwrite (contents s) (position s) out
  | Err e s' => size (contents s) < position s + size out /\ e = mkerr (position s') PushFail
      /\ position s <= position s' /\ size (contents s') = size (contents s)
      /\ firstn (N.to_nat (position s)) (contents s') = firstn (N.to_nat (position s)) (contents s)
  | _ => False
  end.
Proof.
  intros S K limit U t v s out HK NG HG HU E contents position P L.
  destruct (C74_bytes S K limit U t v s out HK HG HU E P L) as [(n & b & s' & a & E1 & E2 & E3 & E4 & E5 & E6 & E7 & E8)|(R1 & R2 & s' & R3 & R4 & R5 & R6 & R7)].
  - rewrite E2. rewrite (E8 NG), app_nil_r in E4, E5. auto.
  - rewrite R3. repeat split; auto. apply R4.
Qed.
Definition fixed_source : source (bytes * N) :=
  mksource snd fst (fun s n => Some (fst s, n)) (fun s => Some (fst s, 0)) (fun s n => Some (fst s, wadd (snd s) n)).
Definition fixed_sink : sink (bytes * N) :=
  mksink fixed_source (fun s => slice_get_from (fst s) (snd s)) (fun s l => (firstn (N.to_nat (snd s)) (fst s) ++ l, snd s)) (fun s _ => Some (0, s)).
Example C74_fixed_sink : writes fixed_sink 18446744073709551616 /\ never_grows fixed_sink.
Proof.
  split; [|intros s n k s' [= _ <-]; reflexivity]. split; [vm_compute; discriminate|]. split.
  - destruct PropsWriteMut.C56_fixed as [A1 A2 A3 A4 A5 A6]. split; assumption.
  - intros [d p] n _. eexists. split; [reflexivity|]. split; reflexivity.
Qed.
(** A type that grows by 16 bytes more than it is asked to. *)
Definition roomy_sink : sink buf :=
  mksink buffer_source (wi_remaining_mut buffer_writer) (wi_store buffer_writer)
    (fun b n => if b_pos b + n <? 100 then Some (n, mkbuf (b_data b ++ zeros (b_pos b + n + 16 - lenN (b_data b))) (b_pos b)) else Some (0, b)).
Example C74_roomy_sink : writes roomy_sink W63.
Proof.
  split; [vm_compute; discriminate|]. split.
  - destruct buffer_promises as [A1 A2 A3 A4 A5 A6]. split; try assumption.
    intros [d p] n I M G. cbn [roomy_sink wimpl_of wi_resize sk_resize sk_source buffer_source src_position src_data b_pos b_data] in *.
    destruct (N.ltb_spec (p + n) 100).
    + exists n, (mkbuf (d ++ zeros (p + n + 16 - lenN d)) p), (zeros (p + n + 16 - lenN d)). repeat split; [lia|].
      intros _. cbn [b_data]. unfold size, zeros, lenN in *. rewrite app_length, repeat_length. lia.
    + exists 0, (mkbuf d p), []. rewrite app_nil_r. repeat split. contradiction.
  - intros [d p] n _. eexists. split; [reflexivity|]. split; reflexivity.
Qed.
Example C74_case : grouped Packet = true /\ each_encoder (fun _ _ => True) (fun m => follows roomy_sink W63 m (by_pushes_on roomy_sink (Pushed 0))) Packet
  /\ encode Packet packet = Ok packet_bytes tt /\ size packet_bytes = 30
  /\ any_encode_into roomy_sink (fun _ _ => Panic) Packet packet (mkbuf [x61; x62; x63] 2)
     = Ok 31 (mkbuf ([x61; x62] ++ packet_bytes ++ zeros 6) 32)
  /\ any_encode_into fixed_sink (fun _ _ => Panic) Packet packet (repeat xff 40, 4)
     = Ok 31 (repeat xff 4 ++ packet_bytes ++ repeat xff 6, 34)
  /\ any_encode_into fixed_sink (fun _ _ => Panic) Packet packet (repeat xff 10, 4)
     = Err (mkerr 10 PushFail) (repeat xff 4 ++ firstn 6 packet_bytes, 10).
Proof. split; [reflexivity|]. split; [apply no_code_encoders; reflexivity|]. repeat split; vm_compute; reflexivity. Qed.

(** With an encoder written by hand: a magic number and a count. *)
Definition magic : pushes := Push (WPush [xca; xfe]) (fun n => Push (WPushInt KBe U8 (Z.of_N n)) (fun m => Pushed (n + m))).
Definition Marked : ty := struct [(plain, TInt U8); (at_with (fun _ => verb_decode) (fun _ _ _ _ => by_pushes magic) (fun _ => verb_format) plain, TInt U8)].
Example C74_hand_case : grouped Marked = true
  /\ each_encoder (fun _ _ => True) (fun m => follows fixed_sink 18446744073709551616 m (by_pushes_on fixed_sink magic)) Marked
  /\ encode Marked (VList [VInt 1; VInt 0]) = Ok [x01; xca; xfe; x02] tt
  /\ any_encode_into fixed_sink (fun _ => by_pushes_on fixed_sink magic) Marked (VList [VInt 1; VInt 0]) ([x00; x00; x00; x00; x00], 1)
     = Ok 4 ([x00; x01; xca; xfe; x02], 5).
Proof.
  split; [reflexivity|]. split.
  - repeat (split; [split; [|exact I]|]); [discriminate| |exact I]. intros e [= <-] en ca fa v _. exact (C74_hand_written _ _ _ (proj1 C74_fixed_sink) magic).
  - split; vm_compute; reflexivity.
Qed.

(** Without [grouped]: a bit field with no word before it in its struct is written into
    what happens to be before the position, and cannot be encoded where nothing is. *)
Theorem C74_bits_refuted : exists t v, t = struct [(at_bits (const 15) plain, u8)] /\ grouped t = false /\
  encode t v = Err (mkerr 18446744073709551615 InvalidByteLength) tt /\
  encode_into t v (mkbuf [xf0; x77] 1) = Ok 1 (mkbuf [xf3; x77] 1).
Proof. exists (struct [(at_bits (const 15) plain, u8)]), (VList [VInt 3]). repeat split. Qed.

Print Assumptions C74_bits_refuted.
Print Assumptions C74_encode.
Print Assumptions C74_bytes.
Print Assumptions C74_fits.
Print Assumptions C74_hand_written.
Print Assumptions C74_buffer.
Print Assumptions C74_place.
Print Assumptions C74_fixed.
