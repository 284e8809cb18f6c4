(** Property C41: decoded collections are no larger than the input. *)
From Coq Require Import String.
From Verif Require Import Base Ints Reader Spec SpecOps.
From Verif Require Import BaseLemmas.
From Verif Require Import RunSpec Bounds Schema Utf8 Sugar Decode Encode WireSpec CodecBase EncLemmas DecLemmas WriterLemmas ReaderLemmas SafetySpec SizeSpec Sizes Examples PropsContainers.

(** The elements and text bytes of a decoded value, all nesting levels together,
    are at most the nesting depth times the bytes consumed: a length or count field
    in the input cannot make the value larger than the input pays for. *)
Theorem C41_bounded : forall t ca fa d p v q, offset_free t = true -> each_decoder stays_inside t -> bounded t fa -> allocatable d -> p <= size d ->
  dec t ca fa d p = Ok v q ->
  p <= q /\ q <= size d /\ elements t v <= depth t * (q - p).
Proof. intros t ca fa d p v q HO HU HB Hd Hp E. exact (dec_bounded t HO (inside_tame t HU) ca fa HB d p v q Hd Hp E). Qed.

Theorem C41_bounded_whole : forall t d v q, offset_free t = true -> each_decoder stays_inside t -> bounded t no_fattr -> allocatable d ->
  decode t d 0 = Ok v q -> elements t v <= depth t * size d.
Proof.
  intros t d v q HO HU HB Hd E.
  destruct (C41_bounded t no_cattr no_fattr d 0 v q HO HU HB Hd ltac:(apply N.le_0_l) E) as (_ & H2 & H3).
  etransitivity; [exact H3|]. apply N.mul_le_mono_l. lia.
Qed.

(** Every element was paid for with a byte of its own. *)
Theorem C41_takes_a_byte : forall t ca fa d p v q, offset_free t = true -> each_decoder stays_inside t -> takes_a_byte t fa -> allocatable d -> p <= size d ->
  dec t ca fa d p = Ok v q -> p < q /\ q <= size d.
Proof.
  intros t ca fa d p v q HO HU HB Hd Hp E. destruct (dec_eats t HO (inside_tame t HU) ca fa HB d p v q Hd Hp E) as (H1 & H2 & H3). cbv beta in H3.
  change (@size) with (@lenN byte) in *. lia.
Qed.

(** A directory: a counted vector of entries, each with a name and a looped vector,
    and a map. *)
Definition Entry : ty := TStruct true no_cspec
  [(plain, u8); (plain, TString); (at_loop (str "+") plain, TVec u8)].
Definition Directory : ty := TStruct true no_cspec
  [(plain, u16); (at_byte_count_outside (const 2) plain, TVec Entry); (at_count (field_ref 0) plain, TMap u8 TString);
   (at_try_count (const 1000000) plain, TVec u16)].
Ltac mods := let H := fresh in intros ? ? H; unfold modifiers in H; cbn in H; injection H as <-.
Ltac plainly := repeat split; try reflexivity.
Lemma entry_bounded fa : bounded Entry fa.
Proof.
  split; [discriminate|]. cbn [every Entry depth]. split; [left; reflexivity|]. split; [right; split; [plainly|intros; exact I]|].
  split; [|exact I]. right. split; [plainly|]. mods. split; [exact I|]. left. reflexivity.
Qed.
Lemma entry_takes fa : takes_a_byte Entry fa.
Proof.
  split; [discriminate|]. cbn [some_field]. left. split; [plainly|]. split; [reflexivity|]. mods. discriminate.
Qed.
Example C41_class : offset_free Directory = true /\ each_decoder stays_inside Directory /\ bounded Directory no_fattr /\ depth Directory = 2.
Proof.
  split; [reflexivity|]. split; [apply no_code_decoders; reflexivity|]. split; [|reflexivity]. split; [discriminate|]. cbn [every]. split; [left; reflexivity|].
  split; [right; split; [plainly|]|split; [right; split; [plainly|]|split; [right; split; [plainly|]|exact I]]].
  - intros en fa _. split; [apply entry_bounded|right; apply entry_takes].
  - mods. split; [exact I|]. split; [exact I|]. left. discriminate.
  - mods. split; [exact I|]. right. discriminate.
Qed.
Definition directory_bytes : bytes :=
  hex [0; 1; 0; 2; 7; 2] ++ str "ab+x+y" ++ hex [8; 0; 9; 1] ++ str "c" ++ hex [1; 2; 3; 4; 5].
Example C41_case : exists v, decode Directory directory_bytes 0 = Ok v 21 /\ elements Directory v = 10.
Proof. eexists. split; vm_compute; reflexivity. Qed.

(** Elements that take no byte are not paid for: the four bytes of the count are
    enough for any number of elements below 2^32. So it is with optional elements
    once the input has ended. *)
Definition Marks : ty := TStruct true no_cspec [(at_byte_count_outside (const 4) plain, TVec TUnit)].
Definition Maybes : ty := TStruct true no_cspec [(at_byte_count_outside (const 4) plain, TVec (TOption u8))].

Lemma many {A} (m : rd A) n x d p : m d p = Ok x p -> dec_n n m d p = Ok (repeat x n) p.
Proof. intros H. induction n as [|n IH]; [reflexivity|]. cbn [dec_n]. unfold bind at 1. rewrite H. unfold bind. rewrite IH. reflexivity. Qed.
Lemma total_repeat {A} (f : A -> N) x n : f x = 0 -> total (map f (repeat x n)) = 0.
Proof. intros H. induction n as [|n IH]; [reflexivity|]. cbn [repeat map]. rewrite total_cons, H, IH. reflexivity. Qed.
Definition of_count (t : ty) : ty := TStruct true no_cspec [(at_byte_count_outside (const 4) plain, TVec t)].
Lemma free_elements t x n : n < 2 ^ 32 -> elements t x = 0 ->
  (forall ca fa d, size d = 4 -> a_length fa = None -> dec t ca fa d 4 = Ok x 4) ->
  exists d v, size d = 4 /\ decode (of_count t) d 0 = Ok v 4 /\ elements (of_count t) v = n.
Proof.
  intros Hn Hx Ht.
  assert (Hd : size (digits Be 4 n) = 4) by (unfold size; rewrite digits_length; reflexivity).
  assert (Ha : allocatable (digits Be 4 n)) by (unfold allocatable; rewrite Hd; reflexivity).
  pose proof (take_uint_reads Be 4 n [] ltac:(discriminate) []) as R. cbn [app] in R. rewrite app_nil_r in R.
  specialize (R Ha). change (lenN (@nil byte)) with 0 in R. change (N.to_nat 4) with 4%nat in R.
  rewrite N.mod_small in R by exact Hn. change (@lenN byte) with (@size) in R. rewrite Hd in R. change (0 + 4) with 4 in R.
  exists (digits Be 4 n), (VList [VList (repeat x (N.to_nat n))]). split; [exact Hd|]. split.
  - unfold decode, of_count. set (f := at_byte_count_outside (const 4) plain).
    set (fa := mkfattr None None false None None false None false None None (Some 4) None None None None).
    assert (Hm : forall en, modifiers f en = Some fa) by reflexivity.
    cbn [dec negb dec_fields]. unfold bind at 1. rewrite Hm. cbn [andb].
    unfold bind at 1, dec_field, dec_offset. cbn [Schema.f_offset f_with_decode f_skip_decode f_from_str f_if f_untake f_value_decode f_check f at_byte_count_outside plain eval_opt option_map].
    unfold bind at 1, ret at 1. unfold bind at 1, get_position. cbn [dec]. cbn [a_loop fa].
    unfold dec_counted, get_count_and_try_count. cbn [a_count a_try_count a_byte_count_outside fa].
    unfold bind, ret. cbv beta iota. change (ko (own_cattr no_cspec) fa) with (KOrder Be). cbn [eval_opt option_map Schema.f_offset f at_byte_count_outside plain]. rewrite R. cbv beta iota. cbn [snd fst].
    rewrite (many _ _ x) by (apply Ht; [exact Hd|reflexivity]). reflexivity.
  - cbn [elements of_count map snd zip_total]. rewrite total_repeat by exact Hx. rewrite repeat_length. lia.
Qed.

Theorem C41_zero_size_refuted : forall n, n < 2 ^ 32 ->
  (exists d v, size d = 4 /\ decode Marks d 0 = Ok v 4 /\ elements Marks v = n) /\
  (exists d v, size d = 4 /\ decode Maybes d 0 = Ok v 4 /\ elements Maybes v = n).
Proof.
  intros n Hn. split.
  - apply (free_elements TUnit VUnit); try assumption; reflexivity.
  - apply (free_elements (TOption u8) (VOpt None)); try assumption; [reflexivity|].
    intros ca fa d Hd Hl. cbn [dec u8]. rewrite Hl. unfold dec_int. rewrite Hl. unfold take_int, take_u8, bind.
    rewrite take_bytes_out; [reflexivity| |left; reflexivity]. change (@lenN byte) with (@size). rewrite Hd. reflexivity.
Qed.

Print Assumptions C41_bounded.
Print Assumptions C41_bounded_whole.
Print Assumptions C41_takes_a_byte.
Print Assumptions C41_zero_size_refuted.
