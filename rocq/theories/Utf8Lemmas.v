(** The validator accepts exactly the well-formed texts. *)
From Coq Require Import ZifyN.
From Verif Require Import Base Ints Spec SpecOps BaseLemmas ReaderLemmas WriterLemmas Utf8 Utf8Spec.

Ltac Zify.zify_post_hook ::= Z.div_mod_to_equations.

Lemma b2n_byte_of x : x < 256 -> b2n (byte_of x) = x.
Proof. intros H. rewrite byte_of_n2b. rewrite b2n_n2b. apply N.mod_small. exact H. Qed.
Lemma byte_of_b2n b : byte_of (b2n b) = b.
Proof. rewrite byte_of_n2b. apply n2b_b2n. Qed.
Lemma byte_is b x : b2n b = x -> b = byte_of x.
Proof. intros <-. symmetry. apply byte_of_b2n. Qed.

Ltac ranges := unfold in_byte_range, is_cont in *;
  repeat match goal with
  | H : (_ && _) = true |- _ => apply andb_prop in H as [? ?]
  | H : (_ <=? _) = true |- _ => apply N.leb_le in H
  | H : (_ <=? _) = false |- _ => apply N.leb_gt in H
  | H : (_ <? _) = true |- _ => apply N.ltb_lt in H
  | H : (_ <? _) = false |- _ => apply N.ltb_ge in H
  | H : (_ =? _) = true |- _ => apply N.eqb_eq in H
  | H : (_ =? _) = false |- _ => apply N.eqb_neq in H
  | H : (_ && _) = false |- _ => apply andb_false_iff in H
  end.
Lemma width_1 b : utf8_char_width b = 1%nat <-> b2n b < 128.
Proof.
  unfold utf8_char_width. repeat match goal with |- context [if ?c then _ else _] => destruct c eqn:? end;
    ranges; split; intros; try discriminate; try lia.
Qed.
Lemma width_2 b : utf8_char_width b = 2%nat <-> 194 <= b2n b <= 223.
Proof.
  unfold utf8_char_width. repeat match goal with |- context [if ?c then _ else _] => destruct c eqn:? end;
    ranges; split; intros; try discriminate; try lia; try reflexivity.
Qed.
Lemma width_3 b : utf8_char_width b = 3%nat <-> 224 <= b2n b <= 239.
Proof.
  unfold utf8_char_width. repeat match goal with |- context [if ?c then _ else _] => destruct c eqn:? end;
    ranges; split; intros; try discriminate; try lia; try reflexivity.
Qed.
Lemma width_4 b : utf8_char_width b = 4%nat <-> 240 <= b2n b <= 244.
Proof.
  unfold utf8_char_width. repeat match goal with |- context [if ?c then _ else _] => destruct c eqn:? end;
    ranges; split; intros; try discriminate; try lia; try reflexivity.
Qed.
Lemma cont_iff c : is_cont c = true <-> 128 <= b2n c <= 191.
Proof. unfold is_cont, in_byte_range. rewrite andb_true_iff, !N.leb_le. reflexivity. Qed.
Lemma second3_iff b c : second3 b c = true <->
  128 <= b2n c <= 191 /\ (b2n b = 224 -> 160 <= b2n c) /\ (b2n b = 237 -> b2n c <= 159).
Proof.
  unfold second3, is_cont, in_byte_range.
  destruct (N.eqb_spec (b2n b) 224); [|destruct (N.eqb_spec (b2n b) 237)]; rewrite andb_true_iff, !N.leb_le; lia.
Qed.
Lemma second4_iff b c : second4 b c = true <->
  128 <= b2n c <= 191 /\ (b2n b = 240 -> 144 <= b2n c) /\ (b2n b = 244 -> b2n c <= 143).
Proof.
  unfold second4, is_cont, in_byte_range.
  destruct (N.eqb_spec (b2n b) 240); [|destruct (N.eqb_spec (b2n b) 244)]; rewrite andb_true_iff, !N.leb_le; lia.
Qed.

(** A character at the front. *)
Lemma utf8_ok_char c r : scalar c -> utf8_ok (utf8 c ++ r) = utf8_ok r.
Proof.
  unfold scalar. intros H. unfold utf8.
  destruct (N.ltb_spec c 0x80); [|destruct (N.ltb_spec c 0x800); [|destruct (N.ltb_spec c 0x10000)]]; cbn [app utf8_ok].
  - rewrite (proj2 (width_1 _)); [reflexivity|]. rewrite b2n_byte_of; lia.
  - rewrite (proj2 (width_2 _)) by (rewrite b2n_byte_of; lia).
    rewrite (proj2 (cont_iff _)) by (rewrite b2n_byte_of; lia). reflexivity.
  - rewrite (proj2 (width_3 _)) by (rewrite b2n_byte_of; lia).
    rewrite (proj2 (second3_iff _ _)) by (rewrite !b2n_byte_of; lia).
    rewrite (proj2 (cont_iff _)) by (rewrite b2n_byte_of; lia). reflexivity.
  - rewrite (proj2 (width_4 _)) by (rewrite b2n_byte_of; lia).
    rewrite (proj2 (second4_iff _ _)) by (rewrite !b2n_byte_of; lia).
    rewrite !(proj2 (cont_iff _)) by (rewrite b2n_byte_of; lia). reflexivity.
Qed.
Lemma utf8_front l : utf8_ok l = true -> l = [] \/ exists c r, scalar c /\ l = utf8 c ++ r /\ utf8_ok r = true.
Proof.
  destruct l as [|b r]; [auto|]. intros H. right. cbn [utf8_ok] in H. unfold scalar, utf8.
  destruct (utf8_char_width b) as [|[|[|[|[|]]]]] eqn:W; try discriminate.
  - apply width_1 in W. exists (b2n b), r. split; [lia|]. split; [|exact H].
    destruct (N.ltb_spec (b2n b) 128); [|lia]. cbn [app]. f_equal. symmetry; apply byte_of_b2n.
  - apply width_2 in W. destruct r as [|c r]; [discriminate|]. apply andb_prop in H as [Hc H]. apply cont_iff in Hc.
    exists ((b2n b - 192) * 64 + (b2n c - 128)), r. split; [lia|]. split; [|exact H].
    destruct (N.ltb_spec ((b2n b - 192) * 64 + (b2n c - 128)) 128); [lia|].
    destruct (N.ltb_spec ((b2n b - 192) * 64 + (b2n c - 128)) 2048); [|lia].
    cbn [app]. f_equal; [apply byte_is; lia|]. f_equal. apply byte_is; lia.
  - apply width_3 in W. destruct r as [|c [|d r]]; try discriminate. apply andb_prop in H as [Hc H].
    apply andb_prop in Hc as [Hc Hd]. apply second3_iff in Hc as (Hc & H1 & H2). apply cont_iff in Hd.
    set (v := (b2n b - 224) * 4096 + (b2n c - 128) * 64 + (b2n d - 128)).
    assert (V : v = (b2n b - 224) * 4096 + (b2n c - 128) * 64 + (b2n d - 128)) by reflexivity. clearbody v.
    exists v, r. split; [lia|]. split; [|exact H].
    destruct (N.ltb_spec v 128); [lia|]. destruct (N.ltb_spec v 2048); [lia|].
    destruct (N.ltb_spec v 65536); [|lia].
    cbn [app]. f_equal; [apply byte_is; lia|]. f_equal; [apply byte_is; lia|]. f_equal. apply byte_is; lia.
  - apply width_4 in W. destruct r as [|c [|d [|e r]]]; try discriminate. apply andb_prop in H as [Hc H].
    apply andb_prop in Hc as [Hc He]. apply andb_prop in Hc as [Hc Hd].
    apply second4_iff in Hc as (Hc & H1 & H2). apply cont_iff in Hd, He.
    set (v := (b2n b - 240) * 262144 + (b2n c - 128) * 4096 + (b2n d - 128) * 64 + (b2n e - 128)).
    assert (V : v = (b2n b - 240) * 262144 + (b2n c - 128) * 4096 + (b2n d - 128) * 64 + (b2n e - 128)) by reflexivity. clearbody v.
    exists v, r. split; [lia|]. split; [|exact H].
    destruct (N.ltb_spec v 128); [lia|]. destruct (N.ltb_spec v 2048); [lia|].
    destruct (N.ltb_spec v 65536); [lia|].
    cbn [app]. f_equal; [apply byte_is; lia|]. f_equal; [apply byte_is; lia|]. f_equal; [apply byte_is; lia|].
    f_equal. apply byte_is; lia.
Qed.
Lemma utf8_nonempty c : exists b r, utf8 c = b :: r.
Proof. unfold utf8. repeat destruct (_ <? _); eauto. Qed.

Theorem utf8_ok_text l : utf8_ok l = true <-> text l.
Proof.
  split.
  - remember (length l) as n eqn:En. revert l En. induction n as [n IH] using lt_wf_ind. intros l En H.
    destruct (utf8_front l H) as [->|(c & r & Hc & -> & Hr)]; [exists []; split; [constructor|reflexivity]|].
    destruct (utf8_nonempty c) as (b & r' & E).
    destruct (IH (length r) ltac:(rewrite En, E, app_length; cbn; lia) r eq_refl Hr) as (cs & Hs & ->).
    exists (c :: cs). split; [constructor; assumption|reflexivity].
  - intros (cs & Hs & ->). induction Hs as [|c cs Hc _ IH]; [reflexivity|].
    cbn [map concat]. rewrite utf8_ok_char by exact Hc. exact IH.
Qed.

(** The first character of a text can be read off. *)
Lemma utf8_first c c' r r' : scalar c -> scalar c' -> utf8 c ++ r = utf8 c' ++ r' -> c = c' /\ r = r'.
Proof.
  unfold scalar, utf8. intros H H'.
  repeat match goal with |- context [if ?a <? ?b then _ else _] => destruct (N.ltb_spec a b) end;
    cbn [app]; intros E; injection E; intros;
    repeat match goal with X : byte_of ?a = byte_of ?b |- _ => apply (f_equal b2n) in X; rewrite !b2n_byte_of in X by lia end;
    (split; [lia|assumption]) || (exfalso; lia).
Qed.
Lemma text_unique cs cs' l : encodes_text cs l -> encodes_text cs' l -> cs = cs'.
Proof.
  revert cs' l. induction cs as [|c cs IH]; intros [|c' cs'] l [F E] [F' E'].
  - reflexivity.
  - subst. cbn [map concat] in E'. destruct (utf8_nonempty c') as (b & r & X). rewrite X in E'. discriminate.
  - subst. cbn [map concat] in E'. destruct (utf8_nonempty c) as (b & r & X). rewrite X in E'. discriminate.
  - inversion F; inversion F'; subst. cbn [map concat] in E'. apply utf8_first in E' as [-> E']; [|assumption..].
    f_equal. apply (IH cs' (concat (map utf8 cs))); split; auto.
Qed.
