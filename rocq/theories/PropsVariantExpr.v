(** C70: expressions in the attributes of fields of variants. *)
From Coq Require Import Ascii String.
From Verif Require Import Base BaseLemmas Ints Text AttrParse GenExpr TextSpec GenExprSpec GenExprLemmas PropsExpr.
Close Scope string_scope.

Lemma usize_name : a_name (txt "usize").
Proof. split; [split; [left; cbv; split; discriminate|]|discriminate]. repeat constructor; cbv; discriminate. Qed.
Lemma var_reads text e : reads_as Disjunction text e -> reads_as Disjunction (var_code false text) (ECast e (txt "usize")).
Proof.
  intros H. unfold var_code.
  replace (txt "(" ++ [] ++ text ++ txt ") as usize") with (("("%byte :: text ++ [")"%byte]) ++ list_byte_of_string " as " ++ txt "usize")
    by (cbn [app]; rewrite <- app_assoc; reflexivity).
  apply (whole Cast), ra_cast; [|exact usize_name]. now apply ra_atom, ra_paren.
Qed.

(** A variant with named fields: an expression without casts that has a value in the
    decoder has the same value in the encoder if its first operand is a field; otherwise
    the encoder does not compile. *)
Theorem C70_named : forall V (A : arithmetic V) before after others text e v,
  NoDup (map fst (before ++ after)) -> (forall x, In x (map fst (before ++ after)) -> others x = None) ->
  reads_as Disjunction text e -> plain_expr e ->
  code_value A (decoder_scope before others) (var_code false text) = Some v ->
  let encoded := code_value (with_references A) (variant_scope (before ++ after) others) (star_code text) in
  name_first (map fst (before ++ after)) text /\ encoded = Some (Value v) \/
  ~ name_first (map fst (before ++ after)) text /\ encoded = None.
Proof.
  intros V A before after others text e v HN HA HR HP HD. cbv zeta.
  rewrite (C66_text V A _ _ _ (var_reads text e HR)) in HD. cbn [eval] in HD.
  destruct (eval A (decoder_scope before others) e) as [w|] eqn:W; [|discriminate].
  destruct (lead _ _ _ HR HP) as (s & u & rest & Et & Hu & Hr & Hx).
  destruct (Hx _ _ (ra_front _ _ s u fs_star Hu)) as (e' & R' & G). cbn [at_most_cast] in R'.
  assert (RS : reads_as Disjunction (star_code text) (ECast e' (txt "usize"))).
  { rewrite Et. replace (star_code (s ++ rest)) with (("("%byte :: (("*"%byte :: s) ++ rest) ++ [")"%byte]) ++ list_byte_of_string " as " ++ txt "usize").
    - apply (whole Cast), ra_cast; [|exact usize_name]. apply ra_atom, ra_paren. exact R'.
    - unfold star_code. cbn [app txt list_byte_of_string]. rewrite <- !app_assoc. reflexivity. }
  rewrite (C66_text _ _ _ _ _ RS). cbn [eval].
  assert (PU : plain_expr u) by (eapply graft_plain; eassumption).
  assert (exists z, eval A (decoder_scope before others) u = Some z) as (z & Z) by (eapply graft_defined; eassumption).
  destruct (variant_eval A before after others HN HA u PU z Z) as [[(x & -> & Hin) _]|[Hn HV]].
  - left. split; [exists s, x, rest; auto|].
    rewrite (star_eval A before after others HN HA _ _ _ G HP w W) by now exists x. cbn [with_references a_cast]. now rewrite HD.
  - right. split.
    + intros (s2 & x & rest2 & E2 & U2 & Hin & R2). apply Hn. exists x. split; [|exact Hin].
      apply (first_unique text s u rest s2 (EName x) rest2); auto.
      destruct (lex_reads _ _ _ HR) as (ts & L & _). congruence.
    + rewrite (graft_missing (with_references A) _ _ _ _ _ G); [reflexivity|]. cbn [eval]. rewrite HV. reflexivity.
Qed.
(** A tuple variant: it has the same value unless it is a field and nothing else. *)
Theorem C70_tuple : forall V (A : arithmetic V) before after others text e v,
  NoDup (map fst (before ++ after)) -> (forall x, In x (map fst (before ++ after)) -> others x = None) ->
  reads_as Disjunction text e -> plain_expr e ->
  code_value A (decoder_scope before others) (var_code false text) = Some v ->
  let encoded := code_value (with_references A) (variant_scope (before ++ after) others) (var_code false text) in
  (exists x, In x (map fst (before ++ after)) /\ e = EName x) /\ encoded = None \/
  (~ exists x, In x (map fst (before ++ after)) /\ e = EName x) /\ encoded = Some (Value v).
Proof.
  intros V A before after others text e v HN HA HR HP HD. cbv zeta.
  rewrite (C66_text V A _ _ _ (var_reads text e HR)) in HD. rewrite (C66_text _ _ _ _ _ (var_reads text e HR)). cbn [eval] in *.
  destruct (eval A (decoder_scope before others) e) as [w|] eqn:W; [|discriminate].
  destruct (variant_eval A before after others HN HA e HP w W) as [[(x & Ex & Hx) HE]|[Hn HE]]; rewrite HE; cbn [with_references a_cast].
  - left. split; [now exists x|reflexivity].
  - right. split; [intros (x & Hx & Ex); apply Hn; now exists x|now rewrite HD].
Qed.
(** [byteorder] that names a field: no encoder for any variant. *)
Theorem C70_byteorder_refuted : forall V (A : arithmetic V) fields others text x,
  reads_as Atom text (EName x) -> In x (map fst fields) ->
  code_value (with_references A) (variant_scope fields others) (order_code false text) = None.
Proof.
  intros V A fields others text x HR Hx.
  assert (R : reads_as Disjunction (order_code false text) (ECast (EName x) (txt "isize"))).
  { unfold order_code. cbn [app]. apply (whole Cast).
    change (txt " as isize") with (list_byte_of_string " as " ++ txt "isize"). apply ra_cast; [now apply ra_atom|].
    split; [split; [left; cbv; split; discriminate|]|discriminate]. repeat constructor; cbv; discriminate. }
  rewrite (C66_text _ _ _ _ _ R). cbn [eval]. unfold variant_scope.
  destruct (find _ fields) as [[y w]|] eqn:F; [reflexivity|]. exfalso.
  apply in_map_iff in Hx as ((y & w) & <- & Hi). apply (find_none _ _ F) in Hi. cbn in Hi. now rewrite bytes_eqb_refl in Hi.
Qed.

(** ** Cases *)
Definition in_decoder (text : string) : option value := code_value numbers (decoder_scope ab consts) (var_code false (txt text)).
Definition in_named (text : string) : option (place value) :=
  code_value (with_references numbers) (variant_scope abc consts) (star_code (txt text)).
Definition in_tuple (text : string) : option (place value) :=
  code_value (with_references numbers) (variant_scope abc consts) (var_code false (txt text)).
(** [length = "a + b * 2"] works everywhere; a field alone, or in parentheses, not in tuple
    variants. *)
Example C70_example :
  NoDup (map fst abc) /\ (forall x, In x (map fst abc) -> consts x = None) /\
  in_decoder "a + b * 2" = Some (VNum 13) /\ in_named "a + b * 2" = Some (Value (VNum 13)) /\
  in_tuple "a + b * 2" = Some (Value (VNum 13)) /\
  in_decoder "(b)" = Some (VNum 5) /\ in_named "(b)" = Some (Value (VNum 5)) /\ in_tuple "(b)" = None.
Proof.
  split. { cbn. repeat constructor; cbn; intuition discriminate. }
  split. { intros x Hx. cbn in Hx. destruct Hx as [<-|[<-|[<-|[]]]]; reflexivity. }
  repeat split.
Qed.
Example C70_text_example : let ab2 := EOp Plus (EName (txt "a")) (EOp Times (EName (txt "b")) (ENum 2)) in
  reads_as Disjunction (txt "a + b * 2") ab2 /\ plain_expr ab2 /\ name_first (map fst abc) (txt "a + b * 2") /\
  name_first (map fst abc) (txt "(b)").
Proof.
  assert (NA : a_name (txt "a")) by (split; [split; [left; cbv; split; discriminate|constructor]|discriminate]).
  assert (NB : a_name (txt "b")) by (split; [split; [left; cbv; split; discriminate|constructor]|discriminate]).
  cbv zeta. split; [|split; [cbn; tauto|split]].
  - apply (whole Sum), (ra_operation (txt "a ") _ (txt " b * 2") _ _ "+"%string Sum Sum Product); [constructor| |].
    + apply (ra_after Sum (txt "a")). now apply ra_sum, ra_product, ra_atom, ra_name.
    + apply (ra_before Product (txt "b * 2")).
      apply (ra_operation (txt "b ") _ (txt " 2") _ _ "*"%string Product Product Cast); [constructor| |].
      * apply (ra_after Product (txt "b")). now apply ra_product, ra_atom, ra_name.
      * apply (ra_before Cast (txt "2")), ra_atom, ra_number. repeat split; try discriminate. repeat constructor; discriminate.
  - exists (txt "a "), (txt "a"), (txt "+ b * 2"). repeat split.
    + apply (ra_after Atom (txt "a")). now apply ra_name.
    + cbn; auto.
    + right. exists "+"%byte, (txt " b * 2"). cbn. auto.
  - exists (txt "(b)"), (txt "b"), []. repeat split.
    + apply (ra_paren (txt "b")). now apply (whole Atom), ra_name.
    + cbn; auto.
    + now left.
Qed.
(** What the decoder takes and the encoder does not: with named fields, a number first, a
    product of a sum, a constant or a variable, a field of a field; in tuples, a field. *)
Theorem C70_named_refuted :
  ~ (forall V (A : arithmetic V) before after others text v,
       NoDup (map fst (before ++ after)) -> (forall x, In x (map fst (before ++ after)) -> others x = None) ->
       code_value A (decoder_scope before others) (var_code false text) = Some v ->
       code_value (with_references A) (variant_scope (before ++ after) others) (star_code text) = Some (Value v)).
Proof.
  intros H. destruct C70_example as (HN & HA & _).
  specialize (H value numbers ab [(txt "c", VNum 9)] consts (txt "2 * a") (VNum 6) HN HA eq_refl). discriminate H.
Qed.
Theorem C70_tuple_refuted :
  ~ (forall V (A : arithmetic V) before after others text v,
       NoDup (map fst (before ++ after)) -> (forall x, In x (map fst (before ++ after)) -> others x = None) ->
       code_value A (decoder_scope before others) (var_code false text) = Some v ->
       code_value (with_references A) (variant_scope (before ++ after) others) (var_code false text) = Some (Value v)).
Proof.
  intros H. destruct C70_example as (HN & HA & _).
  specialize (H value numbers ab [(txt "c", VNum 9)] consts (txt "a") (VNum 3) HN HA eq_refl). discriminate H.
Qed.
Definition headed : list (bytes * value) := [(txt "head", VStruct [(txt "len", VNum 4)])].
Example C70_refuted_example :
  in_decoder "2 * a" = Some (VNum 6) /\ in_named "2 * a" = None /\ in_tuple "2 * a" = Some (Value (VNum 6)) /\
  in_decoder "(a + b) * 2" = Some (VNum 16) /\ in_named "(a + b) * 2" = None /\
  in_decoder "count" = Some (VNum 11) /\ in_named "count" = None /\ in_tuple "count" = Some (Value (VNum 11)) /\
  code_value numbers (decoder_scope headed consts) (var_code false (txt "head.len")) = Some (VNum 4) /\
  code_value (with_references numbers) (variant_scope headed consts) (star_code (txt "head.len")) = None /\
  code_value (with_references numbers) (variant_scope headed consts) (var_code false (txt "head.len")) = Some (Value (VNum 4)).
Proof. repeat split. Qed.
Example C70_byteorder_example : reads_as Atom (txt "a") (EName (txt "a")) /\
  code_value numbers (decoder_scope ab consts) (order_code false (txt "a")) = Some (VNum 3) /\
  code_value (with_references numbers) (variant_scope abc consts) (order_code false (txt "a")) = None.
Proof.
  split; [|now split]. apply ra_name. split; [split; [left; cbv; split; discriminate|constructor]|discriminate].
Qed.

Print Assumptions C70_named.
Print Assumptions C70_tuple.
Print Assumptions C70_byteorder_refuted.
Print Assumptions C70_named_refuted.
Print Assumptions C70_tuple_refuted.
