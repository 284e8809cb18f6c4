(** C66: expressions in attributes, in the derived decoder and in the derived encoder. *)
From Coq Require Import Ascii String.
From Verif Require Import Base BaseLemmas Ints Text AttrParse GenExpr TextSpec GenExprSpec GenExprLemmas.
Close Scope string_scope.

(** An expression that has a value in the decoder of a struct has the same value in the
    encoder if it begins with a field and mentions no other; any other does not compile
    there. For every arithmetic. *)
Theorem C66_struct : forall V (A : arithmetic V) before after self others text v,
  struct_value A (before ++ after) self -> apart (before ++ after) others ->
  code_value A (decoder_scope before others) (var_code false text) = Some v ->
  one_field_first (map fst (before ++ after)) text /\
    code_value A (encoder_scope self others) (var_code true text) = Some v \/
  ~ one_field_first (map fst (before ++ after)) text /\
    code_value A (encoder_scope self others) (var_code true text) = None.
Proof.
  intros V A before after self others text v HS HA. unfold code_value. rewrite !lex_var_code.
  destruct (lex [] text) as [ts|] eqn:EL; [|discriminate].
  change (TOpen :: [] ++ ts ++ tail_tokens) with (before_text true ++ ts ++ after_text true (txt "usize")).
  change (TOpen :: [TName (txt "self"); TDot] ++ ts ++ tail_tokens)
    with (before_text true ++ (self_tokens ++ ts) ++ after_text true (txt "usize")).
  destruct (parse_all _) as [e|] eqn:EP; [|discriminate]. intros HV.
  destruct (core_meaning A before after self others HS HA true ts _ e v EP HV) as [[(x & r & -> & Hx & Hr) (e' & HP & HE)]|[Hno HN]].
  - left. split; [exists x, r; auto|]. now rewrite HP.
  - right. split; [intros (x & r & Hl & Hx & Hr); injection (eq_trans (eq_sym EL) Hl) as ->; apply Hno; exists x, r; auto|].
    destruct (parse_all (_ ++ (self_tokens ++ ts) ++ _)) as [e'|]; [now apply HN|reflexivity].
Qed.
(** The same for [byteorder], whose code has no parentheses. *)
Theorem C66_byteorder : forall V (A : arithmetic V) before after self others text v,
  struct_value A (before ++ after) self -> apart (before ++ after) others ->
  code_value A (decoder_scope before others) (order_code false text) = Some v ->
  one_field_first (map fst (before ++ after)) text /\
    code_value A (encoder_scope self others) (order_code true text) = Some v \/
  ~ one_field_first (map fst (before ++ after)) text /\
    code_value A (encoder_scope self others) (order_code true text) = None.
Proof.
  intros V A before after self others text v HS HA. unfold code_value. rewrite !lex_order_code.
  destruct (lex [] text) as [ts|] eqn:EL; [|discriminate].
  change ([] ++ ts ++ [TAs; TName (txt "isize")]) with (before_text false ++ ts ++ after_text false (txt "isize")).
  change ([TName (txt "self"); TDot] ++ ts ++ [TAs; TName (txt "isize")])
    with (before_text false ++ (self_tokens ++ ts) ++ after_text false (txt "isize")).
  destruct (parse_all _) as [e|] eqn:EP; [|discriminate]. intros HV.
  destruct (core_meaning A before after self others HS HA false ts _ e v EP HV) as [[(x & r & -> & Hx & Hr) (e' & HP & HE)]|[Hno HN]].
  - left. split; [exists x, r; auto|]. now rewrite HP.
  - right. split; [intros (x & r & Hl & Hx & Hr); injection (eq_trans (eq_sym EL) Hl) as ->; apply Hno; exists x, r; auto|].
    destruct (parse_all (_ ++ (self_tokens ++ ts) ++ _)) as [e'|]; [now apply HN|reflexivity].
Qed.
(** [length] in a container with [get_variable_name]: if its text occurs in the list of
    variables, the encoder takes it as it stands, and it must mention no field. *)
Theorem C66_length : forall V (A : arithmetic V) before after self others variables text v,
  struct_value A (before ++ after) self -> apart (before ++ after) others ->
  (exists l r, join_names variables = l ++ text ++ r) ->
  code_value A (decoder_scope before others) (length_code (Some variables) false text) = Some v ->
  no_field (map fst (before ++ after)) text /\
    code_value A (encoder_scope self others) (length_code (Some variables) true text) = Some v \/
  ~ no_field (map fst (before ++ after)) text /\
    code_value A (encoder_scope self others) (length_code (Some variables) true text) = None.
Proof.
  intros V A before after self others variables text v HS HA (l & r & Hl). unfold length_code.
  replace (has_text text (join_names variables)) with true.
  2:{ rewrite Hl. symmetry. clear Hl. induction l as [|c l IH]; cbn [app].
      - destruct (text ++ r) as [|c s] eqn:E; cbn [has_text]; apply orb_true_iff; left; rewrite <- E; apply starts_with_app.
      - cbn [has_text]. now rewrite IH, orb_true_r. }
  unfold code_value. rewrite !lex_var_code.
  destruct (lex [] text) as [ts|] eqn:EL; [|discriminate].
  change (TOpen :: [] ++ ts ++ tail_tokens) with (before_text true ++ ts ++ after_text true (txt "usize")).
  destruct (parse_all _) as [e|] eqn:EP; [|discriminate]. intros HV.
  destruct (plain_meaning A before after self others HA true ts _ e v EP HV) as [[Hno HE]|[(y & Hy & Hf) HE]].
  - left. split; [exists ts; auto|exact HE].
  - right. split; [|exact HE]. intros (ts' & Hl' & Hno). injection (eq_trans (eq_sym EL) Hl') as ->. exact (Hno y Hy Hf).
Qed.
(** If it does not occur there, [length] is as any other. *)
Theorem C66_length_other : forall V (A : arithmetic V) before after self others variables text v,
  struct_value A (before ++ after) self -> apart (before ++ after) others ->
  (forall l r, join_names variables <> l ++ text ++ r) ->
  code_value A (decoder_scope before others) (length_code (Some variables) false text) = Some v ->
  one_field_first (map fst (before ++ after)) text /\
    code_value A (encoder_scope self others) (length_code (Some variables) true text) = Some v \/
  ~ one_field_first (map fst (before ++ after)) text /\
    code_value A (encoder_scope self others) (length_code (Some variables) true text) = None.
Proof.
  intros V A before after self others variables text v HS HA Hl. unfold length_code.
  replace (has_text text (join_names variables)) with false.
  { now apply C66_struct. }
  destruct (has_text text (join_names variables)) eqn:E; [exfalso|reflexivity].
  assert (X : forall s, has_text text s = true -> exists l r, s = l ++ text ++ r).
  { induction s as [|c s IH]; cbn [has_text]; intros H; apply orb_true_iff in H as [H|H].
    - apply starts_with_iff in H as [r ->]. now exists [], r.
    - discriminate.
    - apply starts_with_iff in H as [r ->]. now exists [], r.
    - destruct (IH H) as (l & r & ->). now exists (c :: l), r. }
  destruct (X _ E) as (l & r & H). exact (Hl l r H).
Qed.

(** And so it is in a container without variables. *)
Theorem C66_length_plain : forall V (A : arithmetic V) before after self others text v,
  struct_value A (before ++ after) self -> apart (before ++ after) others ->
  code_value A (decoder_scope before others) (length_code None false text) = Some v ->
  one_field_first (map fst (before ++ after)) text /\
    code_value A (encoder_scope self others) (length_code None true text) = Some v \/
  ~ one_field_first (map fst (before ++ after)) text /\
    code_value A (encoder_scope self others) (length_code None true text) = None.
Proof. exact C66_struct. Qed.

(** The model of rustc used here: any text of Rust's grammar of operators has the value of
    its tree. *)
Theorem C66_text : forall V (A : arithmetic V) scope text e, reads_as Disjunction text e ->
  code_value A scope text = eval A scope e.
Proof.
  intros V A scope text e H. destruct (lex_reads _ _ _ H) as (ts & L & T). unfold code_value. rewrite L.
  destruct (parse_tokens _ _ _ T 0%nat [] 1%nat (e, [])) as (k & P); [lia|easy|reflexivity|]. rewrite app_nil_r in P.
  now rewrite (parse_all_complete _ _ _ P).
Qed.
(** [a - (N0 % 20) * x.1 - 7 as u8]: of the two differences the left one first. *)
Example C66_text_example :
  let a := txt "a" in let n := txt "N0" in let x := txt "x" in
  reads_as Disjunction (txt "a - (N0 % 20)*x.1 - 7 as u8")
    (EOp Minus (EOp Minus (EName a) (EOp Times (EOp Remainder (EName n) (ENum 20)) (EField (EName x) (LNum 1))))
       (ECast (ENum 7) (txt "u8"))).
Proof.
  assert (NA : a_name (txt "a")) by (split; [split; [left; cbv; split; discriminate|constructor]|discriminate]).
  assert (NX : a_name (txt "x")) by (split; [split; [left; cbv; split; discriminate|constructor]|discriminate]).
  assert (NN : a_name (txt "N0")).
  { split; [split; [right; left; cbv; split; discriminate|]|discriminate]. constructor; [right; cbv; split; discriminate|constructor]. }
  assert (NU : a_name (txt "u8")).
  { split; [split; [left; cbv; split; discriminate|]|discriminate]. constructor; [right; cbv; split; discriminate|constructor]. }
  assert (D20 : decimal_text (txt "20") 20) by (repeat split; try discriminate; repeat constructor; discriminate).
  assert (D1 : decimal_text (txt "1") 1) by (repeat split; try discriminate; repeat constructor; discriminate).
  assert (D7 : decimal_text (txt "7") 7) by (repeat split; try discriminate; repeat constructor; discriminate).
  cbv zeta. apply (whole Sum).
  assert (P : reads_as Atom (txt "(N0 % 20)") (EOp Remainder (EName (txt "N0")) (ENum 20))).
  { apply (ra_paren (txt "N0 % 20")), (whole Product). apply (ra_operation (txt "N0 ") _ (txt " 20") _ _ "%"%string Product Product Cast); [constructor| |].
    - apply (ra_after Product (txt "N0")). now apply ra_product, ra_atom, ra_name.
    - apply (ra_before Cast (txt "20")). now apply ra_atom, ra_number. }
  apply (ra_operation (txt "a - (N0 % 20)*x.1 ") _ (txt " 7 as u8") _ _ "-"%string Sum Sum Product); [constructor| |].
  - apply (ra_operation (txt "a ") _ (txt " (N0 % 20)*x.1 ") _ _ "-"%string Sum Sum Product); [constructor| |].
    + apply (ra_after Sum (txt "a")). now apply ra_sum, ra_product, ra_atom, ra_name.
    + apply (ra_before Product (txt "(N0 % 20)*x.1 ")), (ra_after Product (txt "(N0 % 20)*x.1")).
      apply (ra_operation (txt "(N0 % 20)") _ (txt "x.1") _ _ "*"%string Product Product Cast); [constructor|now apply ra_product, ra_atom|].
      apply ra_atom, (ra_index (txt "x") _ (txt "1")); [now apply ra_name|discriminate|exact D1].
  - apply (ra_before Product (txt "7 as u8")), ra_product. apply (ra_cast (txt "7") _ (txt "u8")); [now apply ra_atom, ra_number|exact NU].
Qed.
(** [a & 0xf == N0<<2 || !b]: the comparison is of what [&] and [<<] give. *)
Example C66_text_bits :
  let a := txt "a" in let n := txt "N0" in let b := txt "b" in
  reads_as Disjunction (txt "a & 0xf == N0<<2 || !b")
    (EOp OrElse (EOp IsEqual (EOp AndBits (EName a) (ENum 15)) (EOp ShiftLeft (EName n) (ENum 2))) (EField (EName b) LNot)).
Proof.
  assert (NA : a_name (txt "a")) by (split; [split; [left; cbv; split; discriminate|constructor]|discriminate]).
  assert (NB : a_name (txt "b")) by (split; [split; [left; cbv; split; discriminate|constructor]|discriminate]).
  assert (NN : a_name (txt "N0")).
  { split; [split; [right; left; cbv; split; discriminate|]|discriminate]. constructor; [right; cbv; split; discriminate|constructor]. }
  assert (D2 : decimal_text (txt "2") 2) by (repeat split; try discriminate; repeat constructor; discriminate).
  assert (DF : hex_number (txt "0xf") 15) by (apply hn_one; left; right; split; [split; [discriminate|reflexivity]|reflexivity]).
  cbv zeta. apply (ra_operation (txt "a & 0xf == N0<<2 ") _ (txt " !b") _ _ "||"%string Disjunction Disjunction Conjunction); [constructor| |].
  - apply (ra_after Disjunction (txt "a & 0xf == N0<<2")), (whole Comparison).
    apply (ra_operation (txt "a & 0xf ") _ (txt " N0<<2") _ _ "=="%string Comparison BitOr BitOr); [constructor| |].
    + apply (ra_after BitOr (txt "a & 0xf")), (loosen BitOr BitAnd); [cbn; lia|].
      apply (ra_operation (txt "a ") _ (txt " 0xf") _ _ "&"%string BitAnd BitAnd Shift); [constructor| |].
      * apply (ra_after BitAnd (txt "a")), (loosen BitAnd Atom); [cbn; lia|]. now apply ra_name.
      * apply (ra_before Shift (txt "0xf")), (loosen Shift Atom); [cbn; lia|]. now apply ra_hex.
    + apply (ra_before BitOr (txt "N0<<2")), (loosen BitOr Shift); [cbn; lia|].
      apply (ra_operation (txt "N0") _ (txt "2") _ _ "<<"%string Shift Shift Sum); [constructor| |].
      * apply (loosen Shift Atom); [cbn; lia|]. now apply ra_name.
      * apply (loosen Sum Atom); [cbn; lia|]. now apply ra_number.
  - apply (ra_before Conjunction (txt "!b")), (loosen Conjunction Cast); [cbn; lia|].
    apply (ra_front "!"%byte LNot (txt "b")); [constructor|now apply ra_name].
Qed.
(** The fuel of the parser is enough: what any fuel accepts, it accepts. *)
Theorem C66_parse_complete : forall fuel ts e, parse fuel 0 ts = Some (e, []) -> parse_all ts = Some e.
Proof. exact parse_all_complete. Qed.

(** ** An arithmetic: numbers, and structs of numbers *)
Inductive value := VNum (n : N) | VStruct (fields : list (bytes * value)).
Definition numbers : arithmetic value :=
  mkarithmetic value (fun n => Some (VNum n))
    (fun o a b =>
       match a, b with
       | VNum a, VNum b =>
           match o with
           | Plus => Some (VNum (a + b)) | Minus => Some (VNum (a - b)) | Times => Some (VNum (a * b))
           | Divide => Some (VNum (a / b)) | Remainder => Some (VNum (a mod b))
           | ShiftLeft => Some (VNum (N.shiftl a b)) | ShiftRight => Some (VNum (N.shiftr a b))
           | AndBits => Some (VNum (N.land a b)) | XorBits => Some (VNum (N.lxor a b)) | OrBits => Some (VNum (N.lor a b))
           | _ => None
           end
       | _, _ => None
       end)
    (fun t a => match a with VNum n => if bytes_eqb t (txt "usize") || bytes_eqb t (txt "isize") then Some a else None | _ => None end)
    (fun a f =>
       match a, f with
       | VStruct l, LName x => match find (fun xv => bytes_eqb x (fst xv)) l with Some (_, v) => Some v | None => None end
       | _, _ => None
       end).
Lemma numbers_struct fields : NoDup (map fst fields) -> struct_value numbers fields (VStruct fields).
Proof.
  intros Hd. constructor; [exact Hd| | |reflexivity]; cbn.
  - intros x v Hi. induction fields as [|[y w] l IH]; [easy|]. cbn [map fst] in Hd. apply NoDup_cons_iff in Hd as [Hn Hd].
    cbn [find fst]. destruct Hi as [[= <- <-]|Hi].
    + now rewrite bytes_eqb_refl.
    + destruct (bytes_eqb x y) eqn:E; [|now apply IH]. apply bytes_eqb_eq in E. subst y.
      elim Hn. now apply (in_map fst) in Hi.
  - intros x Hx. destruct (find _ fields) as [[y w]|] eqn:E; [|reflexivity].
    apply find_some in E as [Hi Hb]. cbn in Hb. apply bytes_eqb_eq in Hb. subst y. elim Hx. now apply (in_map fst) in Hi.
Qed.
(** [struct S { a: u8, b: u8, c: .. }] with a = 3 and b = 5, a constant [N] = 7 and a
    variable [count] = 11. *)
Definition ab : list (bytes * value) := [(txt "a", VNum 3); (txt "b", VNum 5)].
Definition abc : list (bytes * value) := ab ++ [(txt "c", VNum 9)].
Definition consts (x : bytes) : option value :=
  if bytes_eqb x (txt "N") then Some (VNum 7) else if bytes_eqb x (txt "count") then Some (VNum 11) else None.
Definition decoded (text : string) : option value := code_value numbers (decoder_scope ab consts) (var_code false (txt text)).
Definition encoded (text : string) : option value := code_value numbers (encoder_scope (VStruct abc) consts) (var_code true (txt text)).
Example C66_example :
  struct_value numbers abc (VStruct abc) /\ apart abc consts /\
  decoded "a" = Some (VNum 3) /\ encoded "a" = Some (VNum 3) /\
  decoded "b * 2 + 1" = Some (VNum 11) /\ encoded "b * 2 + 1" = Some (VNum 11) /\
  decoded "b - (N - 4)" = Some (VNum 2) /\ encoded "b - (N - 4)" = Some (VNum 2) /\
  one_field_first (map fst abc) (txt "b - (N - 4)").
Proof.
  split. { apply numbers_struct. cbn. repeat constructor; cbn; intuition discriminate. }
  split. { split; [reflexivity|]. split; [cbn; intuition discriminate|]. intros x Hx. cbn in Hx. destruct Hx as [<-|[<-|[<-|[]]]]; reflexivity. }
  repeat split. eexists _, _. split; [reflexivity|]. split; [cbn; auto|]. intros y Hy Hf. cbn in Hy, Hf.
  destruct Hy as [<-|[]]. intuition discriminate.
Qed.
(** A sum of two fields, a field in parentheses, a number first, a constant, and a
    variable, work in the decoder and do not compile in the encoder. *)
Theorem C66_refuted :
  ~ (forall V (A : arithmetic V) before after self others text v,
       struct_value A (before ++ after) self -> apart (before ++ after) others ->
       code_value A (decoder_scope before others) (var_code false text) = Some v ->
       code_value A (encoder_scope self others) (var_code true text) = Some v).
Proof.
  intros H. destruct C66_example as (HS & HA & _).
  specialize (H value numbers ab [(txt "c", VNum 9)] (VStruct abc) consts (txt "a + b") (VNum 8) HS HA eq_refl).
  discriminate H.
Qed.
Example C66_refuted_example :
  decoded "a + b" = Some (VNum 8) /\ encoded "a + b" = None /\
  decoded "(a)" = Some (VNum 3) /\ encoded "(a)" = None /\
  decoded "2 * a" = Some (VNum 6) /\ encoded "2 * a" = None /\
  decoded "N" = Some (VNum 7) /\ encoded "N" = None /\
  decoded "count" = Some (VNum 11) /\ encoded "count" = None.
Proof. repeat split. Qed.
(** [length] is compared with the list of variables as text: an expression over a variable
    is not recognised, and a field whose name is part of a variable's name is mistaken
    for it. *)
Theorem C66_length_refuted :
  (exists text v, no_field (map fst abc) text /\
    code_value numbers (decoder_scope ab consts) (length_code (Some [txt "count"]) false text) = Some v /\
    code_value numbers (encoder_scope (VStruct abc) consts) (length_code (Some [txt "count"]) true text) = None) /\
  (exists before field v, 
    struct_value numbers before (VStruct before) /\ apart before consts /\ In (field, v) before /\
    code_value numbers (decoder_scope before consts) (length_code (Some [txt "count"]) false field) = Some v /\
    code_value numbers (encoder_scope (VStruct before) consts) (length_code (Some [txt "count"]) true field) = None).
Proof.
  split.
  - exists (txt "count + 1"), (VNum 12). split; [|now split]. eexists. split; [reflexivity|].
    intros y Hy Hf. cbn in Hy, Hf. destruct Hy as [<-|[]]. intuition discriminate.
  - exists [(txt "n", VNum 4)], (txt "n"), (VNum 4). split; [|split; [|split; [|split; reflexivity]]].
    + apply numbers_struct. cbn. repeat constructor. easy.
    + split; [reflexivity|]. split; [cbn; intuition discriminate|]. intros x Hx. cbn in Hx. destruct Hx as [<-|[]]. reflexivity.
    + now left.
Qed.
Example C66_length_example :
  code_value numbers (decoder_scope ab consts) (length_code (Some [txt "x"; txt "count"]) false (txt "count")) = Some (VNum 11) /\
  code_value numbers (encoder_scope (VStruct abc) consts) (length_code (Some [txt "x"; txt "count"]) true (txt "count")) = Some (VNum 11) /\
  code_value numbers (encoder_scope (VStruct abc) consts) (length_code (Some [txt "x"; txt "count"]) true (txt "a + N")) = Some (VNum 10).
Proof. repeat split. Qed.
(** [byteorder = "a + N"] casts only the last operand. *)
Example C66_byteorder_example :
  match lex [] (order_code false (txt "a + N")) with Some ts => parse_all ts | None => None end =
    Some (EOp Plus (EName (txt "a")) (ECast (EName (txt "N")) (txt "isize"))) /\
  code_value numbers (decoder_scope ab consts) (order_code false (txt "a")) = Some (VNum 3) /\
  code_value numbers (encoder_scope (VStruct abc) consts) (order_code true (txt "a")) = Some (VNum 3).
Proof. repeat split. Qed.

Print Assumptions C66_struct.
Print Assumptions C66_byteorder.
Print Assumptions C66_length.
Print Assumptions C66_length_plain.
Print Assumptions C66_length_other.
Print Assumptions C66_text.
Print Assumptions C66_refuted.
Print Assumptions C66_length_refuted.
Print Assumptions C66_parse_complete.
