(** Properties C48-C50: what is written in [#[jbytes(...)]] is what the field gets. *)
From Coq Require Import Ascii String Permutation.
From Verif Require Import Base Ints Spec SpecOps Reader TextSpec Text Sugar AttrParse AttrSpec AttrLemmas Schema.
Close Scope string_scope.

(** ** C48: numbers *)

(** Decimal and 0x numerals, quoted or not, stand for the number they write. *)
Theorem C48_numbers : forall lit s n, lit = s \/ lit = quoted s -> numeral s n -> n < 2 ^ 64 -> parse_usize lit = AUsize n.
Proof. exact parse_number. Qed.
(** What begins with neither a digit nor a plus sign is kept as an expression,
    exactly as it was written. *)
Theorem C48_expressions : forall lit s, string_literal lit s -> expression s -> parse_usize lit = AVar s.
Proof. exact parse_expression. Qed.
(** A text is taken for the number [n] exactly when it is a numeral of [n], where
    a plus sign and repeated 0x are let through. *)
Theorem C48_accepted : forall s n, numeral_of s = Some n <-> lenient_numeral s n /\ n < 2 ^ 64.
Proof. exact numeral_of_iff. Qed.
(** "0x0x10" is accepted, as 16; "0x+10" too; "+5" is 5, although no Rust numeral. *)
Theorem C48_lenient_refuted :
  ~ (forall s n, numeral_of s = Some n -> numeral s n).
Proof.
  intros H. specialize (H (txt "0x0x10") 16 ltac:(vm_compute; reflexivity)).
  assert (X : Forall (fun c => c <> "x"%byte) (txt "0x10") \/ Forall (fun c => c <> "x"%byte) (txt "0x0x10")).
  { destruct H as [W | (t & E & W)]; [right|left].
    - apply written_chars in W. eapply Forall_impl; [|exact W]. intros c (d & D & _). exact (proj1 (digit_char _ _ D)).
    - change (txt "0x0x10") with (txt "0x" ++ txt "0x10") in E. apply app_inv_head in E as <-.
      apply written_chars in W. eapply Forall_impl; [|exact W]. intros c (d & D & _). exact (proj1 (digit_char _ _ D)). }
  destruct X as [X|X]; change (txt "0x10") with ["0"; "x"; "1"; "0"]%byte in X;
    try change (txt "0x0x10") with ["0"; "x"; "0"; "x"; "1"; "0"]%byte in X;
    inversion X as [|? ? _ Y]; inversion Y as [|? ? Z _]; exact (Z eq_refl).
Qed.
Definition lit_of (s : string) : bytes := txt s.
Example C48_case :
  parse_usize (lit_of "12") = AUsize 12 /\ parse_usize (quoted (txt "0xFf")) = AUsize 255 /\
  parse_usize (quoted (txt "len - 4")) = AVar (txt "len - 4") /\
  numeral (txt "12") 12 /\ numeral (txt "0xFf") 255 /\ expression (txt "len - 4") /\
  string_literal (quoted (txt "len - 4")) (txt "len - 4") /\
  numeral_of (txt "0x+10") = Some 16 /\ numeral_of (txt "+5") = Some 5.
Proof.
  split; [vm_compute; reflexivity|]. split; [vm_compute; reflexivity|]. split; [vm_compute; reflexivity|].
  split.
  { left. change (txt "12") with ([byte_of (48 + 1)] ++ [byte_of (48 + 2)]). change 12 with (10 * 1 + 2).
    constructor; [constructor|..]; try lia; left; left; split; reflexivity || lia. }
  split.
  { right. exists (txt "Ff"). split; [reflexivity|]. change (txt "Ff") with ([byte_of (65 + 15 - 10)] ++ [byte_of (97 + 15 - 10)]).
    change 255 with (16 * 15 + 15). constructor; [constructor|..]; try lia; [right|left]; right; (split; [lia|reflexivity]). }
  split; [split; [intros [_ H]; vm_compute in H; apply H; reflexivity|discriminate]|].
  split; [split; [reflexivity|]|split; vm_compute; reflexivity].
  intros H. repeat (destruct H as [H|H]; [discriminate|]). destruct H.
Qed.

(** ** C49: byte orders *)
Theorem C49_words : forall s bo, called s (match bo with Be => ["BE"; ">"; "0"] | Le => ["LE"; "<"; "1"] end)%string ->
  parse_byteorder (quoted s) = AString s /\ byteorder_parse s = Some bo.
Proof. exact order_word. Qed.
(** The generated [ByteOrder::parse(..).unwrap()] never panics. *)
Theorem C49_no_panic : forall lit s, parse_byteorder lit = AString s -> exists bo, byteorder_parse s = Some bo.
Proof.
  intros lit s. unfold parse_byteorder. destruct (existsb _ _) eqn:E; [|discriminate]. intros X. injection X as <-.
  apply existsb_exists in E as (x & I & E). apply bytes_eqb_iff in E. rewrite E. clear E. cbn [map In] in I.
  repeat (destruct I as [<-|I]; [eexists; vm_compute; reflexivity|]). destruct I.
Qed.
(** [ByteOrder::parse] and [ByteOrder::parse_int] accept these words and numbers only. *)
Theorem C49_parse : forall s bo,
  byteorder_parse s = Some bo <-> called s (match bo with Be => ["BE"; ">"; "0"] | Le => ["LE"; "<"; "1"] end)%string.
Proof.
  intros s bo. split; [|intros H; apply (C49_words s bo H)]. unfold byteorder_parse, called.
  assert (X : forall l, existsb (bytes_eqb s) l = true -> In s l).
  { intros l H. apply existsb_exists in H as (x & I & E). apply bytes_eqb_iff in E. subst. exact I. }
  destruct (existsb _ (map txt ["BE"; ">"; "0"]%string)) eqn:E1; [intros H; injection H as <-; exact (X _ E1)|].
  destruct (existsb _ (map txt ["LE"; "<"; "1"]%string)) eqn:E2; [intros H; injection H as <-; exact (X _ E2)|discriminate].
Qed.
Theorem C49_parse_int : forall z bo, byteorder_parse_int z = Some bo <-> z = match bo with Be => 0%Z | Le => 1%Z end.
Proof.
  intros z bo. unfold byteorder_parse_int. destruct (Z.eqb_spec z 0) as [->|]; [destruct bo; split; congruence|].
  destruct (Z.eqb_spec z 1) as [->|]; destruct bo; split; congruence.
Qed.
(** Everything else is evaluated when the field is reached. *)
Theorem C49_expressions : forall lit s, string_literal lit s -> ~ called s ["BE"; ">"; "0"; "LE"; "<"; "1"]%string ->
  parse_byteorder lit = AVar s.
Proof. exact order_expression. Qed.
(** A misspelt order, "be", is not reported: it becomes the expression [be]. *)
Example C49_case : parse_byteorder (quoted (txt "LE")) = AString (txt "LE") /\
  parse_byteorder (quoted (txt "be")) = AVar (txt "be") /\ parse_byteorder (quoted (txt "kind")) = AVar (txt "kind") /\
  byteorder_parse (txt ">") = Some Be /\ byteorder_parse (txt "be") = None /\ byteorder_parse_int 1 = Some Le /\ byteorder_parse_int 2 = None.
Proof. repeat split; vm_compute; reflexivity. Qed.

(** ** C50: entries *)

(** An entry added to the list sets the modifier it names to the value it names, and
    nothing else. *)
Theorem C50_each : forall m l fa e g, attributes_of [jbytes_line l] = Some fa -> says m e g ->
  exists fa', attributes_of [jbytes_line (l ++ [e])] = Some fa' /\ field_spec m fa' = g (field_spec m fa).
Proof. intros m l fa e g H S. rewrite (line_snoc _ _ _ H). exact (entry_says m e g fa S). Qed.
(** So the field gets what the entries say, one after the other. *)
Theorem C50_all : forall m l gs, Forall2 (says m) l gs ->
  exists fa, attributes_of [jbytes_line l] = Some fa /\ field_spec m fa = fold_left (fun f g => g f) gs plain.
Proof.
  intros m l. induction l as [|e l IH] using rev_ind; intros gs H.
  - inversion H; subst. exists default_fields. split; reflexivity.
  - apply Forall2_app_inv_l in H as (gs1 & gs2 & H1 & H2 & ->). inversion H2 as [|? g ? ? S N]; subst. inversion N; subst.
    destruct (IH _ H1) as (fa & A & E). destruct (C50_each m l fa e g A S) as (fa' & A' & E').
    exists fa'. split; [exact A'|]. rewrite fold_left_app, E', E. reflexivity.
Qed.
(** The order of entries that do not set the same thing does not matter. *)
Theorem C50_order : forall m l l', Permutation l l' -> ForallOrdPairs distinct l ->
  (attributes_of [jbytes_line l] = None /\ attributes_of [jbytes_line l'] = None) \/
  exists fa fa', attributes_of [jbytes_line l] = Some fa /\ attributes_of [jbytes_line l'] = Some fa' /\
    (forall s, member fa s = member fa' s) /\ field_spec m fa = field_spec m fa'.
Proof.
  intros m l l' P D. pose proof (lines_perm l l' P D) as H.
  destruct (attributes_of [jbytes_line l]) as [fa|], (attributes_of [jbytes_line l']) as [fa'|]; cbn in H; try contradiction.
  - right. exists fa, fa'. repeat split; [exact (proj2 H)|exact (same_spec m _ _ H)].
  - left. split; reflexivity.
Qed.
(** Compilation fails exactly when some entry does not exist: a misspelt modifier
    is never ignored. *)
Theorem C50_unknown : forall l more, attributes_of (jbytes_line l :: more) = None <-> exists e, In e l /\ ~ known e.
Proof. intros l more. rewrite line_parsed. apply entries_known. Qed.
(** Only the first line counts. *)
Theorem C50_first_line : forall l more, attributes_of (jbytes_line l :: more) = attributes_of [jbytes_line l].
Proof. intros l more. rewrite !line_parsed. reflexivity. Qed.
Theorem C50_other_lines : forall a more, t_name a <> txt "jbytes" -> t_name a <> txt "default" ->
  attributes_of (a :: more) = attributes_of more.
Proof.
  intros a more J D. unfold attributes_of. cbn [get_attribute]. unfold parse_field_attribute at 1.
  assert (N : forall x y, x <> y -> bytes_eqb x y = false).
  { intros x y H. destruct (bytes_eqb x y) eqn:E; [|reflexivity]. apply bytes_eqb_iff in E. contradiction. }
  rewrite (N _ _ D), (N _ _ J). reflexivity.
Qed.
(** [#[jbytes(length = 3)] #[jbytes(count = 2)]]: the count is ignored, and so would
    be a misspelt modifier. *)
Theorem C50_second_line_refuted :
  ~ (forall l l', attributes_of [jbytes_line l; jbytes_line l'] = attributes_of [jbytes_line (l ++ l')]) /\
  attributes_of [jbytes_line [Property (txt "length") (txt "3")]; jbytes_line [Tag (txt "no_such_modifier")]] <> None.
Proof.
  split.
  - intros H. specialize (H [Tag (txt "untake")] [Tag (txt "no_such_modifier")]).
    rewrite C50_first_line in H. vm_compute in H. discriminate.
  - rewrite C50_first_line. vm_compute. discriminate.
Qed.
(** [#[default]] before [#[jbytes(..)]] on an enum variant hides the latter. *)
Theorem C50_default_hides_refuted : exists l,
  attributes_of [mkattribute (txt "default") []; jbytes_line l] <> None /\
  (exists fa, attributes_of [jbytes_line l] = Some fa /\ member fa SBranchValue = Some (Raw (txt "7"))) /\
  (exists fa, attributes_of [mkattribute (txt "default") []; jbytes_line l] = Some fa /\ member fa SBranchValue = None).
Proof.
  exists [Property (txt "branch_value") (txt "7")]. split; [vm_compute; discriminate|].
  split; eexists; (split; [vm_compute; reflexivity|vm_compute; reflexivity]).
Qed.
(** [#[repr(u16)]] before [#[jbytes(byteorder = "LE")]] on an enum hides the latter,
    the other way round the width of the tag is lost. *)
Theorem C50_repr_hides_refuted :
  let repr := mkattribute (txt "repr") [Tag (txt "u16")] in
  let order := jbytes_line [Property (txt "byteorder") (quoted (txt "LE"))] in
  option_map container_spec (container_attributes_of [repr; order]) = Some (mkcspec None (Some 2)) /\
  option_map container_spec (container_attributes_of [order; repr]) = Some (mkcspec (Some Le) None).
Proof. split; vm_compute; reflexivity. Qed.

(** [#[jbytes(bits_start = 4, byteorder = "LE", length = "len - 4", untake, linend = b"\r\n")]] *)
Definition some_entries : list entry :=
  [Property (txt "bits_start") (txt "4"); Property (txt "byteorder") (quoted (txt "LE"));
   Property (txt "length") (quoted (txt "len - 4")); Tag (txt "untake");
   Property (txt "linend") ("b"%byte :: quoted (txt "\r\n"))].
Example C50_case_says : forall m, exists gs, Forall2 (says m) some_entries gs /\
  forall f, fold_left (fun f g => g f) gs f =
    at_linend (m_literal m ("b"%byte :: quoted (txt "\r\n"))) (at_untake (at_length (m_number m (txt "len - 4"))
      (at_order (OConst Le) (at_bits_start (const 4) f)))).
Proof.
  intros m. eexists. split.
  - repeat apply Forall2_cons; [..|apply Forall2_nil].
    + apply says_bits_start; [left; reflexivity|]. apply denotes_number with (s := txt "4") (n := 4); [left; reflexivity| |reflexivity].
      left. change (txt "4") with [byte_of (48 + 4)]. constructor; [|lia]. left. left. split; [lia|reflexivity].
    + apply says_little with (s := txt "LE"); [left; reflexivity|reflexivity|left; reflexivity].
    + apply says_length; [left; reflexivity|]. apply denotes_expression; [|exact (proj1 (proj2 (proj2 (proj2 (proj2 (proj2 C48_case))))))].
      exact (proj1 (proj2 (proj2 (proj2 (proj2 (proj2 (proj2 C48_case))))))).
    + apply says_untake.
    + apply says_linend; [left; reflexivity|]. exists (txt "\r\n"). split; [reflexivity|]. split.
      * intros H. repeat (destruct H as [H|H]; [discriminate|]). destruct H.
      * intros t H. assert (X := f_equal (fun l => last l x00) H). cbv beta in X. rewrite last_last in X. discriminate.
  - intros f. reflexivity.
Qed.
Example C50_case_distinct : ForallOrdPairs distinct some_entries.
Proof.
  unfold some_entries.
  repeat constructor; cbn [distinct];
    repeat match goal with
    | |- ~ alias _ _ => intros [H|(l & I & A & B)];
        [discriminate|cbn [same_names In] in I; decompose [or] I; subst; try contradiction;
         unfold called in A, B; cbn in A, B; decompose [or] A; decompose [or] B; try contradiction; discriminate]
    | |- _ /\ _ => split
    | |- ~ (_ /\ _) => intros [U V]; unfold called in *; cbn in *; decompose [or] V; decompose [or] U; try contradiction; discriminate
    end.
  all: intros [U V]; discriminate.
Qed.
Example C50_case_unknown : attributes_of [jbytes_line [Tag (txt "untakes")]] = None /\ ~ known (Tag (txt "untakes")).
Proof.
  split; [vm_compute; reflexivity|]. cbn [known]. intros H. unfold called in H. cbn in H. decompose [or] H; try contradiction; discriminate.
Qed.

Print Assumptions C48_numbers.
Print Assumptions C48_expressions.
Print Assumptions C48_accepted.
Print Assumptions C48_lenient_refuted.
Print Assumptions C49_words.
Print Assumptions C49_no_panic.
Print Assumptions C49_parse.
Print Assumptions C49_parse_int.
Print Assumptions C49_expressions.
Print Assumptions C50_each.
Print Assumptions C50_all.
Print Assumptions C50_order.
Print Assumptions C50_unknown.
Print Assumptions C50_first_line.
Print Assumptions C50_other_lines.
Print Assumptions C50_second_line_refuted.
Print Assumptions C50_default_hides_refuted.
Print Assumptions C50_repr_hides_refuted.
