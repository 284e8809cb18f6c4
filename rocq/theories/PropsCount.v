(** C96: a truth value that is cast counts as 1 or 0. *)
From Coq Require Import Ascii String.
From Verif Require Import Base BaseLemmas Ints SpecOps Reader Writer Sugar TextSpec Text AttrParse AttrSpec AttrLemmas EnumTextSpec GenExpr GenExprSpec
  GenExprLemmas PropsExpr PropsAttr GenDecode GenEncode GenSpec PropsGen PropsGenEncode Source SourceSpec SourceLemmas PropsSource
  Decode Encode Spec Collections Containers NetLemmas PropsContainers WireSpec Examples FieldSpec PropsEnumSource
  MachineExpr MachineSpec MachineCountSpec PropsMachine PropsCondition MachineEncode MachineEncodeSpec Schema.
Close Scope string_scope.

Lemma eval_mentions {V} (A : arithmetic V) s s' e : (forall x, mentions x e -> s x = s' x) -> eval A s e = eval A s' e.
Proof. induction e as [n|x|e IH f|e IH t|o a IHa b IHb]; cbn [mentions eval]; intros H; rewrite ?IH, ?IHa, ?IHb; auto. Qed.

(** An expression with conditions that are cast has the value it has with 1 and 0 in their
    places, with overflow checks and without. *)
Theorem C96_counts : forall scope flags e e', fields_seen scope flags -> counts scope flags e e' ->
  forall checks, eval (machine_arithmetic checks) (seen scope flags) e = eval (machine_arithmetic checks) (seen scope flags) e'.
Proof.
  intros scope flags e e' FS C checks. induction C as [c c' b name t y _ IH D T S|e|e e' name _ IH|e e' f _ IH|o a a' b b' _ IHa _ IHb]; cbn [eval].
  - rewrite IH, (decides_value scope flags FS _ _ D checks). cbn [a_cast machine_arithmetic]. unfold machine_cast. rewrite (type_found _ _ T).
    unfold seen, at_machine. rewrite S. now destruct b.
  - reflexivity.
  - now rewrite IH.
  - now rewrite IH.
  - now rewrite IHa, IHb.
Qed.
(** So the number in an attribute is that of arithmetic. [scope'] has the fields in [scope]
    and those that stand for the conditions. *)
Theorem C96_number : forall scope scope' flags text e e' t z w, fields_seen scope' flags -> reads_as Disjunction text e ->
  (forall x, mentions x e -> scope' x = scope x) -> counts scope' flags e e' -> value scope' e' t z -> wraps_to Usize z w ->
  forall checks, code_value (machine_arithmetic checks) (seen scope flags) (var_code false text) = Some (Whole Usize w).
Proof.
  intros scope scope' flags text e e' t z w FS T M C V W checks. rewrite (C66_text _ _ _ _ _ (var_reads _ _ T)).
  rewrite (eval_mentions _ _ (seen scope' flags)) by (cbn [mentions]; intros x H; unfold seen, at_machine; now rewrite (M x H)).
  rewrite (C96_counts scope' flags _ (ECast e' (txt "usize")) FS) by now constructor.
  refine (eval_more _ _ _ _ _ (seen_more scope' flags) (proj1 (C90_exact scope' _ Usize w (proj1 FS) _ checks))).
  apply (va_cast scope' e' t z); [exact V|constructor|exact W].
Qed.
(** The condition of an attribute. *)
Theorem C96_condition : forall scope scope' flags text e e' c, fields_seen scope' flags -> reads_as Disjunction text e ->
  (forall x, mentions x e -> scope' x = scope x) -> counts scope' flags e e' -> decides scope' flags e' c ->
  forall checks, code_value (machine_arithmetic checks) (seen scope flags) text = Some (Truth c).
Proof.
  intros scope scope' flags text e e' c FS T M C D checks. rewrite (C66_text _ _ _ _ _ T).
  rewrite (eval_mentions _ _ (seen scope' flags)) by (intros x H; unfold seen, at_machine; now rewrite (M x H)).
  rewrite (C96_counts scope' flags e e' FS C). now apply decides_value.
Qed.
(** The number in an attribute of a derived decoder. *)
Theorem C96_field : forall types fields scope' text e e' t z w vars,
  let scope := integers_of int_type int_value fields in let flags := truths_of bool_type bool_value fields in
  (forall x u v, In (x, (u, v)) fields -> types x = Some u) -> fields_seen scope' flags -> (forall x, mentions x e -> scope' x = scope x) ->
  reads_as Disjunction text e -> counts scope' flags e e' -> value scope' e' t z -> wraps_to Usize z w ->
  machine_number types var_code (map fst fields) text (mkenv (map (fun f => snd (snd f)) fields) vars) = w.
Proof.
  intros types fields scope' text e e' t z w vars scope flags HT FS M T C V W. unfold machine_number. cbn [ev_fields].
  pose proof (C96_number scope scope' flags text e e' t z w FS T M C V W false) as N.
  rewrite (C66_text _ _ _ _ _ (var_reads _ _ T)) in N. rewrite (C66_text _ _ _ _ _ (var_reads _ _ T)).
  rewrite (eval_more (machine_arithmetic false) (seen scope flags) _ _ (Whole Usize w)); [reflexivity| |exact N].
  intros y v Hy. now rewrite (variables_seen types fields HT).
Qed.

(** [flag as usize * k] is [k] or 0. *)
Definition flag_times (k : bytes) : bytes := txt "flag as usize * " ++ k.
Definition flag_expr (n : N) : rexpr := EOp Times (ECast (EName (txt "flag")) (txt "usize")) (ENum n).
Lemma flag_name : a_name (txt "flag").
Proof.
  split; [|discriminate]. split; [left; vm_compute; split; discriminate|]. repeat (apply Forall_cons; [left; left; vm_compute; split; discriminate|]). apply Forall_nil.
Qed.
Lemma usize_name : a_name (txt "usize").
Proof.
  split; [|discriminate]. split; [left; vm_compute; split; discriminate|]. repeat (apply Forall_cons; [left; left; vm_compute; split; discriminate|]). apply Forall_nil.
Qed.
Lemma flag_reads k n : decimal_text k n -> reads_as Disjunction (flag_times k) (flag_expr n).
Proof.
  intros D. apply (whole Product). change (flag_times k) with ((txt "flag as usize" ++ [" "%byte]) ++ txt "*" ++ " "%byte :: k).
  apply (ra_operation _ _ _ _ _ "*" Product Product Cast sg_times).
  - apply ra_after, (loosen Product Cast); [cbn; lia|]. apply (ra_cast (txt "flag") _ (txt "usize")); [|exact usize_name].
    apply (loosen Cast Atom); [cbn; lia|]. apply ra_name, flag_name.
  - apply ra_before, (loosen Cast Atom); [cbn; lia|]. now apply ra_number.
Qed.
Definition flag_scope (b : bool) (x : bytes) : option (ity * Z) := if bytes_eqb x (txt "one") then Some (Usize, if b then 1%Z else 0%Z) else None.
Definition flag_types (x : bytes) : option ty := if bytes_eqb x (txt "flag") then Some TBool else None.
Theorem C96_times : forall types k n b vars, types (txt "flag") = Some TBool -> decimal_text k n -> n < 2 ^ 64 ->
  machine_number types var_code [txt "flag"] (flag_times k) (mkenv [VBool b] vars) = if b then Z.of_N n else 0%Z.
Proof.
  intros types k n b vars TF D L.
  assert (R : in_range Usize (Z.of_N n)) by (change (0 <= Z.of_N n <= 18446744073709551615)%Z; change (2 ^ 64) with 18446744073709551616 in L; lia).
  assert (R0 : in_range Usize (if b then Z.of_N n else 0)%Z) by (destruct b; [exact R|vm_compute; split; discriminate]).
  assert (R1 : in_range Usize (if b then 1 else 0)%Z) by (destruct b; vm_compute; split; discriminate).
  apply (C96_field types [(txt "flag", (TBool, VBool b))] (flag_scope b) (flag_times k) (flag_expr n) (EOp Times (EName (txt "one")) (ENum n)) Usize
           (if b then Z.of_N n else 0)%Z).
  - now intros x u v [[= <- <- <-]|[]].
  - split.
    + intros x t z. unfold flag_scope. destruct (bytes_eqb x _); [|discriminate]. now intros [= <- <-].
    + intros x. unfold flag_scope, truths_of. cbn [find fst]. destruct (bytes_eqb x (txt "one")) eqn:E; [|reflexivity]. apply bytes_eqb_eq in E. subst x. intros H. now elim H.
  - intros x [H|H]; [|destruct H]. cbn [mentions] in H. subst x. reflexivity.
  - now apply flag_reads.
  - apply cn_op; [|apply cn_same]. apply (cn_cast _ _ _ (EName (txt "flag")) b _ Usize); [apply cn_same|now apply de_flag|constructor|reflexivity].
  - replace (if b then Z.of_N n else 0)%Z with ((if b then 1 else 0) * Z.of_N n)%Z in * by (destruct b; lia).
    apply (va_op _ Times _ _ Usize (if b then 1 else 0)%Z (Z.of_N n)); [intros [(m & H) _]; discriminate|apply op_value; now constructor|now constructor|constructor|exact R0].
  - split; [exact R0|]. exists 0%Z. rewrite Z.mul_0_l, Z.add_0_r. reflexivity.
Qed.

(** ** A text that is there if a flag is set

    [struct Text { flag: bool, #[jbytes(length = "flag as usize * k")] body: Vec<u8> }] *)
Definition text_flag (k : bytes) (m : meaning) : source :=
  mksource [] [mksource_field (txt "flag") [] m TBool;
               mksource_field (txt "body") [jbytes_line [Property (txt "length") (quoted (flag_times k))]] m TBytes].
Definition text_flag_fields (number : (bool -> bytes -> bytes) -> list bytes -> bytes -> expr) (k : bytes) : list (fspec * ty) :=
  [(plain, TBool); (at_length (number var_code [txt "flag"] (flag_times k)) plain, TBytes)].
Lemma flag_literal k n : decimal_text k n -> string_literal (quoted (flag_times k)) (flag_times k).
Proof.
  intros (_ & D & _). assert (Q : forall c, In c (flag_times k) -> c <> byte_of 34 /\ c <> byte_of 92).
  { intros c H. apply in_app_iff in H as [H|H]; [vm_compute in H; vm_compute; intuition (subst; discriminate)|].
    rewrite Forall_forall in D. specialize (D c H). split; intros ->; vm_compute in D; destruct D; congruence. }
  split; [|intros H; now apply Q in H]. f_equal. symmetry. apply escaped_plain. intros H. now apply Q in H.
Qed.
Lemma text_flag_means number k n m : decimal_text k n -> fields_mean number [] (s_fields (text_flag k m)) (text_flag_fields number k).
Proof.
  intros D. unfold text_flag_fields, text_flag. cbn [s_fields].
  set (f := mksource_field (txt "flag") [] m TBool). set (g := mksource_field (txt "body") _ m TBytes).
  change (plain, TBool) with (fold_left (fun spec g => g spec) [] plain, s_type f). apply (fields_more number [] f [g] []).
  - now right.
  - intros (a & [] & _).
  - constructor.
  - easy.
  - change (at_length (number var_code [txt "flag"] (flag_times k)) plain, TBytes)
      with (fold_left (fun spec g => g spec) [at_length (number var_code [txt "flag"] (flag_times k))] plain, s_type g).
    apply (fields_more number _ g [] [Property (txt "length") (quoted (flag_times k))]).
    + apply this_line. now left.
    + apply no_default.
    + constructor; [|constructor]. apply says_length; [left; reflexivity|].
      change (number var_code [txt "flag"] (flag_times k)) with (m_number (field_meaning number [txt "flag"] g) (flag_times k)).
      apply denotes_expression; [now apply (flag_literal k n)|]. split; [vm_compute; intuition discriminate|discriminate].
    + intros k' lit [[= <- <-]|[]] K. vm_compute in K. intuition discriminate.
    + constructor.
Qed.
(** Whatever the numbers are taken from, if the number is right. *)
Lemma text_flag_goes number m k n b body rest : decimal_text k n -> size body < 2 ^ 64 ->
  (forall vars, number var_code [txt "flag"] (flag_times k) (mkenv [VBool b] vars) = Z.of_N (size body)) ->
  let w := (if b then byte_of 1 else byte_of 0) :: body in allocatable (w ++ rest) ->
  exists d, derived number (text_flag k m) = Some d /\ struct_compiles d [] = true /\ encoder_compiles d [] = true /\
    (exists j pos, run_encoder enc d no_cattr no_fattr [VBool b; VBytes body] buf_new = Ok j (mkbuf w pos)) /\
    run_struct dec d no_cattr (w ++ rest) 0 = Ok (VList [VBool b; VBytes body]) (size w).
Proof.
  intros D SU EN w AL. set (s := text_flag k m).
  assert (HC : exists es, first_line ["jbytes"; "repr"]%string (s_container s) es /\ Forall container_entry es /\ Forall own_codec es /\
     decided about_order es (c_order no_cspec) /\ decided about_width es (c_byte_count no_cspec)).
  { exists []. split; [right; split; [reflexivity|intros a []]|]. split; [constructor|]. split; [constructor|]. split; apply undecided; intros ? ? [].  }
  destruct (container_read _ _ HC) as (ca & EC & EO & ECC).
  destruct (fields_read number [] (s_fields s) _ (text_flag_means number k n m D)) as (fs & ER & ET & NN & EV).
  set (o := if container_used (s_container s) then Some (container_spec ca) else None) in *.
  exists (mkdecl true o (Some fs)). split; [unfold derived; fold s; now rewrite EC, ER, EO|].
  destruct (C65_compiles (mkdecl true o (Some fs)) fs [] eq_refl) as [KD P].
  { rewrite NN. cbn. repeat constructor; cbn; intuition discriminate. }
  { intros g Hg. apply (in_map n_name) in Hg. rewrite NN in Hg. destruct Hg as [<-|[<-|[]]]; vm_compute; intuition discriminate. }
  { intros _. exact EV. }
  { now left. }
  assert (KE : encoder_compiles (mkdecl true o (Some fs)) [] = true).
  { apply (C69_compiles (mkdecl true o (Some fs)) fs [] eq_refl). intros g Hg _. apply (in_map n_name) in Hg. rewrite NN in Hg.
    destruct Hg as [<-|[<-|[]]]; (split; [vm_compute; intuition discriminate|]; split; [discriminate|]).
    - exists "f"%byte, (txt "lag"). split; [reflexivity|]. change (Byte.to_N "f") with 102%N. lia.
    - exists "b"%byte, (txt "ody"). split; [reflexivity|]. change (Byte.to_N "b") with 98%N. lia. }
  split; [exact KD|]. split; [exact KE|].
  assert (T : TStruct (d_named (mkdecl true o (Some fs))) (GenDecode.container_of (mkdecl true o (Some fs))) (nameless fs) = TStruct true no_cspec (text_flag_fields number k)).
  { cbn [d_named]. rewrite ET. unfold GenDecode.container_of. cbn [d_container]. now rewrite ECC. }
  unfold text_flag_fields in T. set (N := number var_code [txt "flag"] (flag_times k)) in *.
  apply (C69_round_trip (mkdecl true o (Some fs)) fs [VBool b; VBytes body] w rest eq_refl KE KD P); rewrite ?T.
  - apply (f_equal (@length _)) in NN. rewrite !map_length in NN. symmetry. exact NN.
  - well.
  - cbn -[N app]. rewrite !app_nil_r. unfold w. now destruct b.
  - cbn -[N app N.eqb]. cbn [app]. rewrite EN, Bool.eqb_reflx, bytes_eqb_refl. unfold as_usize, raw_of_int. change (imod Usize) with (2 ^ 64)%Z.
    change (2 ^ 64) with 18446744073709551616 in SU. change (2 ^ 64)%Z with 18446744073709551616%Z. rewrite Z.mod_small by lia. rewrite N2Z.id, N.eqb_refl. reflexivity.
  - exact AL.
Qed.
Lemma lex_flag k n : decimal_text k n -> lex [] (flag_times k) = Some [TName (txt "flag"); TAs; TName (txt "usize"); TOp Times; TNum n].
Proof.
  intros D. pose proof (lex_number k n D) as L. destruct k as [|d k]; [destruct D as (H & _); now elim H|].
  assert (E : lex [] (flag_times (d :: k)) = match lex [] (d :: k) with Some ts => Some (TName (txt "flag") :: TAs :: TName (txt "usize") :: TOp Times :: ts) | None => None end).
  { remember (lex [] (d :: k)) as X eqn:EX. unfold flag_times. cbn [txt list_byte_of_string app].
    transitivity (flush (txt "flag") (then_tokens [] (flush (txt "as") (then_tokens [] (flush (txt "usize") (then_tokens [] (then_tokens [TOp Times] (then_tokens [] X)))))))); [|destruct X; reflexivity].
    subst X. reflexivity. }
  rewrite E, L. reflexivity.
Qed.
(** The text is written and read back if it has [k] bytes and the flag is set, or none and it
    is not. *)
Theorem C96_text : forall m k n (b : bool) body rest, decimal_text k n -> n < 2 ^ 64 -> size body = (if b then n else 0) ->
  let w := (if b then byte_of 1 else byte_of 0) :: body in allocatable (w ++ rest) ->
  exists d e, machine_decoder (text_flag k m) = Some d /\ machine_encoder (text_flag k m) [VBool b; VBytes body] = Some e /\
    struct_compiles d [] = true /\ encoder_compiles e [] = true /\
    (exists j pos, run_encoder enc e no_cattr no_fattr [VBool b; VBytes body] buf_new = Ok j (mkbuf w pos)) /\
    run_struct dec d no_cattr (w ++ rest) 0 = Ok (VList [VBool b; VBytes body]) (size w).
Proof.
  intros m k n b body rest D L SB w AL.
  assert (SU : size body < 2 ^ 64) by (rewrite SB; destruct b; [exact L|reflexivity]).
  assert (EZ : (if b then Z.of_N n else 0)%Z = Z.of_N (size body)) by (rewrite SB; now destruct b).
  assert (DN : forall vars, machine_number (types_of (text_flag k m)) var_code [txt "flag"] (flag_times k) (mkenv [VBool b] vars) = Z.of_N (size body)).
  { intros vars. rewrite (C96_times (types_of (text_flag k m)) k n b vars eq_refl D L). exact EZ. }
  destruct (text_flag_goes (machine_number (types_of (text_flag k m))) m k n b body rest D SU DN AL) as (d & Ed & Kd & _ & _ & Rd).
  destruct (text_flag_goes (fun code _ => machine_encoder_number (types_of (text_flag k m)) code [txt "flag"; txt "body"] [VBool b; VBytes body]) m k n b body rest D SU) as (e & Ee & _ & Ke & Re & _).
  { intros vars. unfold machine_encoder_number. change (members _ [txt "flag"; txt "body"] [VBool b; VBytes body]) with ([(txt "flag", Truth b)] ++ @nil (bytes * machine)).
    rewrite (C90_encoder false [(txt "flag", Truth b)] [] (fun _ => None) (flag_times k) (Whole Usize (Z.of_N (size body)))); [reflexivity|..].
    - repeat constructor; intros [].
    - split; [reflexivity|]. split; [|reflexivity]. cbn. intuition discriminate.
    - exists (txt "flag"), [TAs; TName (txt "usize"); TOp Times; TNum n]. split; [now apply lex_flag|]. split; [now left|]. intros y [].
    - specialize (DN []). unfold machine_number in DN. cbn [ev_fields] in DN. rewrite (C66_text _ _ _ _ _ (var_reads _ _ (flag_reads k n D))) in DN. rewrite (C66_text _ _ _ _ _ (var_reads _ _ (flag_reads k n D))).
      cbn [flag_expr eval a_num a_op a_cast machine_arithmetic] in *. unfold decoder_scope. cbn [find fst]. rewrite bytes_eqb_refl.
      change (variables _ [txt "flag"] [VBool b] (txt "flag")) with (Some (Truth b)) in DN. unfold machine_cast in *. change (integer_type (txt "usize")) with (Some Usize) in *.
      cbn iota beta in *. cbn [machine_op shifts divides andb] in *. rewrite andb_true_r in *. destruct (in_rangeb Usize (Z.of_N n)) eqn:E.
      + cbn [calculate] in *. unfold fitted in *. revert DN. destruct (in_rangeb Usize (Z.b2z b * Z.of_N n)) eqn:E2; intros DN; now rewrite DN.
      + exfalso. apply Bool.not_true_iff_false in E. apply E, in_rangeb_iff. change (0 <= Z.of_N n <= 18446744073709551615)%Z. change (2 ^ 64) with 18446744073709551616 in L. lia. }
  { exact AL. }
  exists d, e. auto 10.
Qed.

(** [(len > 4) as u8 + 1]: 2 for 9, 1 for 3. *)
Example C96_counts_case : let e := EOp Plus (ECast (EOp Greater (EName (txt "len")) (ENum 4)) (txt "u8")) (ENum 1) in
  let ev len := eval (machine_arithmetic true) (seen (only_len U16 len) (fun _ => None)) e in
  ev 9%Z = Some (Whole U8 2) /\ ev 3%Z = Some (Whole U8 1).
Proof. cbv zeta. split; vm_compute; reflexivity. Qed.
Definition len_and_one (len : Z) (x : bytes) : option (ity * Z) := if bytes_eqb x (txt "one") then Some (U8, 1%Z) else only_len U16 len x.
Example C96_number_case : let e := EOp Plus (ECast (EOp Greater (EName (txt "len")) (ENum 4)) (txt "u8")) (ENum 1) in
  let e' := EOp Plus (EName (txt "one")) (ENum 1) in
  fields_seen (len_and_one 9) (fun _ => None) /\ counts (len_and_one 9) (fun _ => None) e e' /\ value (len_and_one 9) e' U8 2 /\
  (forall x, mentions x e -> len_and_one 9 x = only_len U16 9 x).
Proof.
  cbv zeta. split; [|split; [|split]].
  - split; [|now intros]. intros x t z. unfold len_and_one, only_len. destruct (bytes_eqb x _); [intros [= <- <-]; vm_compute; split; discriminate|].
    destruct (bytes_eqb x _); [|discriminate]. intros [= <- <-]. vm_compute. split; discriminate.
  - apply cn_op; [|apply cn_same]. apply (cn_cast _ _ _ (EOp Greater (EName (txt "len")) (ENum 4)) true _ U8); [apply cn_same| |constructor|reflexivity].
    apply (de_true _ _ Greater _ _ _ U16 9 4 re_greater); [intros [(m & H) _]; discriminate| | |lia].
    + apply op_value. now constructor.
    + apply (op_number _ 4). vm_compute. split; discriminate.
  - apply (va_op _ Plus _ _ U8 1 1); [intros [(m & H) _]; discriminate|apply op_value; now constructor|apply (op_number _ 1); vm_compute; split; discriminate|constructor|vm_compute; split; discriminate].
  - intros x [[H|[]]|[]]. cbn [mentions] in H. now subst x.
Qed.
Example C96_times_case : decimal_text (txt "4") 4 /\ machine_number flag_types var_code [txt "flag"] (flag_times (txt "4")) (mkenv [VBool true] []) = 4%Z.
Proof. split; [exact four|]. now apply (C96_times flag_types (txt "4") 4 true [] eq_refl four). Qed.
Example C96_text_case m : forall rest, size rest < 1000 -> let w := byte_of 1 :: hex [5; 6; 7; 8] in
  exists d e, machine_decoder (text_flag (txt "4") m) = Some d /\ machine_encoder (text_flag (txt "4") m) [VBool true; VBytes (hex [5; 6; 7; 8])] = Some e /\
    (exists j pos, run_encoder enc e no_cattr no_fattr [VBool true; VBytes (hex [5; 6; 7; 8])] buf_new = Ok j (mkbuf w pos)) /\
    run_struct dec d no_cattr (w ++ rest) 0 = Ok (VList [VBool true; VBytes (hex [5; 6; 7; 8])]) 5.
Proof.
  intros rest L w. destruct (C96_text m (txt "4") 4 true (hex [5; 6; 7; 8]) rest four) as (d & e & Hd & He & _ & _ & W & R); [reflexivity|reflexivity| |].
  - unfold allocatable. assert (E : size ((byte_of 1 :: hex [5; 6; 7; 8]) ++ rest) = 5 + size rest) by (unfold size; rewrite app_length; cbn [length hex map]; lia). rewrite E. lia.
  - exists d, e. auto.
Qed.

Print Assumptions C96_counts.
Print Assumptions C96_number.
Print Assumptions C96_condition.
Print Assumptions C96_field.
Print Assumptions C96_times.
Print Assumptions C96_text.
