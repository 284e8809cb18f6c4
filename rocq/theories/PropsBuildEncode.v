(** C94: overflow checks in derived encoders, and the round trip in builds with them. *)
From Coq Require Import Ascii String.
From Verif Require VarSourceLemmas PropsMachineEncode.
From Verif Require Import Base BaseLemmas Ints SpecOps Reader Writer Sugar TextSpec Text AttrParse AttrSpec AttrLemmas PropsAttr EnumTextSpec GenExpr GenExprSpec
  GenExprLemmas PropsExpr GenDecode GenEncode GenSpec GenLemmas PropsGen Source SourceSpec SourceLemmas PropsSource
  Decode Encode Spec Collections Containers NetLemmas PropsContainers WireSpec Examples FieldSpec PropsEnumSource MachineExpr MachineSpec MachineEncode MachineEncodeSpec PropsMachine PropsCondition
  MachineBuild MachineBuildSpec PropsBuild PropsBuildExact MachineBuildEncode MachineBuildEncodeSpec Schema.
Close Scope string_scope.

(** ** Statements *)
Definition estep (g h : bool * estmt) : Prop := fst g = true \/ fst g = false /\ fst h = false /\ snd g = snd h.
Lemma esame ety l r : Forall2 estep l r -> forall st b, run_eguarded ety l st b = Panic \/ run_eguarded ety l st b = run_eguarded ety r st b.
Proof.
  induction 1 as [|[g c] [h d] l r E H IH]; intros st b; [now right|]. cbn [run_eguarded]. destruct E as [G|(G & G' & S)]; cbn [fst snd] in *; rewrite G; [now left|].
  rewrite G', S. unfold wbind. destruct (run_estmt ety d st b) as [st' b'| | |]; try (now right). apply IH.
Qed.
Lemma etrack ety l r : Forall2 estep l r -> forall st b st' b', run_eguarded ety r st b = Ok st' b' ->
  run_eguarded ety l st b = Ok st' b' /\ (forall g, In g l -> fst g = false) \/ run_eguarded ety l st b = Panic /\ exists g, In g l /\ fst g = true.
Proof.
  induction 1 as [|[g c] [h d] l r E H IH]; intros st b st' b' R; [left; split; [exact R|intros g []]|]. cbn [run_eguarded] in *. destruct E as [G|(G & G' & S)]; cbn [fst snd] in *.
  - right. subst g. split; [reflexivity|]. exists (true, c). split; [now left|reflexivity].
  - subst g h c. unfold wbind in *. destruct (run_estmt ety d st b) as [st1 b1| | |]; try discriminate.
    destruct (IH _ _ _ _ R) as [[R' F]|(R' & g' & I & F)]; [left; split; [exact R'|]|right; split; [exact R'|]].
    + intros g' [<-|I]; [reflexivity|now apply F].
    + exists g'. split; [now right|exact F].
Qed.
Lemma eunguarded ety l : (forall g, In g l -> fst g = false) -> forall st b, run_eguarded ety l st b = run_estmts ety (map snd l) st b.
Proof.
  induction l as [|[g c] l IH]; intros H st b; [reflexivity|]. cbn [run_eguarded map run_estmts snd].
  pose proof (H (g, c) (or_introl eq_refl)) as E. cbn [fst] in E. rewrite E. unfold wbind. destruct (run_estmt ety c st b); try reflexivity.
  apply IH. intros g' I. apply H. now right.
Qed.

(** ** Which entry a text comes from *)
Lemma slots_offset : forallb (fun p => implb (slot_beq (snd (snd p)) SOffset) (String.eqb (fst p) "offset") && implb (String.eqb (fst p) "offset") (slot_beq (snd (snd p)) SOffset)) field_properties = true.
Proof. vm_compute. reflexivity. Qed.
Section Entries.
Context (m : meaning) (l : list entry) (gs : list (fspec -> fspec)) (fa : field_attributes).
Context (S : Forall2 (says m) l gs) (P : attributes_of [jbytes_line l] = Some fa).
Lemma text_of_number s t : In s number_slots -> In t (texts fa [s]) ->
  exists k lit, In (Property k lit) l /\ string_literal lit t /\ called k number_keys /\ expression t /\ (is_offset (Property k lit) -> s = SOffset).
Proof.
  intros HS H. pose proof (proj1 (forallb_forall _ _) slots_properties) as SP.
  apply text_from in H. destruct (content_from _ _ _ _ P H ltac:(discriminate)) as (x & rk & lit & I & J & E).
  specialize (SP _ J). cbn [fst snd] in SP. rewrite !andb_true_iff in SP. destruct SP as [[[SP _] _] _].
  assert (X : existsb (slot_beq s) number_slots = true) by (apply existsb_exists; exists s; split; [exact HS|apply slot_beq_refl]).
  rewrite X in SP. cbn [implb] in SP. apply andb_true_iff in SP as [SX SR]. apply existsb_exists in SX as (y & SX & EY). apply String.eqb_eq in EY. subst y.
  destruct rk; try discriminate SR. injection E as E. symmetry in E.
  assert (K : called (txt x) number_keys) by (apply in_map_iff; exists x; now split).
  destruct (said m l gs S _ I) as (g & SG). destruct (says_number _ _ _ _ SG K) as (e & D). destruct D as [lit s0 n0 Q W L|lit s0 SL X0].
  { rewrite (parse_number _ _ _ Q W L) in E. discriminate. }
  rewrite (parse_expression _ _ SL X0) in E. injection E as ->. exists (txt x), lit. repeat (split; [assumption|]). intros [Y|[]].
  apply (f_equal string_of_list_byte) in Y. rewrite !string_of_list_byte_of_string in Y. subst x.
  pose proof (proj1 (forallb_forall _ _) slots_offset _ J) as SO. cbn [fst snd] in SO. apply andb_true_iff in SO as [_ SO]. cbn in SO. now apply internal_slot_dec_bl.
Qed.
Lemma text_of_order t : In t (texts fa [SByteorder]) ->
  exists k lit, In (Property k lit) l /\ string_literal lit t /\ called k ["byteorder"%string] /\ ~ called t ["BE"; ">"; "0"; "LE"; "<"; "1"]%string.
Proof.
  intros H. pose proof (proj1 (forallb_forall _ _) slots_properties) as SP. apply text_from in H.
  destruct (content_from _ _ _ _ P H ltac:(discriminate)) as (x & rk & lit & I & J & E).
  specialize (SP _ J). cbn [fst snd] in SP. rewrite !andb_true_iff in SP. destruct SP as [[[_ SP] _] _]. rewrite slot_beq_refl in SP.
  apply andb_true_iff in SP as [SX SR]. apply String.eqb_eq in SX. subst x. destruct rk; try discriminate SR. injection E as E. symmetry in E.
  destruct (said m l gs S _ I) as (g & SG). assert (K : called (txt "byteorder") ["byteorder"%string]) by now left.
  destruct (says_byteorder _ _ _ _ _ SG K E) as [SL NW]. exists (txt "byteorder"), lit. auto.
Qed.
Context (D : ForallOrdPairs AttrSpec.distinct l).
Lemma offset_stands k lit text x : In (Property k lit) l -> called k number_keys -> string_literal lit text -> expression text -> reads_as Disjunction text x ->
  exists s, In s number_slots /\ In text (texts fa [s]) /\ (s = SOffset -> is_offset (Property k lit)).
Proof.
  intros I K SL X R. pose proof P as P'. rewrite line_parsed in P'. unfold called in K. apply in_map_iff in K as (y & <- & K).
  pose proof (proj1 (forallb_forall _ _) number_property y K) as N. cbv beta in N. destruct (assoc (txt y) field_properties) as [[[] s]|] eqn:A; try discriminate.
  apply existsb_exists in N as (s' & N & E). apply internal_slot_dec_bl in E. subst s'. exists s. split; [exact N|]. split.
  - pose proof (entry_stands _ _ _ _ _ _ _ D P' I A) as M. cbn [read_literal] in M. rewrite (parse_expression _ _ SL X) in M. unfold texts. cbn [flat_map]. rewrite M. now left.
  - intros ->. apply assoc_in in A as (z & A & Z). apply (f_equal string_of_list_byte) in Z. rewrite !string_of_list_byte_of_string in Z. subst z.
    pose proof (proj1 (forallb_forall _ _) slots_offset _ A) as SO. cbn [fst snd] in SO. apply andb_true_iff in SO as [SO _]. rewrite slot_beq_refl in SO. cbn [implb] in SO.
    apply String.eqb_eq in SO. subst y. left. reflexivity.
Qed.
(** The padding is written. *)
Lemma tag_given x s : assoc (txt x) field_tags = Some s -> (forall y, In (y, s) field_tags -> y = x) -> negb (existsb (fun p => slot_beq s (snd (snd p))) field_properties) = true -> s <> SBitsStart ->
  ((exists y, In (Tag y) l /\ y = txt x) <-> given_flag (member fa s) = true).
Proof.
  intros A U NP NB. pose proof P as P'. rewrite line_parsed in P'. split.
  - intros (y & I & ->). destruct (member fa s) as [c|] eqn:M; [reflexivity|]. exfalso. apply (entry_set _ _ _ s _ [(s, Flag)] P' I); [cbn [effects]; now rewrite A|now left|exact M].
  - destruct (member fa s) as [c|] eqn:M; [|discriminate]. intros _. destruct (member_from _ _ _ _ _ P' M) as [X|(e & ef & I & E & J)]; [discriminate X|].
    assert (J' : In s (map fst ef)) by (apply in_map_iff; exists (s, c); now split). destruct e as [i|k lit].
    + destruct (tag_slots _ _ _ E J') as (y & B & ->). exists (txt y). split; [exact I|]. now rewrite (U y B).
    + exfalso. apply negb_true_iff in NP. destruct (property_slots _ _ _ _ E J') as [[-> _]|(y & rk & B & _)]; [now apply NB|].
      rewrite (proj2 (existsb_exists _ _)) in NP; [discriminate|]. exists (y, (rk, s)). split; [exact B|]. apply slot_beq_refl.
Qed.
Ltac one_tag := intros y J; vm_compute in J; repeat (destruct J as [J|J]; [first [discriminate J|now injection J as <-]|]); destruct J.
Lemma padded_iff m' : padded l <-> f_skip_encode (field_spec m' fa) = false /\ (f_bits (field_spec m' fa) = None -> f_untake (field_spec m' fa) = false).
Proof.
  unfold field_spec. cbn [f_skip_encode f_bits f_untake].
  pose proof (tag_given "skip" SSkip eq_refl ltac:(one_tag) eq_refl ltac:(discriminate)) as T1.
  pose proof (tag_given "skip_encode" SSkipEncode eq_refl ltac:(one_tag) eq_refl ltac:(discriminate)) as T2.
  pose proof (tag_given "untake" SUntake eq_refl ltac:(one_tag) eq_refl ltac:(discriminate)) as T3.
  assert (B : (exists k lit, In (Property k lit) l /\ called k ["bits"; "bits_start"]%string) <-> number_code m' (member fa SBits) <> None).
  { split.
    - intros (k & lit & I & K). pose proof P as P'. rewrite line_parsed in P'.
      assert (A : assoc k field_properties = Some (RUsize, SBits)) by (unfold called in K; cbn [map In] in K; destruct K as [<-|[<-|[]]]; reflexivity).
      rewrite (entry_stands _ _ _ _ _ _ _ D P' I A). cbn [read_literal]. destruct (said m l gs S _ I) as (g & SG).
      assert (K' : called k number_keys) by (unfold called in K; cbn [map In] in K; destruct K as [<-|[<-|[]]]; vm_compute; tauto).
      destruct (says_number _ _ _ _ SG K') as (e & DE). destruct DE as [lit s0 n0 Q W L|lit s0 SL X0]; [rewrite (parse_number _ _ _ Q W L)|rewrite (parse_expression _ _ SL X0)]; discriminate.
    - destruct (member fa SBits) as [c|] eqn:M; [|intros H; now elim H]. intros H. assert (F : c <> Flag) by (intros ->; now apply H).
      destruct (content_from _ _ _ _ P M F) as (x & rk & lit & I & J & _). exists (txt x), lit. split; [exact I|]. clear - J.
      cbn in J. repeat (destruct J as [J|J]; [first [discriminate J|injection J as <- _; cbn; tauto]|]). destruct J. }
  unfold padded. rewrite B. assert (Q : forall x, (forall y, In (Tag y) l -> ~ called y [x]) <-> ~ exists y, In (Tag y) l /\ y = txt x).
  { intros x. split; [intros H (y & I & ->); apply (H _ I); left; reflexivity|]. intros H y I [<-|[]]. apply H. eexists. split; [exact I|reflexivity]. }
  assert (Q2 : (forall x, In (Tag x) l -> ~ called x ["skip"; "skip_encode"]%string) <-> given_flag (member fa SSkip) || given_flag (member fa SSkipEncode) = false).
  { rewrite orb_false_iff, <- !not_true_iff_false, <- T1, <- T2. split.
    - intros H. split; intros (y & I & ->); apply (H _ I); cbn; tauto.
    - intros [H K] y I [<-|[<-|[]]]; [apply H|apply K]; eexists; (split; [exact I|reflexivity]). }
  rewrite Q2, (Q "untake"%string), T3, not_true_iff_false. destruct (number_code m' (member fa SBits)); [|split; intros [H K]; (split; [exact H|])].
  - split; intros [H K]; (split; [exact H|]); [discriminate|left; discriminate].
  - intros _. destruct K as [K|K]; [now elim K|exact K].
  - right. now apply K.
Qed.
End Entries.

(** ** Expressions *)
Lemma order_codes_agree checks before after text v : NoDup (map fst (before ++ after)) -> apart (before ++ after) (fun _ => None) ->
  one_field_first (map fst (before ++ after)) text ->
  code_value (machine_arithmetic checks) (decoder_scope before (fun _ => None)) (GenExpr.order_code false text) = Some v ->
  code_value (machine_arithmetic checks) (encoder_scope (Members (before ++ after)) (fun _ => None)) (GenExpr.order_code true text) = Some v.
Proof.
  intros ND AP O H.
  assert (S : struct_value (machine_arithmetic checks) (before ++ after) (Members (before ++ after))).
  { constructor; [exact ND| | |reflexivity]; cbn [a_get machine_arithmetic machine_get].
    - intros x u Hi. now rewrite (find_in _ x u ND Hi).
    - intros x Hx. now rewrite (find_not _ x Hx). }
  destruct (C66_byteorder machine (machine_arithmetic checks) before after _ (fun _ => None) text v S AP H) as [[_ Z]|[Z _]]; [exact Z|contradiction].
Qed.
Section Values.
Context (s : source) (vs : list val).
Let names := map s_name (s_fields s).
Context (D : NoDup names) (FI : PropsMachineEncode.fitting s vs) (N : ~ In (txt "self") names).
Lemma before_names i : map fst (fields_before s vs i) = firstn i names.
Proof.
  unfold fields_before, names. rewrite map_map. cbn [fst]. pose proof FI as X. unfold PropsMachineEncode.fitting in X. clear - X. revert i.
  induction X as [|f v fs ws H X IH]; intros [|i]; try reflexivity. cbn [combine firstn map]. now rewrite IH.
Qed.
Lemma before_values i : map (fun f => snd (snd f)) (fields_before s vs i) = firstn i vs.
Proof.
  unfold fields_before. rewrite map_map. cbn [snd]. pose proof FI as X. unfold PropsMachineEncode.fitting in X. clear - X. revert i.
  induction X as [|f v fs ws H X IH]; intros [|i]; try reflexivity. cbn [combine firstn map]. now rewrite IH.
Qed.
Lemma before_in i x u v : In (x, (u, v)) (fields_before s vs i) -> types_of s x = Some u /\ holds u v.
Proof.
  unfold fields_before. intros I. apply in_map_iff in I as ([f w] & [= <- <- <-] & I). assert (J : In (f, w) (combine (s_fields s) vs)).
  { rewrite <- (firstn_skipn i). apply in_app_iff. now left. }
  split; [apply PropsMachineEncode.type_found; [exact D|]; now apply in_combine_l in J|]. pose proof FI as X. unfold PropsMachineEncode.fitting in X. clear - X J.
  induction X as [|g y fs ws H X IH]; [easy|]. destruct J as [[= <- <-]|J]; [exact H|now apply IH].
Qed.
Lemma encoder_value code k text x u i : (code = var_code /\ k = Disjunction \/ code = GenExpr.order_code /\ k = Cast) -> reads_as k text x ->
  has_type (integer_field (map (fun f => (fst f, fst (snd f))) (fields_before s vs i))) x u -> one_field_first (calculable_fields s) text ->
  ((exists t z w, value (number_in (fields_before s vs i)) x u z /\ forall checks, encoder_code checks (types_of s) code names vs text = Some (Whole t w)) \/
   (forall z, ~ value (number_in (fields_before s vs i)) x u z) /\ encoder_code true (types_of s) code names vs text = Some Panicked) /\
  (~ has_division x -> encoder_panics false (types_of s) code names vs text = false).
Proof.
  intros C T H O. set (fields := fields_before s vs i) in *.
  assert (HT : forall x u v, In (x, (u, v)) fields -> types_of s x = Some u) by (intros y t v I; now apply (before_in i) in I).
  assert (HV : forall x u v, In (x, (u, v)) fields -> holds u v) by (intros y t v I; now apply (before_in i) in I).
  destruct (scope_values fields HV) as (ST & _ & _).
  assert (E : forall checks v, eval (machine_arithmetic checks) (at_machine (number_in fields)) x = Some v ->
            eval (machine_arithmetic checks) (decoder_scope (members (types_of s) (firstn i names) (firstn i vs)) (fun _ => None)) x = Some v).
  { intros checks v. apply eval_more. intros y w Hy. apply (PropsMachineEncode.members_scope s vs D FI). fold names. rewrite <- before_names, <- before_values. fold fields.
    rewrite (scope_is (types_of s) fields HT). now apply seen_more. }
  assert (AG : forall checks v, code_value (machine_arithmetic checks) (decoder_scope (members (types_of s) (firstn i names) (firstn i vs)) (fun _ => None)) (code false text) = Some v ->
             encoder_code checks (types_of s) code names vs text = Some v).
  { intros checks v HE. unfold encoder_code. rewrite (PropsMachineEncode.members_split _ names vs i).
    assert (M : map fst (members (types_of s) (firstn i names) (firstn i vs) ++ members (types_of s) (skipn i names) (skipn i vs)) = calculable_fields s).
    { rewrite <- PropsMachineEncode.members_split. exact (PropsMachineEncode.members_names s vs D FI). }
    assert (ND : NoDup (map fst (members (types_of s) (firstn i names) (firstn i vs) ++ members (types_of s) (skipn i names) (skipn i vs)))).
    { rewrite M. unfold calculable_fields. now apply PropsMachineEncode.no_dup_filter. }
    assert (AP : apart (members (types_of s) (firstn i names) (firstn i vs) ++ members (types_of s) (skipn i names) (skipn i vs)) (fun _ => None)).
    { rewrite <- PropsMachineEncode.members_split. now apply PropsMachineEncode.apart_members. }
    rewrite <- M in O. destruct C as [[-> _]|[-> _]]; [now apply C90_encoder|now apply order_codes_agree]. }
  assert (CV : exists name t, type_name name t /\ forall checks sc, code_value (machine_arithmetic checks) sc (code false text) = eval (machine_arithmetic checks) sc (ECast x name)).
  { destruct C as [[-> ->]|[-> ->]].
    - exists (txt "usize"), Usize. split; [constructor|]. intros. now rewrite (C66_text _ _ _ _ _ (var_reads _ _ T)).
    - exists (txt "isize"), Isize. split; [constructor|]. intros. now rewrite (C66_text _ _ _ _ _ (order_reads _ _ T)). }
  destruct CV as (name & t & TN & CV). split; cycle 1.
  { intros ND. destruct (C90_unchecked _ _ _ _ ST H) as (v & EV & [(z & -> & _)|[_ HD]]); [|contradiction]. unfold encoder_panics.
    rewrite (AG false (Whole t (cast t z))); [reflexivity|]. rewrite CV. cbn [eval]. rewrite (E false _ EV). cbn [a_cast machine_arithmetic]. unfold machine_cast. now rewrite (PropsMachine.type_found _ _ TN). }
  destruct (C90_checked _ _ _ _ ST H) as [(z & V & _)|[NV EV]].
  - left. exists t, z, (cast t z). split; [exact V|]. intros checks. apply AG. rewrite CV. cbn [eval].
    rewrite (E checks _ (proj1 (C90_exact _ _ _ _ (proj2 ST) V checks))). cbn [a_cast machine_arithmetic]. unfold machine_cast. now rewrite (PropsMachine.type_found _ _ TN).
  - right. split; [intros z; apply NV|]. apply AG. rewrite CV. cbn [eval]. rewrite (E true _ EV). cbn [a_cast machine_arithmetic]. unfold machine_cast. now rewrite (PropsMachine.type_found _ _ TN).
Qed.
Lemma encoder_same code k text x u i : (code = var_code /\ k = Disjunction \/ code = GenExpr.order_code /\ k = Cast) -> reads_as k text x ->
  has_type (integer_field (map (fun f => (fst f, fst (snd f))) (fields_before s vs i))) x u -> one_field_first (calculable_fields s) text ->
  (encoder_panics true (types_of s) code names vs text = false <-> exists z, value (number_in (fields_before s vs i)) x u z) /\
  (encoder_panics true (types_of s) code names vs text = false ->
   encoder_panics false (types_of s) code names vs text = false /\
   build_encoder_number true (types_of s) code names vs text = build_encoder_number false (types_of s) code names vs text).
Proof.
  intros C T H O. unfold encoder_panics, build_encoder_number. destruct (proj1 (encoder_value code k text x u i C T H O)) as [(t & z & w & V & E)|[NV E]]; rewrite ?E.
  - split; [split; [intros _; now exists z|reflexivity]|]. intros _. split; reflexivity.
  - split; [split; [discriminate|intros (z & V); elim (NV z V)]|discriminate].
Qed.
End Values.

(** ** Fields *)
Definition set_slots : list slot := [SBranch; SLength; SCount; STryCount; SBits; SByteCount; SByteCountOutside].
Lemma existsb_texts p fa l : existsb p (texts fa l) = false <-> forall s t, In s l -> In t (texts fa [s]) -> p t = false.
Proof.
  split.
  - intros E s t I J. destruct (p t) eqn:X; [|reflexivity]. rewrite <- E. symmetry. apply existsb_exists. exists t. split; [|exact X].
    unfold texts in *. cbn [flat_map] in J. rewrite app_nil_r in J. apply in_flat_map. now exists s.
  - intros H. destruct (existsb p (texts fa l)) eqn:E; [|reflexivity]. apply existsb_exists in E as (t & I & X). unfold texts in I. apply in_flat_map in I as (s & I & J).
    rewrite <- X. apply (H s); [exact I|]. unfold texts. cbn [flat_map]. now rewrite app_nil_r.
Qed.
Section Field.
Context (s : source) (vs : list val).
Let names := map s_name (s_fields s).
Context (D : NoDup names) (FI : PropsMachineEncode.fitting s vs) (NS : ~ In (txt "self") names).
Context (i : nat) (Q QC : rexpr -> Prop) (fa : field_attributes) (m : meaning) (vars : list (nat * N)).
Let F := map (fun f => (fst f, fst (snd f))) (fields_before s vs i).
Context (AT : attributes_typed (integer_field F) (flag_field F) Q QC fa).
Context (OF : forall x t, In t (texts fa [x]) -> In x number_slots \/ x = SByteorder -> one_field_first (calculable_fields s) t).
Definition emeaning (checks : bool) : meaning :=
  with_numbers (build_encoder_number checks (types_of s) var_code names vs) (build_encoder_number checks (types_of s) GenExpr.order_code names vs) m.
Let p checks code := encoder_panics checks (types_of s) code names vs.
Let G (checks : bool) (c : estmt) : bool * estmt := (estmt_panics checks (types_of s) names vs fa c, c).
Lemma number_text x t : In x number_slots -> In t (texts fa [x]) -> p true var_code t = false ->
  p false var_code t = false /\ build_encoder_number true (types_of s) var_code names vs t = build_encoder_number false (types_of s) var_code names vs t.
Proof.
  intros HX I E. destruct (at_numbers _ _ _ _ _ AT x t HX I) as (e & u & T & H & _).
  exact (proj2 (encoder_same s vs D FI NS var_code Disjunction t e u i (or_introl (conj eq_refl eq_refl)) T H (OF x t I (or_introl HX))) E).
Qed.
Lemma order_text t : In t (texts fa [SByteorder]) -> p true GenExpr.order_code t = false ->
  p false GenExpr.order_code t = false /\ build_encoder_number true (types_of s) GenExpr.order_code names vs t = build_encoder_number false (types_of s) GenExpr.order_code names vs t.
Proof.
  intros I E. destruct (at_byteorder _ _ _ _ _ AT t I) as (e & u & T & H & _).
  exact (proj2 (encoder_same s vs D FI NS GenExpr.order_code Cast t e u i (or_intror (conj eq_refl eq_refl)) T H (OF _ t I (or_intror eq_refl))) E).
Qed.
Lemma number_slot x l : In x number_slots -> In x l -> existsb (p true var_code) (texts fa l) = false ->
  number_code (emeaning true) (member fa x) = number_code (emeaning false) (member fa x).
Proof.
  intros HX L E. destruct (member fa x) as [[|[]|]|] eqn:X; try reflexivity. cbn [number_code emeaning with_numbers m_number].
  assert (I : In s0 (texts fa [x])) by (unfold texts; cbn [flat_map]; rewrite X; now left).
  f_equal. apply (number_text x); [exact HX|exact I|]. exact (proj1 (existsb_texts _ _ _) E x s0 L I).
Qed.
Lemma numbers_false l : incl l number_slots -> existsb (p true var_code) (texts fa l) = false -> existsb (p false var_code) (texts fa l) = false.
Proof. intros L E. apply existsb_texts. intros x t I J. apply (number_text x); [now apply L|exact J|]. exact (proj1 (existsb_texts _ _ _) E x t I J). Qed.
Lemma set_same : estmt_panics true (types_of s) names vs fa (SetFattr (fun _ => None)) = false ->
  estmt_panics false (types_of s) names vs fa (SetFattr (fun _ => None)) = false /\
  modifiers (field_spec (emeaning true) fa) = modifiers (field_spec (emeaning false) fa).
Proof.
  unfold estmt_panics. rewrite orb_false_iff. intros [O E]. fold (p true GenExpr.order_code) in O. fold (p true var_code) in E. split.
  - apply orb_false_iff. split; [|apply numbers_false; [|exact E]; intros x I; cbn in *; tauto].
    apply existsb_texts. intros x t [<-|[]] J. apply order_text; [exact J|]. exact (proj1 (existsb_texts _ _ _) O SByteorder t (or_introl eq_refl) J).
  - assert (X : forall x, In x set_slots -> number_code (emeaning true) (member fa x) = number_code (emeaning false) (member fa x)).
    { intros x I. apply (number_slot x set_slots); [cbn in *; tauto|exact I|exact E]. }
    assert (Y : AttrParse.order_code (emeaning true) (member fa SByteorder) = AttrParse.order_code (emeaning false) (member fa SByteorder)).
    { destruct (member fa SByteorder) as [[|[]|]|] eqn:M; try reflexivity. cbn [AttrParse.order_code emeaning with_numbers m_order].
      assert (I : In s0 (texts fa [SByteorder])) by (unfold texts; cbn [flat_map]; rewrite M; now left).
      f_equal. f_equal. apply order_text; [exact I|]. exact (proj1 (existsb_texts _ _ _) O SByteorder s0 (or_introl eq_refl) I). }
    unfold modifiers, field_spec. cbn [f_use f_order f_length f_linend f_bits f_bits_start f_byte_count f_remaining f_count f_try_count f_byte_count_outside f_key f_split f_branch f_loop].
    rewrite Y, (X SLength), (X SBits), (X SByteCount), (X SCount), (X STryCount), (X SByteCountOutside), (X SBranch) by (cbn; tauto). reflexivity.
Qed.
Lemma same_estmts l : (forall c checks, In c l -> estmt_panics checks (types_of s) names vs fa c = false) -> Forall2 estep (map (G true) l) (map (G false) l).
Proof.
  induction l as [|c l IH]; intros H; [constructor|]. cbn [map]. constructor; [|apply IH; intros; apply H; now right].
  right. unfold G. cbn [fst snd]. rewrite !H by now left. auto.
Qed.
Lemma padding_same en : Forall2 estep (map (G true) (gen_padding en (field_spec (emeaning true) fa))) (map (G false) (gen_padding en (field_spec (emeaning false) fa))).
Proof.
  unfold gen_padding. change (f_full (field_spec (emeaning true) fa)) with (f_full (field_spec (emeaning false) fa)).
  assert (B : f_offset (field_spec (emeaning true) fa) = None <-> f_offset (field_spec (emeaning false) fa) = None).
  { unfold field_spec. cbn [f_offset]. destruct (member fa SOffset) as [[|[]|]|]; cbn; (tauto || (split; discriminate)). }
  destruct (existsb (p true var_code) (texts fa [SOffset])) eqn:E.
  - destruct (f_offset (field_spec (emeaning true) fa)) as [e|] eqn:E1, (f_offset (field_spec (emeaning false) fa)) as [e'|] eqn:E2.
    + constructor; [|constructor]. left. exact E.
    + destruct B as [_ B]. specialize (B eq_refl). discriminate.
    + destruct B as [B _]. specialize (B eq_refl). discriminate.
    + constructor.
  - assert (X : f_offset (field_spec (emeaning true) fa) = f_offset (field_spec (emeaning false) fa)).
    { unfold field_spec. cbn [f_offset]. apply (number_slot SOffset [SOffset]); [cbn; tauto|now left|exact E]. }
    rewrite X. destruct (f_offset (field_spec (emeaning false) fa)); [|constructor]. constructor; [|constructor]. right. unfold G. cbn [fst snd estmt_panics].
    split; [exact E|]. split; [|reflexivity]. apply numbers_false; [|exact E]. intros x I. cbn in *; tauto.
Qed.
Lemma field_esame name u : Forall2 estep (map (G true) (gen_struct vars i [mkfield name (field_spec (emeaning true) fa) u]))
  (map (G false) (gen_struct vars i [mkfield name (field_spec (emeaning false) fa) u])).
Proof.
  cbn [gen_struct n_spec n_name n_type map]. rewrite !app_nil_r. constructor.
  - unfold estep, G. cbn [fst snd]. destruct (estmt_panics true (types_of s) names vs fa (SetFattr (fun st => modifiers (field_spec (emeaning true) fa) (sees_self i vars st)))) eqn:E; [now left|right].
    destruct (set_same E) as [E' ->]. auto.
  - unfold gen_efield. change (f_with_encode (field_spec (emeaning true) fa)) with (f_with_encode (field_spec (emeaning false) fa)).
    destruct (f_with_encode _); [apply same_estmts; now intros c checks [<-|[]]|].
    change (f_skip_encode (field_spec (emeaning true) fa)) with (f_skip_encode (field_spec (emeaning false) fa)). destruct (f_skip_encode _); [constructor|].
    change (f_from_str (field_spec (emeaning true) fa)) with (f_from_str (field_spec (emeaning false) fa)).
    change (f_untake (field_spec (emeaning true) fa)) with (f_untake (field_spec (emeaning false) fa)).
    change (f_value_encode (field_spec (emeaning true) fa)) with (f_value_encode (field_spec (emeaning false) fa)).
    rewrite !map_app. apply Forall2_app; [destruct (f_from_str _) as [[? ?]|]; [apply same_estmts; now intros c checks [<-|[]]|constructor]|].
    assert (R : Forall2 estep
      (map (G true) (gen_padding (sees_self i vars) (field_spec (emeaning true) fa) ++ match f_value_encode (field_spec (emeaning false) fa) with
        | Some g => [LetField name i (OnSelf i); LetChanged name i (fun st => g (sees_self i vars st)); WriteField (Changed name) i u] | None => [WriteField (OnSelf i) i u] end))
      (map (G false) (gen_padding (sees_self i vars) (field_spec (emeaning false) fa) ++ match f_value_encode (field_spec (emeaning false) fa) with
        | Some g => [LetField name i (OnSelf i); LetChanged name i (fun st => g (sees_self i vars st)); WriteField (Changed name) i u] | None => [WriteField (OnSelf i) i u] end))).
    { rewrite !map_app. apply Forall2_app; [apply padding_same|]. apply same_estmts. intros c checks I.
      destruct (f_value_encode _); [destruct I as [<-|[<-|[<-|[]]]]|destruct I as [<-|[]]]; reflexivity. }
    revert R. change (f_bits (field_spec (emeaning true) fa)) with (number_code (emeaning true) (member fa SBits)). change (f_bits (field_spec (emeaning false) fa)) with (number_code (emeaning false) (member fa SBits)).
    intros R. destruct (member fa SBits) as [[|[]|]|]; cbn [number_code]; try exact R; destruct (f_untake _); try exact R; constructor.
Qed.
Lemma field_eplain c : (forall x, Q x -> ~ has_division x) -> estmt_panics false (types_of s) names vs fa c = false.
Proof.
  intros ND. assert (X : forall l, incl l number_slots -> existsb (p false var_code) (texts fa l) = false).
  { intros l L. apply existsb_texts. intros x t I J. destruct (at_numbers _ _ _ _ _ AT x t (L x I) J) as (e & u & T & H & HQ).
    exact (proj2 (encoder_value s vs D FI NS var_code Disjunction t e u i (or_introl (conj eq_refl eq_refl)) T H (OF x t J (or_introl (L x I)))) (ND e HQ)). }
  destruct c; try reflexivity; cbn [estmt_panics].
  - apply orb_false_iff. split; [|apply X; intros x I; cbn in *; tauto]. apply existsb_texts. intros x t [<-|[]] J.
    destruct (at_byteorder _ _ _ _ _ AT t J) as (e & u & T & H & HQ).
    exact (proj2 (encoder_value s vs D FI NS GenExpr.order_code Cast t e u i (or_intror (conj eq_refl eq_refl)) T H (OF _ t J (or_intror eq_refl))) (ND e HQ)).
  - apply X. intros x I. cbn in *; tauto.
Qed.
End Field.
(** The padding among the statements of a field. *)
Lemma padding_in en pl x i f t e n : In (WritePadding e n) (gen_efield en pl x i f t) ->
  f_skip_encode f = false /\ (f_bits f = None -> f_untake f = false).
Proof.
  unfold gen_efield. destruct (f_with_encode f); [intros [H|[]]; discriminate H|]. destruct (f_skip_encode f); [intros []|]. intros H. split; [reflexivity|]. intros B. rewrite B in H.
  destruct (f_untake f); [|reflexivity]. apply in_app_iff in H as [H|[]]. destruct (f_from_str f) as [[? ?]|]; [destruct H as [H|[]]; discriminate H|destruct H].
Qed.
Lemma in_padding en pl x i f t e : f_with_encode f = None -> f_skip_encode f = false -> (f_bits f = None -> f_untake f = false) -> f_offset f = Some e ->
  exists g n, In (WritePadding g n) (gen_efield en pl x i f t).
Proof.
  intros W K B O. unfold gen_efield, gen_padding. rewrite W, K, O. exists (fun st => e (en st)), (f_full f).
  destruct (f_bits f); [|rewrite B by reflexivity]; apply in_app_iff; right; cbn; now left.
Qed.
Section Said.
Context (m : meaning) (l : list entry) (gs : list (fspec -> fspec)) (fa : field_attributes).
Context (S : Forall2 (says m) l gs) (P : attributes_of [jbytes_line l] = Some fa).
Lemma no_with_encode x t : In x [SWith; SWithEncode] -> member fa x <> Some (Raw t).
Proof.
  intros IS M. destruct (content_from _ _ _ _ P M ltac:(discriminate)) as (y & rk & lit & I & J & _). destruct (said m l gs S _ I) as (g & SG).
  assert (K : called (txt y) ["with_encode"; "encode_with"; "with"]%string).
  { clear - J IS. cbn in J, IS. destruct IS as [<-|[<-|[]]]; repeat (destruct J as [J|J]; [first [discriminate J|injection J as <- _; cbn; tauto]|]); destruct J. }
  clear - SG K. inversion SG; subst; not_called.
Qed.
Lemma not_with_encode m' : f_with_encode (field_spec m' fa) = None.
Proof.
  unfold field_spec. cbn [f_with_encode]. unfold with_code. destruct (member fa SWithEncode) as [[| |t]|] eqn:M; try (elim (no_with_encode SWithEncode t); [cbn; tauto|exact M]);
    cbn [raw_code]; destruct (member fa SWith) as [[| |t]|] eqn:M'; try reflexivity; elim (no_with_encode SWith t); (cbn; tauto) || exact M'.
Qed.
Lemma order_stands k lit text : ForallOrdPairs AttrSpec.distinct l -> In (Property k lit) l -> string_literal lit text -> called k ["byteorder"%string] ->
  ~ called text ["BE"; ">"; "0"; "LE"; "<"; "1"]%string -> In text (texts fa [SByteorder]).
Proof.
  intros D I SL K X. pose proof P as P'. rewrite line_parsed in P'. unfold called in K. apply in_map_iff in K as (y & <- & [<-|[]]).
  pose proof (entry_stands _ _ _ SByteorder ROrder _ _ D P' I ltac:(vm_compute; reflexivity)) as M. cbn [read_literal] in M. rewrite (order_expression _ _ SL X) in M.
  unfold texts. cbn [flat_map]. rewrite M. now left.
Qed.
Context (s : source) (vs : list val).
Let names := map s_name (s_fields s).
Context (D : NoDup names) (FI : PropsMachineEncode.fitting s vs) (NS : ~ In (txt "self") names).
Context (i : nat) (m' : meaning) (vars : list (nat * N)) (name : bytes) (u : ty).
Let F := map (fun f => (fst f, fst (snd f))) (fields_before s vs i).
Context (AT : attributes_typed (integer_field F) (flag_field F) (fun x => exists e, In e l /\ holds_number e x) (fun x => exists e, In e l /\ holds_condition e x) fa).
Context (OF : forall x t, In t (texts fa [x]) -> In x number_slots \/ x = SByteorder -> one_field_first (calculable_fields s) t).
Context (DI : ForallOrdPairs AttrSpec.distinct l).
Let stmts := gen_struct vars i [mkfield name (field_spec (emeaning s vs m' true) fa) u].
Lemma number_exact x t e w : In x number_slots -> In t (texts fa [x]) -> reads_as Disjunction t e -> has_type (integer_field F) e w ->
  (encoder_panics true (types_of s) var_code names vs t = false <-> exists z, value (number_in (fields_before s vs i)) e w z).
Proof.
  intros HX I T H. exact (proj1 (encoder_same s vs D FI NS var_code Disjunction t e w i (or_introl (conj eq_refl eq_refl)) T H (OF x t I (or_introl HX)))).
Qed.
Lemma order_exact t e w : In t (texts fa [SByteorder]) -> reads_as Cast t e -> has_type (integer_field F) e w ->
  (encoder_panics true (types_of s) GenExpr.order_code names vs t = false <-> exists z, value (number_in (fields_before s vs i)) e w z).
Proof.
  intros I T H. exact (proj1 (encoder_same s vs D FI NS GenExpr.order_code Cast t e w i (or_intror (conj eq_refl eq_refl)) T H (OF _ t I (or_intror eq_refl)))).
Qed.
Lemma guards_encode : (forall c, In c stmts -> estmt_panics true (types_of s) names vs fa c = false) <-> (forall e, In e l -> entry_encodes (fields_before s vs i) l e).
Proof.
  unfold stmts. cbn [gen_struct n_spec n_name n_type]. rewrite app_nil_r. split.
  - intros H e I x t HN HX OP. pose proof (H _ (or_introl eq_refl)) as HS. cbn [estmt_panics] in HS. apply orb_false_iff in HS as [HO HS].
    inversion HN as [k lit text x' SL K X R|k lit text x' SL K X R]; subst.
    + destruct (offset_stands l fa P DI k lit text x I K SL X R) as (sl & IS & IT & IO).
      apply (number_exact sl text x t IS IT R HX). cbn in IS.
      assert (J : In sl set_slots \/ sl = SOffset) by (cbn; intuition).
      destruct J as [J| -> ]; [exact (proj1 (existsb_texts _ _ _) HS sl text J IT)|].
      destruct (proj1 (padded_iff m l gs fa S P DI (emeaning s vs m' true)) (OP (IO eq_refl))) as [K1 K2].
      pose proof (text_from _ _ _ IT) as M.
      destruct (in_padding (sees_self i vars) (OnSelf i) name i (field_spec (emeaning s vs m' true) fa) u (build_encoder_number true (types_of s) var_code names vs text) (not_with_encode _) K1 K2) as (g & n & J).
      { unfold field_spec. cbn [f_offset]. now rewrite M. }
      pose proof (H _ (or_intror J)) as HP. cbn [estmt_panics] in HP. exact (proj1 (existsb_texts _ _ _) HP SOffset text (or_introl eq_refl) IT).
    + pose proof (order_stands k lit text DI I SL K X) as IT. apply (order_exact text x t IT R HX). exact (proj1 (existsb_texts _ _ _) HO SByteorder text (or_introl eq_refl) IT).
  - intros H. assert (NX : forall x t, In x number_slots -> In t (texts fa [x]) -> (x = SOffset -> padded l) -> encoder_panics true (types_of s) var_code names vs t = false).
    { intros x t HX IT PD. destruct (text_of_number m l gs fa S P x t HX IT) as (k & lit & I & SL & K & X & IO).
      destruct (at_numbers _ _ _ _ _ AT x t HX IT) as (e & w & R & HT & _). apply (number_exact x t e w HX IT R HT).
      apply (H _ I e w); [now apply (hn_number _ _ t)|exact HT|]. intros O. apply PD, IO, O. }
    assert (OX : forall t, In t (texts fa [SByteorder]) -> encoder_panics true (types_of s) GenExpr.order_code names vs t = false).
    { intros t IT. destruct (text_of_order m l gs fa S P t IT) as (k & lit & I & SL & K & X).
      destruct (at_byteorder _ _ _ _ _ AT t IT) as (e & w & R & HT & _). apply (order_exact t e w IT R HT).
      apply (H _ I e w); [now apply (hn_order _ _ t)|exact HT|]. intros O. exfalso. cbn [is_offset] in O. unfold called in *. cbn [map In] in K, O.
      destruct K as [<-|[]], O as [O|[]]. vm_compute in O. discriminate. }
    assert (SX : forall g, estmt_panics true (types_of s) names vs fa (SetFattr g) = false).
    { intros g. cbn [estmt_panics]. apply orb_false_iff. split; apply existsb_texts; [intros x t [<-|[]]; apply OX|]. intros x t J IT. apply (NX x); [cbn in *; tauto|exact IT|].
      intros ->. cbn in J. intuition discriminate. }
    intros c [<-|I]; [apply SX|]. destruct c; try reflexivity; [apply SX|].
    cbn [estmt_panics]. apply existsb_texts. intros x t [<-|[]] IT. apply (NX SOffset); [cbn; tauto|exact IT|]. intros _.
    apply padding_in in I. now apply (padded_iff m l gs fa S P DI (emeaning s vs m' true)).
Qed.
End Said.

(** ** Structs *)
Lemma before_types s vs i : PropsMachineEncode.fitting s vs ->
  map (fun f => (fst f, fst (snd f))) (fields_before s vs i) = map (fun g => (s_name g, s_type g)) (firstn i (s_fields s)).
Proof.
  intros X. unfold fields_before. rewrite map_map. cbn [fst snd]. unfold PropsMachineEncode.fitting in X. revert i.
  induction X as [|f v fs ws H X IH]; intros [|i]; try reflexivity. cbn [combine firstn map fst]. now rewrite IH.
Qed.
Section Struct.
Context (s : source) (vs : list val).
Let names := map s_name (s_fields s).
Context (D : NoDup names) (FI : PropsMachineEncode.fitting s vs) (NS : ~ In (txt "self") names).
Context (TY : source_typed s) (OF : source_one_field s) (vars : list (nat * N)).
Let number (checks : bool) (code : bool -> bytes -> bytes) (before : list bytes) := build_encoder_number checks (types_of s) code names vs.
Lemma fields_ebuild numbers rest : forall past b0 b out, fields_mean numbers b0 rest out -> s_fields s = past ++ rest ->
  exists fs gs, read_fields (number true) b rest = Some fs /\ read_fields (number false) b rest = Some gs /\
    Forall2 estep (build_estmts true (types_of s) names vs vars (length past) rest fs) (build_estmts false (types_of s) names vs vars (length past) rest gs) /\
    map snd (build_estmts true (types_of s) names vs vars (length past) rest fs) = gen_struct vars (length past) fs /\
    map snd (build_estmts false (types_of s) names vs vars (length past) rest gs) = gen_struct vars (length past) gs /\
    (~ source_divides s -> forall g, In g (build_estmts false (types_of s) names vs vars (length past) rest gs) -> fst g = false) /\
    ((forall f es, In f (s_fields s) -> first_line ["jbytes"%string] (s_lines f) es -> ForallOrdPairs AttrSpec.distinct es) ->
     (forall g, In g (build_estmts true (types_of s) names vs vars (length past) rest fs) -> fst g = false) <->
     (forall j f l e, nth_error rest j = Some f -> first_line ["jbytes"%string] (s_lines f) l -> In e l -> entry_encodes (fields_before s vs (length past + j)) l e)).
Proof.
  induction rest as [|f rest IH]; intros past b0 b out HM EA.
  - exists [], []. cbn. repeat (split; [first [reflexivity|constructor]|]). split; [intros _ g []|]. intros _. split; [|easy]. intros _ [|j] f l e; discriminate.
  - inversion HM as [|b' f' r l gs0 more L DL S V HM']; subst. destruct (C50_all _ _ _ S) as (fa & P & _).
    assert (EA' : s_fields s = (past ++ [f]) ++ rest) by (rewrite <- app_assoc; exact EA).
    destruct (IH (past ++ [f]) _ (b ++ [s_name f]) _ HM' EA') as (fs & gs & R1 & R2 & G2 & G1 & G3 & G4 & GE). clear IH.
    replace (length (past ++ [f])) with (Datatypes.S (length past)) in * by (rewrite app_length; cbn; lia).
    assert (NE : nth_error (s_fields s) (length past) = Some f) by (rewrite EA, nth_error_app2, Nat.sub_diag by lia; reflexivity).
    pose proof (TY _ _ _ NE L) as TF. rewrite <- (before_types s vs _ FI) in TF. pose proof (entries_typed _ _ _ _ _ S V TF P) as AT.
    assert (OT : forall x t, In t (texts fa [x]) -> In x number_slots \/ x = SByteorder -> one_field_first (calculable_fields s) t).
    { intros x t I [HX| -> ].
      - destruct (text_of_number _ _ _ _ S P x t HX I) as (k & lit & J & SL & K & X & _). apply (OF f l k lit t); auto. now apply nth_error_In in NE.
      - destruct (text_of_order _ _ _ _ S P t I) as (k & lit & J & SL & K & X). apply (OF f l k lit t); auto. now apply nth_error_In in NE. }
    cbn [read_fields]. rewrite (first_line_parsed _ _ L DL), P, R1, R2. do 2 eexists. split; [reflexivity|]. split; [reflexivity|].
    cbn [build_estmts]. rewrite (first_line_parsed _ _ L DL), P. split; [|split; [|split; [|split]]].
    + apply Forall2_app; [|exact G2]. exact (field_esame s vs D FI NS (length past) _ _ fa (s_meaning f) vars AT OT (s_name f) (s_type f)).
    + rewrite map_app, G1, map_map. cbn [snd]. rewrite map_id. cbn [gen_struct n_spec n_name n_type]. now rewrite app_nil_r.
    + rewrite map_app, G3, map_map. cbn [snd]. rewrite map_id. cbn [gen_struct n_spec n_name n_type]. now rewrite app_nil_r.
    + intros NDV g I. apply in_app_iff in I as [I|I]; [|now apply G4]. apply in_map_iff in I as (c0 & <- & _). cbn [fst].
      apply (field_eplain s vs D FI NS (length past) _ _ fa AT OT). intros x (e & Ie & He) Dx. apply NDV. exists f, l, e, x. split; [now apply nth_error_In in NE|]. auto.
    + intros DI. specialize (GE DI). pose proof (guards_encode _ l gs0 fa S P s vs D FI NS (length past) (s_meaning f) vars (s_name f) (s_type f) AT OT (DI f l (nth_error_In _ _ NE) L)) as GF.
      split.
      * intros A [|j] g l' e J L' I.
        -- cbn in J. injection J as <-. rewrite <- (VarSourceLemmas.first_line_unique _ _ _ _ L L') in *. rewrite Nat.add_0_r. refine (proj1 GF _ e I).
           intros c IC. refine (A (_, c) (proj2 (in_app_iff _ _ _) (or_introl _))). apply in_map_iff. exists c. split; [reflexivity|exact IC].
        -- cbn in J. replace (length past + Datatypes.S j)%nat with (Datatypes.S (length past) + j)%nat by lia. apply (proj1 GE) with g; auto. intros g' I'. apply A. apply in_app_iff. now right.
      * intros A g I. apply in_app_iff in I as [I|I].
        -- apply in_map_iff in I as (c & <- & IC). cbn [fst]. refine (proj2 GF _ c IC). intros e Ie. pose proof (A 0%nat f l e eq_refl L Ie) as A0. now rewrite Nat.add_0_r in A0.
        -- apply (proj2 GE); [|exact I]. intros j g' l' e J L' Ie. pose proof (A (Datatypes.S j) g' l' e J L' Ie) as A0. now replace (length past + Datatypes.S j)%nat with (Datatypes.S (length past) + j)%nat in A0 by lia.
Qed.
End Struct.
(** Overflow checks make the encoder panic or change nothing. *)
Theorem C94_same : forall s c l ety ca fa vs b,
  (exists es, first_line ["jbytes"; "repr"]%string (s_container s) es /\ Forall container_entry es /\ Forall own_codec es /\
     decided about_order es (c_order c) /\ decided about_width es (c_byte_count c)) ->
  fields_mean (machine_number (types_of s)) [] (s_fields s) l -> source_typed s -> source_one_field s ->
  NoDup (map s_name (s_fields s)) -> (forall f, In f (s_fields s) -> own_name (s_name f)) ->
  Forall2 (fun f v => holds (s_type f) v) (s_fields s) vs ->
  exists e e', build_encoder true s vs = Some e /\ build_encoder false s vs = Some e' /\
    (run_build_encoder true ety s e ca fa vs b = Panic \/ run_build_encoder true ety s e ca fa vs b = run_build_encoder false ety s e' ca fa vs b).
Proof.
  intros s c l ety ca fa vs b HC HM TY OF ND ON FI. destruct (container_read _ _ HC) as (co & E1 & E2 & _).
  assert (NS : ~ In (txt "self") (map s_name (s_fields s))).
  { intros I. apply in_map_iff in I as (f & E & I). apply (proj1 (ON f I)). rewrite E. cbn. tauto. }
  destruct (fields_ebuild s vs ND FI NS TY OF (k_vars ca) _ (s_fields s) [] [] [] l HM eq_refl) as (fs & gs & R1 & R2 & G & _).
  unfold build_encoder, derived. cbn beta in R1, R2 |- *. rewrite E1, E2, R1, R2. do 2 eexists. split; [reflexivity|]. split; [reflexivity|]. unfold run_build_encoder. cbn [d_fields d_container]. unfold wbind.
  destruct (esame ety _ _ G (encode_store (if container_used (s_container s) then Some (container_spec co) else None) ca fa (ESelf vs)) b) as [X|X]; cbn [length] in X; rewrite X; auto.
Qed.
(** Without them and without divisions, the encoder never panics there. *)
Theorem C94_plain : forall s c l ety ca fa vs b,
  (exists es, first_line ["jbytes"; "repr"]%string (s_container s) es /\ Forall container_entry es /\ Forall own_codec es /\
     decided about_order es (c_order c) /\ decided about_width es (c_byte_count c)) ->
  fields_mean (machine_number (types_of s)) [] (s_fields s) l -> source_typed s -> source_one_field s ->
  NoDup (map s_name (s_fields s)) -> (forall f, In f (s_fields s) -> own_name (s_name f)) ->
  Forall2 (fun f v => holds (s_type f) v) (s_fields s) vs -> ~ source_divides s ->
  exists e, build_encoder false s vs = Some e /\ run_build_encoder false ety s e ca fa vs b = run_encoder ety e ca fa vs b.
Proof.
  intros s c l ety ca fa vs b HC HM TY OF ND ON FI NDV. destruct (container_read _ _ HC) as (co & E1 & E2 & _).
  assert (NS : ~ In (txt "self") (map s_name (s_fields s))).
  { intros I. apply in_map_iff in I as (f & E & I). apply (proj1 (ON f I)). rewrite E. cbn. tauto. }
  destruct (fields_ebuild s vs ND FI NS TY OF (k_vars ca) _ (s_fields s) [] [] [] l HM eq_refl) as (fs & gs & R1 & R2 & _ & _ & G3 & G4 & _).
  cbn [length] in G3, G4. unfold build_encoder, derived. cbn beta in R2 |- *. rewrite E1, E2, R2. eexists. split; [reflexivity|].
  unfold run_build_encoder, run_encoder. cbn [d_fields d_container]. unfold wbind. rewrite eunguarded, G3; [reflexivity|]. exact (G4 NDV).
Qed.
(** Where the encoder would succeed without them, they make it panic exactly if an expression it
    evaluates has no value. *)
Theorem C94_exact : forall s c l ety ca fa vs b n b',
  (exists es, first_line ["jbytes"; "repr"]%string (s_container s) es /\ Forall container_entry es /\ Forall own_codec es /\
     decided about_order es (c_order c) /\ decided about_width es (c_byte_count c)) ->
  fields_mean (machine_number (types_of s)) [] (s_fields s) l -> source_typed s -> source_one_field s ->
  NoDup (map s_name (s_fields s)) -> (forall f, In f (s_fields s) -> own_name (s_name f)) ->
  (forall f es, In f (s_fields s) -> first_line ["jbytes"%string] (s_lines f) es -> ForallOrdPairs AttrSpec.distinct es) ->
  Forall2 (fun f v => holds (s_type f) v) (s_fields s) vs ->
  exists e e', build_encoder true s vs = Some e /\ build_encoder false s vs = Some e' /\
    (run_build_encoder false ety s e' ca fa vs b = Ok n b' ->
     source_encodes s vs /\ run_build_encoder true ety s e ca fa vs b = Ok n b' \/
     ~ source_encodes s vs /\ run_build_encoder true ety s e ca fa vs b = Panic).
Proof.
  intros s c l ety ca fa vs b n b' HC HM TY OF ND ON DI FI. destruct (container_read _ _ HC) as (co & E1 & E2 & _).
  assert (NS : ~ In (txt "self") (map s_name (s_fields s))).
  { intros I. apply in_map_iff in I as (f & E & I). apply (proj1 (ON f I)). rewrite E. cbn. tauto. }
  destruct (fields_ebuild s vs ND FI NS TY OF (k_vars ca) _ (s_fields s) [] [] [] l HM eq_refl) as (fs & gs & R1 & R2 & G & _ & _ & _ & GE).
  specialize (GE DI). cbn [length Nat.add] in G, GE.
  unfold build_encoder, derived. cbn beta in R1, R2 |- *. rewrite E1, E2, R1, R2. do 2 eexists. split; [reflexivity|]. split; [reflexivity|]. unfold run_build_encoder. cbn [d_fields d_container]. unfold wbind.
  set (st0 := encode_store _ _ _ _). destruct (run_eguarded ety (build_estmts false _ _ _ _ _ _ gs) st0 b) as [st b1| | |] eqn:R; try discriminate. intros X.
  destruct (etrack ety _ _ G _ _ _ _ R) as [[-> A]|(-> & g & I & A)].
  - left. split; [exact (proj1 GE A)|exact X].
  - right. split; [|reflexivity]. intros H. pose proof (proj2 GE H g I). congruence.
Qed.

(** ** Round trip *)
Lemma conditions_read s l : conditions_meant s -> fields_mean (machine_number (types_of s)) [] (s_fields s) l -> build_decoder false s = machine_decoder s.
Proof.
  intros CM HM. unfold build_decoder, machine_decoder, derived. cbn [s_container s_fields].
  enough (X : forall rest past out, s_fields s = past ++ rest -> fields_mean (machine_number (types_of s)) (map s_name past) rest out ->
    read_fields (build_number false (types_of s)) (map s_name past) (with_conditions (build_condition false (types_of s)) (map s_name past) rest) = read_fields (machine_number (types_of s)) (map s_name past) rest).
  { specialize (X (s_fields s) [] l eq_refl HM). cbn [map] in X. now rewrite X. }
  clear HM. induction rest as [|f rest IH]; intros past out EA HM; [reflexivity|].
  inversion HM as [|b f' r es gs more L D S V HM']; subst. destruct (C50_all _ _ _ S) as (fa & P & _).
  cbn [with_conditions read_fields s_lines s_name s_meaning s_type].
  assert (EN : map s_name past ++ [s_name f] = map s_name (past ++ [f])) by (rewrite map_app; reflexivity). rewrite !EN in *.
  assert (EA' : s_fields s = (past ++ [f]) ++ rest) by (rewrite <- app_assoc; exact EA).
  rewrite (IH _ _ EA' HM'), (first_line_parsed _ _ L D), P.
  destruct (read_fields _ _ rest) as [fs|]; [|reflexivity]. do 2 f_equal.
  unfold field_spec. cbn [with_numbers m_number m_order m_condition m_function m_value m_literal m_name m_default m_from_str m_decoder m_encoder].
  destruct (member fa SIfExpr) as [[| |t]|] eqn:M; try reflexivity.
  assert (NE : nth_error (s_fields s) (length past) = Some f) by (rewrite EA, nth_error_app2, Nat.sub_diag by lia; reflexivity).
  destruct (content_from _ _ _ _ P M ltac:(discriminate)) as (x & rk & lit & I & J & _).
  assert (K : called (txt x) ["if_expr"%string]).
  { pose proof (proj1 (forallb_forall _ _) slots_properties _ J) as SP. cbn [fst snd] in SP. rewrite !andb_true_iff in SP. destruct SP as [[_ SP] _].
    rewrite slot_beq_refl in SP. apply andb_true_iff in SP as [SX _]. apply String.eqb_eq in SX. subst x. now left. }
  rewrite (CM _ f es _ lit NE L I K), EA, map_app, firstn_app, firstn_all2, map_length, Nat.sub_diag by (rewrite map_length; lia). cbn [firstn]. rewrite app_nil_r. reflexivity.
Qed.
(** Statements whose guards hold nowhere on the way. *)
Lemma run_all dty l r : Forall2 (guarded_same dty) l r -> settled l -> forall st input p st' p', run_stmts dty (map snd r) st input p = Ok st' p' ->
  (forall g, In g l -> fst g st' = false) -> run_guarded dty r st input p = Ok st' p'.
Proof.
  induction 1 as [|[g c] [h d] l r E H IH]; intros SE st input p st' p' R A; [exact R|].
  destruct E as [EB1 E]. pose proof (same_binds _ _ _ H) as EB2. inversion SE as [|g0 c0 l0 names ST NB SE']; subst.
  assert (R' : run_guarded dty (map (fun q => (fun _ : store => false, snd q)) ((h, d) :: r)) st input p = Ok st' p').
  { rewrite run_unguarded; [rewrite map_map; exact R|]. intros q st0 I. now apply in_map_iff in I as (q' & <- & _). }
  assert (X : g st' = g st).
  { apply ST. intros x I. destruct (NB x I) as [N B]. apply (run_guarded_other dty _ x _ _ _ _ _ R' N). rewrite map_map. cbn [snd]. intros J. apply B. cbn [map snd all_binds] in *.
    refine (eq_ind _ (fun z => In x (map fst (z ++ binds c))) _ _ (eq_sym EB2)). cbv beta. rewrite EB1. exact J. }
  pose proof (A _ (or_introl eq_refl)) as G. cbn [fst] in G. cbn [run_stmts map snd] in R. cbn [run_guarded].
  destruct (E st) as [G1|(_ & G' & _)]; cbn [fst snd] in *; [congruence|]. rewrite G'. unfold bind in R |- *.
  destruct (run_stmt dty d st input p) as [st1 p1| | |]; try discriminate. apply (IH SE' _ _ _ _ _ R). intros q I. apply A. now right.
Qed.
(** What is decoded without looking at the panics is decoded where every expression has a value. *)
Lemma decodes s c l dty ca input p n vs :
  (exists es, first_line ["jbytes"; "repr"]%string (s_container s) es /\ Forall container_entry es /\ Forall own_codec es /\
     decided about_order es (c_order c) /\ decided about_width es (c_byte_count c)) ->
  fields_mean (machine_number (types_of s)) [] (s_fields s) l -> source_typed s ->
  NoDup (map s_name (s_fields s)) -> (forall f, In f (s_fields s) -> own_name (s_name f)) ->
  (forall f es, In f (s_fields s) -> first_line ["jbytes"%string] (s_lines f) es -> ForallOrdPairs AttrSpec.distinct es) ->
  Forall2 holds (map s_type (s_fields s)) vs -> source_defined s vs ->
  forall d, build_decoder false s = Some d -> run_struct dty d ca input p = Ok (VList vs) n -> run_build false dty s d ca input p = Ok (VList vs) n.
Proof.
  intros HC HM TY ND ON DI HV SD d. destruct (container_read _ _ HC) as (co & E1 & E2 & _).
  destruct (fields_build dty (types_of s) (k_vars ca) _ (s_fields s) [] [] l 0 HM) as (fs & gs & R1 & R2 & B & G2 & G3 & _).
  { cbn [app]. intros x t. unfold field_type, types_of. clear. induction (s_fields s) as [|f r IH]; cbn [map find fst typed_name]; [discriminate|].
    destruct (list_eq_dec Byte.byte_eq_dec x (s_name f)) as [-> |N]; [rewrite bytes_eqb_refl; auto|].
    destruct (bytes_eqb x (s_name f)) eqn:E; [apply bytes_eqb_eq in E; contradiction|exact IH]. }
  { intros j f l' J L. exact (TY j f l' J L). }
  unfold build_decoder, derived. cbn [s_container s_fields]. rewrite E1, E2. cbn [map] in R1, R2, G2, G3. rewrite R2. intros [= <-].
  unfold run_build, run_struct. cbn [d_fields d_named]. unfold bind. rewrite <- G3.
  set (st0 := struct_store _). destruct (run_stmts dty _ st0 input p) as [stn q| | |] eqn:R; try discriminate.
  unfold ret at 1. intros X. injection X as EV EQ. subst q.
  assert (EN : map n_name fs = map s_name (s_fields s)).
  { clear - R1. revert R1. generalize (@nil bytes). revert fs. induction (s_fields s) as [|f r IH]; intros fs b; cbn [with_conditions read_fields s_lines s_name]; [now intros [= <-]|].
    destruct (attributes_of _); [|discriminate]. destruct (read_fields _ _ _) as [fs'|] eqn:E; [|discriminate]. intros [= <-]. cbn [map n_name]. now rewrite (IH _ _ E). }
  assert (NB : map (fun f => value_of_local (look (s_name f) stn)) (s_fields s) = vs).
  { rewrite <- EV, <- B. unfold run_return. transitivity (map (fun x => value_of_local (look x stn)) (map s_name (s_fields s))); [now rewrite map_map|].
    rewrite <- EN, <- (names_bound 0 fs), map_map. reflexivity. }
  assert (HF : forall f, In f (s_fields s) -> types_of s (s_name f) = Some (s_type f) /\ holds (s_type f) (value_of_local (look (s_name f) stn)) /\ ~ In (s_name f) reserved).
  { intros f I. split; [now apply PropsMachineEncode.type_found|]. split.
    - rewrite <- NB in HV. clear - HV I. induction (s_fields s) as [|g r IH]; [easy|]. cbn [map] in HV. inversion HV; subst. destruct I as [<-|I]; [assumption|now apply IH].
    - intros J. apply (proj1 (ON f I)). clear - J. cbn in *. tauto. }
  destruct (fields_exact (types_of s) (k_vars ca) _ stn (s_fields s) [] [] l 0 fs HM R1 HF) as (_ & SE & _ & DE).
  { intros j f es J L. split; [exact (TY j f es J L)|]. apply (DI f es); [now apply nth_error_In in J|exact L]. }
  { exact ND. }
  cbn [app map] in DE, SE. rewrite (run_all dty _ _ G2 SE _ _ _ _ _ R); [unfold ret; now rewrite EV|].
  apply DE. intros j f es e J L I. rewrite before_valued, NB. exact (SD j f es e J L I).
Qed.
Lemma defined_encodes s vs : source_defined s vs -> source_encodes s vs.
Proof. intros H i f l e J L I x t HN HX _. exact (proj1 (H i f l e J L I) x t HN HX). Qed.
Lemma calculates_first s vs : all_calculate s vs -> source_one_field s.
Proof.
  intros H f l k lit text I L J SL C. apply In_nth_error in I as (i & I). pose proof (proj1 (Forall_forall _ _) (H i f l I L) _ J text SL) as [A B].
  destruct C as [[K X]|[K X]]; [exact (proj1 (A K X))|exact (proj1 (B K X))].
Qed.
(** What is encoded without looking at the panics is encoded. *)
Lemma encodes s c l ety ca fa vs b :
  (exists es, first_line ["jbytes"; "repr"]%string (s_container s) es /\ Forall container_entry es /\ Forall own_codec es /\
     decided about_order es (c_order c) /\ decided about_width es (c_byte_count c)) ->
  fields_mean (machine_number (types_of s)) [] (s_fields s) l -> source_typed s -> source_one_field s ->
  NoDup (map s_name (s_fields s)) -> (forall f, In f (s_fields s) -> own_name (s_name f)) ->
  (forall f es, In f (s_fields s) -> first_line ["jbytes"%string] (s_lines f) es -> ForallOrdPairs AttrSpec.distinct es) ->
  Forall2 (fun f v => holds (s_type f) v) (s_fields s) vs -> source_encodes s vs ->
  forall e, build_encoder false s vs = Some e -> run_build_encoder false ety s e ca fa vs b = run_encoder ety e ca fa vs b.
Proof.
  intros HC HM TY OF ND ON DI FI SD e. destruct (container_read _ _ HC) as (co & E1 & E2 & _).
  assert (NS : ~ In (txt "self") (map s_name (s_fields s))).
  { intros I. apply in_map_iff in I as (f & E & I). apply (proj1 (ON f I)). rewrite E. cbn. tauto. }
  destruct (fields_ebuild s vs ND FI NS TY OF (k_vars ca) _ (s_fields s) [] [] [] l HM eq_refl) as (fs & gs & R1 & R2 & G & _ & G3 & _ & GE).
  specialize (GE DI). cbn [length Nat.add] in G, G3, GE. pose proof (proj2 GE SD) as A.
  unfold build_encoder, derived. cbn beta in R1, R2 |- *. rewrite E1, E2, R2. intros [= <-]. unfold run_build_encoder, run_encoder. cbn [d_fields d_container]. unfold wbind.
  rewrite eunguarded, G3; [reflexivity|]. intros g I. clear - G A I. induction G as [|a a' l r H G IH]; [destruct I|]. destruct I as [<-|I].
  - destruct H as [H|(_ & H & _)]; [|exact H]. rewrite (A a (or_introl eq_refl)) in H. discriminate.
  - apply IH; [|exact I]. intros g' I'. apply A. now right.
Qed.
(** Built with overflow checks the derived encoder writes what the text says and the derived
    decoder reads it back, if every expression has a value. *)
Theorem C94_round_trip : forall s c l vs w rest,
  let t := TStruct true c l in let names := map s_name (s_fields s) in
  (exists es, first_line ["jbytes"; "repr"]%string (s_container s) es /\ Forall container_entry es /\ Forall own_codec es /\
     decided about_order es (c_order c) /\ decided about_width es (c_byte_count c)) ->
  fields_mean (machine_number (types_of s)) [] (s_fields s) l -> conditions_meant s -> source_typed s ->
  NoDup names -> (forall x, In x names -> own_name x) ->
  (forall f es, In f (s_fields s) -> first_line ["jbytes"%string] (s_lines f) es -> ForallOrdPairs AttrSpec.distinct es) ->
  Forall2 (fun f v => holds (s_type f) v) (s_fields s) vs -> all_calculate s vs -> source_defined s vs ->
  well_formed t -> wire t no_cattr no_fattr (VList vs) = Some w -> fits t no_cattr no_fattr (VList vs) rest = true ->
  allocatable (w ++ rest) ->
  forall checks, exists d e, build_decoder checks s = Some d /\ build_encoder checks s vs = Some e /\
    (exists n pos, run_build_encoder checks enc s e no_cattr no_fattr vs buf_new = Ok n (mkbuf w pos)) /\
    run_build checks dec s d no_cattr (w ++ rest) 0 = Ok (VList vs) (size w).
Proof.
  intros s c l vs w rest t names HC HM CM TY ND ON DI FI AC SD WF WI FT AL.
  assert (ON' : forall f, In f (s_fields s) -> own_name (s_name f)) by (intros f I; apply ON; now apply in_map).
  assert (HV : Forall2 holds (map s_type (s_fields s)) vs) by (clear - FI; induction FI; constructor; auto).
  pose proof (calculates_first _ _ AC) as OF. pose proof (defined_encodes _ _ SD) as SE.
  destruct (PropsMachineEncode.C92_round_trip s c l vs w rest HC HM ND ON FI AC WF WI FT AL) as (d & e & ED & EE & _ & _ & (n & pos & RE) & RD).
  rewrite <- (conditions_read s l CM HM) in ED. change (build_encoder false s vs = Some e) in EE.
  pose proof (decodes s c l dec no_cattr _ _ _ vs HC HM TY ND ON' DI HV SD d ED RD) as RD'.
  rewrite <- (encodes s c l enc no_cattr no_fattr vs buf_new HC HM TY OF ND ON' DI FI SE e EE) in RE.
  intros [].
  - destruct (C93_exact s c l dec no_cattr (w ++ rest) 0 (size w) vs HC HM TY ND ON' DI HV) as (d1 & d2 & E1 & E2 & RX).
    destruct (C94_exact s c l enc no_cattr no_fattr vs buf_new n (mkbuf w pos) HC HM TY OF ND ON' DI FI) as (e1 & e2 & F1 & F2 & RY).
    assert (d2 = d) by congruence. assert (e2 = e) by congruence. subst d2 e2. exists d1, e1. split; [exact E1|]. split; [exact F1|].
    destruct (RX RD') as [[_ X]|[X _]]; [|contradiction]. destruct (RY RE) as [[_ Y]|[Y _]]; [|contradiction]. split; [now exists n, pos|exact X].
  - exists d, e. split; [exact ED|]. split; [exact EE|]. split; [now exists n, pos|exact RD'].
Qed.

(** ** A text as long as a number less a constant *)
Lemma less_encodes t k n m len body : decimal_text k n -> in_range t (Z.of_N n) -> in_range t len ->
  (source_encodes (text_less t k m) [VInt len; VBytes body] <-> in_range t (len - Z.of_N n)).
Proof.
  intros D RN RL. rewrite <- (less_defined t k n m len body D RN RL). split; [|apply defined_encodes].
  intros H i f l e J L I. destruct (less_line _ _ _ _ _ (nth_error_In _ _ J) L) as [[_ ->]|[_ ->]]; [destruct I|]. destruct I as [<-|[]]. split.
  - intros x u HN HX. apply (H i f _ _ J L (or_introl eq_refl) x u HN HX). intros O. vm_compute in O. intuition discriminate.
  - intros x HC. inversion HC as [k' lit text x' SL K R]; subst. vm_compute in K. intuition discriminate.
Qed.
Lemma less_divides t k n m : decimal_text k n -> ~ source_divides (text_less t k m).
Proof.
  intros D (f & es & e & x & I & L & Ie & He & Dx). destruct (less_line _ _ _ _ _ I L) as [[-> ->]|[-> ->]]; [destruct Ie|]. destruct Ie as [<-|[]].
  destruct He as [HN|HN]; [|inversion HN as [k' lit text x' SL K R']; subst; vm_compute in K; intuition discriminate].
  inversion HN as [k' lit text x' SL K X R'|k' lit text x' SL K X R']; subst; [|vm_compute in K; intuition discriminate].
  assert (EX : text = txt "len - " ++ k). { rewrite <- (read_string _ _ SL). apply read_string. now apply (less_literal k n). } subst text.
  rewrite (reads_unique _ _ _ R' (less_reads k n D)) in Dx. cbn in Dx. intuition discriminate.
Qed.
(** A text that fits is written and read back in either build if [len] is not smaller than [k].
    If it is, the encoder writes it without overflow checks and panics with them. *)
Theorem C94_text : forall m t k n len body rest, signed t = false -> (imod t <= 2 ^ 64)%Z -> decimal_text k n ->
  in_range t len -> in_range t (Z.of_N n) -> wraps_to t (len - Z.of_N n) (Z.of_N (size body)) ->
  let w := digits Be (N.to_nat (width_bytes t)) (Z.to_N len) ++ body in let s := text_less t k m in let vs := [VInt len; VBytes body] in
  allocatable (w ++ rest) ->
  ((Z.of_N n <= len)%Z -> forall checks, exists d e, build_decoder checks s = Some d /\ build_encoder checks s vs = Some e /\
     (exists n pos, run_build_encoder checks enc s e no_cattr no_fattr vs buf_new = Ok n (mkbuf w pos)) /\
     run_build checks dec s d no_cattr (w ++ rest) 0 = Ok (VList vs) (size w)) /\
  ((len < Z.of_N n)%Z -> exists e e', build_encoder true s vs = Some e /\ build_encoder false s vs = Some e' /\
     (exists n pos, run_build_encoder false enc s e' no_cattr no_fattr vs buf_new = Ok n (mkbuf w pos)) /\
     run_build_encoder true enc s e no_cattr no_fattr vs buf_new = Panic).
Proof.
  intros m t k n len body rest SG B D RL RN SB w s vs AL.
  assert (HC : exists es, first_line ["jbytes"; "repr"]%string (s_container s) es /\ Forall container_entry es /\ Forall own_codec es /\
     decided about_order es (c_order no_cspec) /\ decided about_width es (c_byte_count no_cspec)).
  { exists []. split; [right; easy|]. repeat split; try (constructor; fail); apply undecided; easy. }
  pose proof (text_less_means t k n m D) as HM. pose proof (less_source_typed t k n m D RN) as ST.
  pose proof (PropsMachineEncode.text_calculates t k n m vs D RN) as AC.
  assert (ND : NoDup (map s_name (s_fields s))) by (repeat (apply NoDup_cons; [vm_compute; intuition discriminate|]); apply NoDup_nil).
  assert (ON : forall f, In f (s_fields s) -> own_name (s_name f)).
  { intros f [<-|[<-|[]]]; (split; [vm_compute; intuition discriminate|]); do 2 eexists; (split; [reflexivity|vm_compute; intuition discriminate]). }
  assert (DI : forall f es, In f (s_fields s) -> first_line ["jbytes"%string] (s_lines f) es -> ForallOrdPairs AttrSpec.distinct es).
  { intros f es I L. destruct (less_line _ _ _ _ _ I L) as [[-> ->]|[-> ->]]; repeat constructor. }
  assert (FI : Forall2 (fun f v => holds (s_type f) v) (s_fields s) vs).
  { apply Forall2_cons; [exists len; now split|]. apply Forall2_cons; [exact Logic.I|]. apply Forall2_nil. }
  assert (IR : in_range t (len - Z.of_N n) <-> (Z.of_N n <= len)%Z).
  { unfold in_range, imin, imax in *. rewrite SG in *. lia. }
  split; intros C.
  - destruct (PropsMachineEncode.text_less_wire m t k n len body rest SG B D RL RN SB) as (WI & FT & WF).
    apply (C94_round_trip s no_cspec (text_less_fields t k m) vs w rest HC HM); auto.
    + intros i f es k' lit J L I K. destruct (less_line _ _ _ _ _ (nth_error_In _ _ J) L) as [[_ ->]|[_ ->]]; [destruct I|]. destruct I as [[= <- <-]|[]].
      vm_compute in K. intuition discriminate.
    + intros x I. apply in_map_iff in I as (f & <- & I). now apply ON.
    + now apply (less_defined t k n m len body D RN RL), IR.
  - pose proof (calculates_first _ _ AC) as OF.
    destruct (C94_plain s no_cspec _ enc no_cattr no_fattr vs buf_new HC HM ST OF ND ON FI (less_divides t k n m D)) as (e' & E' & P).
    destruct (PropsMachineEncode.C92_text m t k n len body rest SG B D RL RN SB AL) as (d3 & e3 & _ & E3 & _ & _ & (nb & pos & RE) & _).
    change (build_encoder false s vs = Some e3) in E3. assert (e3 = e') by congruence. subst e3. fold vs w in RE. rewrite <- P in RE.
    destruct (C94_exact s no_cspec _ enc no_cattr no_fattr vs buf_new nb (mkbuf w pos) HC HM ST OF ND ON DI FI) as (e & e2 & E & E2 & R).
    assert (e2 = e') by congruence. subst e2. exists e, e'. split; [exact E|]. split; [exact E'|]. split; [now exists nb, pos|].
    destruct (R RE) as [[X _]|[_ X]]; [exfalso|exact X]. apply (less_encodes t k n m len body D RN RL), IR in X. lia.
Qed.
(** With [len - 4]: [len] is 9, and 2. *)
Example C94_text_case m : forall checks, exists d e, build_decoder checks (text_less U8 (txt "4") m) = Some d /\
  build_encoder checks (text_less U8 (txt "4") m) [VInt 9; VBytes (repeat x07 5)] = Some e /\
  (exists n pos, run_build_encoder checks enc (text_less U8 (txt "4") m) e no_cattr no_fattr [VInt 9; VBytes (repeat x07 5)] buf_new = Ok n (mkbuf (digits Be 1 9 ++ repeat x07 5) pos)) /\
  run_build checks dec (text_less U8 (txt "4") m) d no_cattr ((digits Be 1 9 ++ repeat x07 5) ++ [x01]) 0 = Ok (VList [VInt 9; VBytes (repeat x07 5)]) (size (digits Be 1 9 ++ repeat x07 5)).
Proof.
  apply (C94_text m U8 (txt "4") 4 9 (repeat x07 5) [x01] eq_refl ltac:(vm_compute; discriminate) four).
  - vm_compute. split; discriminate.
  - vm_compute. split; discriminate.
  - split; [vm_compute; split; discriminate|]. exists 0%Z. reflexivity.
  - vm_compute. reflexivity.
  - discriminate.
Qed.
Example C94_panic_case m : exists e e', build_encoder true (text_less U8 (txt "4") m) [VInt 2; VBytes (repeat x07 254)] = Some e /\
  build_encoder false (text_less U8 (txt "4") m) [VInt 2; VBytes (repeat x07 254)] = Some e' /\
  (exists n pos, run_build_encoder false enc (text_less U8 (txt "4") m) e' no_cattr no_fattr [VInt 2; VBytes (repeat x07 254)] buf_new = Ok n (mkbuf (digits Be 1 2 ++ repeat x07 254) pos)) /\
  run_build_encoder true enc (text_less U8 (txt "4") m) e no_cattr no_fattr [VInt 2; VBytes (repeat x07 254)] buf_new = Panic.
Proof.
  apply (C94_text m U8 (txt "4") 4 2 (repeat x07 254) [x01] eq_refl ltac:(vm_compute; discriminate) four).
  - vm_compute. split; discriminate.
  - vm_compute. split; discriminate.
  - split; [vm_compute; split; discriminate|]. exists (-1)%Z. reflexivity.
  - vm_compute. reflexivity.
  - reflexivity.
Qed.

Print Assumptions C94_same.
Print Assumptions C94_plain.
Print Assumptions C94_exact.
Print Assumptions C94_round_trip.
Print Assumptions C94_text.
