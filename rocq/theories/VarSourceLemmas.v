(** Lemmas for C84. *)
From Coq Require Import Ascii String.
From Verif Require Import Base BaseLemmas Ints SpecOps Reader Writer Sugar TextSpec Text AttrParse AttrSpec AttrLemmas MacLemmas EnumTextSpec GenExpr GenExprSpec
  GenExprLemmas PropsExpr PropsAttr EnumTextLemmas PropsEnumText GenDecode GenSpec Source SourceSpec SourceLemmas FieldSpec VarSource VarSourceSpec
  Decode Schema.
Close Scope string_scope.

(** ** Names in lists *)
Ltac no_byte K := exfalso; destruct K as [K1 K2]; vm_compute in K1, K2; first [now apply K1|now apply K2].
Lemma a_name_expression x : a_name x -> expression x.
Proof.
  intros [H _]. destruct x as [|c r]; [easy|]. destruct H as [L _]. cbn. split.
  - intros D. destruct L as [L|[L|E]]; [lia|lia|subst c; no_byte D].
  - intros ->. destruct L as [L|[L|L]]; [no_byte L|no_byte L|discriminate].
Qed.
Lemma a_name_no_comma x : a_name x -> ~ In ","%byte x.
Proof.
  intros [H _] I. destruct x as [|c r]; [easy|]. destruct H as [L F].
  assert (X : forall d, letter d \/ digit d -> d <> ","%byte).
  { intros d Hd ->. destruct Hd as [[K|[K|K]]|K]; [no_byte K|no_byte K|discriminate|no_byte K]. }
  destruct I as [E|I]; [exact (X _ (or_introl L) E)|]. rewrite Forall_forall in F. exact (X _ (F _ I) eq_refl).
Qed.
Lemma listed_names lit names : names <> [] -> Forall a_name names -> string_literal lit (joined ","%byte names) ->
  exists l, parse_list lit = AList l /\ names_of l = Some names.
Proof.
  intros N F L. unfold parse_list. eexists. split; [reflexivity|]. rewrite (read_string _ _ L), split_joined.
  - clear N L. induction F as [|x l Hx F IH]; [reflexivity|]. cbn [flat_map].
    rewrite (expression_not_number _ (a_name_expression _ Hx)). cbn [app names_of]. now rewrite IH.
  - exact N.
  - eapply Forall_impl; [|exact F]. exact a_name_no_comma.
Qed.
Lemma called_single k (w : string) : called k [w] <-> k = txt w.
Proof. unfold called. cbn. intuition. Qed.
Lemma last_none key l : (forall k lit, In (Property k lit) l -> k <> key) -> last_property key l = None.
Proof.
  induction l as [|e l IH]; intros H; [reflexivity|]. cbn [last_property]. rewrite IH by (intros k lit Hk; apply (H k lit); now right).
  destruct e as [i|k lit]; [reflexivity|]. destruct (bytes_eqb k key) eqn:E; [|reflexivity]. apply bytes_eqb_eq in E.
  elim (H k lit); [now left|exact E].
Qed.
Lemma last_app key l e r : last_property key r = None -> last_property key (l ++ e :: r) =
  match e with Property k lit => if bytes_eqb k key then Some lit else last_property key l | Tag _ => last_property key l end.
Proof.
  intros H. induction l as [|e' l IH].
  - cbn [app last_property]. rewrite H. destruct e; reflexivity.
  - cbn [app last_property]. rewrite IH. destruct e as [i|k lit]; [reflexivity|]. destruct (bytes_eqb k key); reflexivity.
Qed.
Lemma last_decided (w : string) l names : decided (about_names w) l names ->
  (forall k lit, In (Property k lit) l -> called k [w] -> exists xs, about_names w (Property k lit) xs) ->
  match names with
  | Some xs => exists lit, last_property (txt w) l = Some lit /\ xs <> [] /\ Forall a_name xs /\ string_literal lit (joined ","%byte xs)
  | None => last_property (txt w) l = None
  end.
Proof.
  intros D W. destruct D as [l D|l e r xs (k & lit & -> & K & N & F & L) D].
  - apply last_none. intros k lit Hk E. apply called_single in E. destruct (W _ _ Hk E) as (xs & A). exact (D _ _ Hk A).
  - exists lit. split; [|auto]. rewrite last_app.
    + apply called_single in K. subst k. now rewrite bytes_eqb_refl.
    + apply last_none. intros k' lit' Hk E. apply called_single in E.
      destruct (W k' lit') as (ys & A); [apply in_or_app; right; now right|exact E|]. exact (D _ _ Hk A).
Qed.
Lemma asked_read lines l names : first_line ["jbytes"; "repr"]%string lines l ->
  decided (about_names "get_variable_name") l names ->
  (forall k lit, In (Property k lit) l -> called k ["get_variable_name"%string] -> exists xs, about_names "get_variable_name" (Property k lit) xs) ->
  asked_names lines = Some (match names with Some xs => xs | None => [] end).
Proof.
  intros H D W. apply first_found in H. pose proof (last_decided _ _ _ D W) as X. unfold asked_names.
  destruct (find _ lines) as [a|].
  - rewrite H. destruct names as [xs|]; [|now rewrite X]. destruct X as (lit & -> & N & F & L).
    unfold listed. destruct (listed_names _ _ N F L) as (q & -> & E). exact E.
  - subst l. destruct names; [|reflexivity]. destruct X as (lit & X & _). discriminate.
Qed.

(** ** Entries of fields *)
Lemma assoc_found {A} k (l : list (string * A)) a : assoc k l = Some a -> exists x, k = txt x /\ In (x, a) l.
Proof.
  induction l as [|[x b] l IH]; cbn [assoc]; [discriminate|]. destruct (bytes_eqb k (txt x)) eqn:E.
  - intros [= <-]. apply bytes_eqb_eq in E. exists x. split; [exact E|now left].
  - intros H. destruct (IH H) as (y & Hy & I). exists y. split; [exact Hy|now right].
Qed.
Lemma entry_variable fa e fa' : field_entry fa e = Some fa' ->
  member fa' SVariableName =
  match e with
  | Property k lit => if bytes_eqb k (txt "variable_name") then Some (AttrParse.Value (parse_list lit)) else member fa SVariableName
  | Tag _ => member fa SVariableName
  end.
Proof.
  destruct e as [i|k lit]; cbn [field_entry].
  - destruct (assoc i field_tags) as [s|] eqn:E; [|discriminate]. intros [= <-]. apply assoc_found in E as (x & _ & I).
    cbn [In field_tags] in I. repeat (destruct I as [[= <- <-]|I]; [reflexivity|]). destruct I.
  - destruct (assoc k field_properties) as [[rk s]|] eqn:E; [|discriminate]. intros [= <-]. apply assoc_found in E as (x & -> & I).
    cbn [In field_properties] in I. repeat (destruct I as [[= <- <- <-]|I]; [reflexivity|]). destruct I.
Qed.
Lemma entries_variable l : forall fa fa', field_entries fa l = Some fa' ->
  member fa' SVariableName =
  match last_property (txt "variable_name") l with Some lit => Some (AttrParse.Value (parse_list lit)) | None => member fa SVariableName end.
Proof.
  induction l as [|e l IH]; intros fa fa'; cbn [field_entries last_property]; [intros [= <-]; reflexivity|].
  destruct (field_entry fa e) as [fb|] eqn:E; [|discriminate]. intros H. rewrite (IH _ _ H).
  destruct (last_property (txt "variable_name") l) as [lit|]; [reflexivity|]. rewrite (entry_variable _ _ _ E).
  destruct e as [i|k lit]; [reflexivity|]. destruct (bytes_eqb k (txt "variable_name")); reflexivity.
Qed.
Lemma published_read l fa names : attributes_of [jbytes_line l] = Some fa ->
  decided (about_names "variable_name") l names ->
  (forall k lit, In (Property k lit) l -> called k ["variable_name"%string] -> exists xs, about_names "variable_name" (Property k lit) xs) ->
  published_names fa = Some (match names with Some xs => xs | None => [] end).
Proof.
  intros H D W. pose proof (last_decided _ _ _ D W) as X. unfold published_names.
  unfold attributes_of, get_attribute, parse_field_attribute, jbytes_line in H. cbn [t_name t_entries] in H.
  change (bytes_eqb (txt "jbytes") (txt "default")) with false in H. change (bytes_eqb (txt "jbytes") (txt "jbytes")) with true in H.
  destruct (field_entries _ l) as [fa'|] eqn:E; [|discriminate]. injection H as <-. rewrite (entries_variable _ _ _ E). cbn [member].
  destruct names as [xs|]; [|now rewrite X]. destruct X as (lit & -> & N & F & L).
  destruct (listed_names _ _ N F L) as (q & -> & EQ). exact EQ.
Qed.
Lemma handing_read A others key gets before fs l : fields_hand A others key gets before fs l ->
  exists out, read_handing A others key gets before fs = Some out /\ nameless out = l /\ map n_name out = map s_name fs.
Proof.
  intros H. induction H as [before|before f r l gs names more L D S V W H (out & R & E & EN)].
  - exists []. repeat split.
  - destruct (C50_all _ _ _ S) as (fa & P & Q). cbn [read_handing]. rewrite (first_line_parsed _ _ L D), P, R.
    rewrite (published_read _ _ _ P V W). unfold handed_meaning in Q. rewrite Q. eexists. split; [reflexivity|].
    unfold nameless in *. cbn [map n_spec n_type n_name]. now rewrite E, EN.
Qed.

(** ** Values *)
Lemma bound_name x : a_name x -> bound x = Some x.
Proof. intros H. unfold bound. now rewrite (lex_name _ H). Qed.
Lemma name_decoded A others fields x : a_name x ->
  code_value (with_self A) (decoder_scope (held fields) (held_all others)) x = option_map Held (decoder_scope fields others x).
Proof.
  intros H. rewrite (C66_text _ _ _ _ _ (whole Atom _ _ (ra_name _ H))). cbn [eval]. apply held_scope.
Qed.
Lemma find_named (names : list bytes) (vs : list val) : forall j x v, NoDup names -> nth_error names j = Some x -> nth_error vs j = Some v ->
  find (fun xv => bytes_eqb x (fst xv)) (combine names vs) = Some (x, v).
Proof.
  revert vs. induction names as [|y names IH]; intros vs j x v D Hx Hv; [destruct j; discriminate|].
  apply NoDup_cons_iff in D as [Hn D]. destruct vs as [|w vs]; [destruct j; discriminate|]. cbn [combine find fst].
  destruct j as [|j].
  - injection Hx as ->. injection Hv as ->. now rewrite bytes_eqb_refl.
  - cbn [nth_error] in Hx, Hv. destruct (bytes_eqb x y) eqn:E.
    + apply bytes_eqb_eq in E. subst y. elim Hn. eapply nth_error_In. exact Hx.
    + eapply IH; eassumption.
Qed.
Lemma published_value A others key gets names vs vars j x z : a_name x -> NoDup names -> nth_error names j = Some x -> nth_error vs j = Some (VInt z) ->
  published_number A others key gets names x (mkenv vs vars) = z.
Proof.
  intros H D Hx Hv. unfold published_number, handed_number, decoder_number. cbn [ev_fields ev_vars].
  rewrite (name_decoded _ _ _ _ H). unfold decoder_scope. now rewrite (find_named _ _ _ _ _ D Hx Hv).
Qed.

(** ** Who publishes what *)
Lemma first_line_unique names lines l l' : first_line names lines l -> first_line names lines l' -> l = l'.
Proof.
  intros [(b & a & m & -> & T & <- & N)|[-> N]] [(b' & a' & m' & E & T' & <- & N')|[-> N']].
  - revert b' E N'. induction b as [|x b IH]; intros [|x' b'] E N'; cbn [app] in E; injection E.
    + intros _ ->. reflexivity.
    + intros _ ->. elim (N' x'); [now left|exact T].
    + intros _ <-. elim (N x); [now left|exact T'].
    + intros E' ->. apply (IH ltac:(intros y Hy; apply N; now right) b' E'). intros y Hy. apply N'. now right.
  - elim (N' a); [apply in_or_app; right; now left|exact T].
  - subst lines. elim (N a'); [apply in_or_app; right; now left|exact T'].
  - reflexivity.
Qed.
Lemma publishes_names f l names x : first_line ["jbytes"%string] (s_lines f) l -> decided (about_names "variable_name") l names ->
  (forall k lit, In (Property k lit) l -> called k ["variable_name"%string] -> exists xs, about_names "variable_name" (Property k lit) xs) ->
  publishes f x <-> In x (match names with Some xs => xs | None => [] end).
Proof.
  intros L D W. split.
  - intros (l' & ys & L' & D' & I). rewrite <- (first_line_unique _ _ _ _ L L') in D'.
    pose proof (last_decided _ _ _ D W) as X. pose proof (last_decided _ _ _ D' W) as (lit & E & N & F & S).
    destruct names as [xs|]; [|congruence]. destruct X as (lit' & E' & N' & F' & S'). rewrite E in E'. injection E' as <-.
    assert (EJ : joined ","%byte xs = joined ","%byte ys) by (rewrite <- (read_string _ _ S), <- (read_string _ _ S'); reflexivity).
    rewrite <- (split_joined ","%byte xs N'), EJ, (split_joined ","%byte ys N); [exact I| |];
      (eapply Forall_impl; [|eassumption]); exact a_name_no_comma.
  - destruct names as [xs|]; [|intros []]. intros I. exists l, xs. auto.
Qed.

Lemma NoDup_front {X} (a b : list X) : NoDup (a ++ b) -> NoDup a.
Proof.
  induction a as [|x a IH]; intros H; [constructor|]. cbn [app] in H. apply NoDup_cons_iff in H as [N H]. constructor; [|now apply IH].
  intros I. apply N, in_or_app. now left.
Qed.
Section Handed.
Variable A : arithmetic val. Variable others : bytes -> option val. Variable key : bytes -> nat. Variable gets : list bytes.
Variable vars : list (nat * N).
Hypothesis Hkey : forall x y, key x = key y -> x = y.
Let hand := fields_hand A others key gets.

Lemma found_publisher before fs l : hand before fs l -> forall done vs x n, In (key x, n) (published vars (map fst l) done vs) ->
  exists f, In f fs /\ publishes f x.
Proof.
  intros H. induction H as [before|before f r l gs names more L D S V W H IH]; intros done vs x n I; [destruct I|].
  destruct vs as [|v vs]; [destruct I|]. cbn [map fst published] in I. apply in_app_or in I as [I|I].
  - exists f. split; [now left|]. apply (publishes_names f l names x L V W). cbn [f_vars set_vars] in I.
    apply in_map_iff in I as ([k e] & E & I). apply in_map_iff in I as (y & E' & I). cbn [fst snd] in E. injection E as E _. injection E' as <- _.
    now rewrite <- (Hkey _ _ E).
  - destruct (IH _ _ _ _ I) as (f' & F & P). exists f'. split; [now right|exact P].
Qed.
Lemma published_found before fs l : hand before fs l -> forall done vs i f x, length vs = length fs ->
  nth_error fs i = Some f -> publishes f x -> exists n, In (key x, n) (published vars (map fst l) done vs).
Proof.
  intros H. induction H as [before|before f r l gs names more L D S V W H IH]; intros done vs i f' x HL Hf P; [destruct i; discriminate|].
  destruct vs as [|v vs]; [discriminate|]. cbn [length] in HL. cbn [map fst published]. destruct i as [|i].
  - injection Hf as <-. apply (publishes_names f l names x L V W) in P. eexists. apply in_or_app. left. cbn [f_vars set_vars].
    apply in_map_iff. eexists. split; [|apply in_map_iff; exists x; split; [reflexivity|exact P]]. reflexivity.
  - destruct (IH (done ++ [v]) vs i f' x) as (n & I); [lia|exact Hf|exact P|]. exists n. apply in_or_app. now right.
Qed.
Lemma published_right before fs l : hand before fs l -> forall done vs j x n z, length done = length before ->
  a_name x -> NoDup (before ++ map s_name fs) -> (j <= length before)%nat ->
  nth_error (before ++ map s_name fs) j = Some x -> nth_error (done ++ vs) j = Some (VInt z) ->
  In (key x, n) (published vars (map fst l) done vs) -> n = unsigned Usize z.
Proof.
  intros H. induction H as [before|before f r l gs names more L D S V W H IH]; intros done vs j x n z HL Hx ND Hj HN HV I; [destruct I|].
  destruct vs as [|v vs]; [destruct I|]. cbn [map fst published] in I. cbn [map] in ND, HN.
  assert (ND' : NoDup ((before ++ [s_name f]) ++ map s_name r)) by (rewrite <- app_assoc; exact ND).
  apply in_app_or in I as [I|I].
  - cbn [f_vars set_vars] in I. apply in_map_iff in I as ([k e] & E & I). apply in_map_iff in I as (y & E' & I).
    cbn [fst snd] in E. injection E as E EN. injection E' as <- <-. apply Hkey in E. subst y.
    rewrite <- EN. f_equal. apply published_value with (j := j); [exact Hx| | |].
    + exact (NoDup_front _ _ ND').
    + change (before ++ s_name f :: map s_name r) with (before ++ [s_name f] ++ map s_name r) in HN. rewrite app_assoc in HN.
      rewrite nth_error_app1 in HN; [exact HN|]. rewrite app_length. cbn. lia.
    + change (done ++ v :: vs) with (done ++ [v] ++ vs) in HV. rewrite app_assoc in HV. rewrite nth_error_app1 in HV; [exact HV|].
      rewrite app_length. cbn. lia.
  - apply (IH (done ++ [v]) vs j x n z); try assumption.
    + rewrite !app_length. cbn. lia.
    + rewrite app_length. lia.
    + rewrite <- app_assoc. exact HN.
    + rewrite <- app_assoc. exact HV.
Qed.
Lemma find_rev_app {X} (p : X -> bool) a b : find p (rev (a ++ b)) = match find p (rev b) with Some r => Some r | None => find p (rev a) end.
Proof.
  rewrite rev_app_distr. induction (rev b) as [|x l IH]; [reflexivity|]. cbn [app find]. destruct (p x); [reflexivity|exact IH].
Qed.
Lemma find_latest before fs l : hand before fs l -> forall done vs i j f x z, length done = length before -> length vs = length fs ->
  a_name x -> NoDup (before ++ map s_name fs) -> nth_error fs i = Some f -> publishes f x -> (j <= length before + i)%nat ->
  nth_error (before ++ map s_name fs) j = Some x -> nth_error (done ++ vs) j = Some (VInt z) ->
  find (fun kv => Nat.eqb (fst kv) (key x)) (rev (published vars (map fst l) done vs)) = Some (key x, unsigned Usize z).
Proof.
  intros H done vs i. revert before fs l H done vs. induction i as [|i IH]; intros before fs l H done vs j f x z HD HL Hx ND Hf P Hj HN HV.
  - rewrite Nat.add_0_r in Hj.
    destruct (published_found _ _ _ H done vs _ _ _ HL Hf P) as (n & I).
    destruct (find _ _) as [[k m]|] eqn:E.
    + apply find_some in E as [I' K]. cbn [fst] in K. apply Nat.eqb_eq in K. subst k. apply in_rev in I'.
      now rewrite (published_right _ _ _ H _ _ _ _ _ _ HD Hx ND Hj HN HV I').
    + apply (fun I => find_none _ _ E _ (proj1 (in_rev _ _) I)) in I. cbn [fst] in I. rewrite Nat.eqb_refl in I. discriminate.
  - inversion H as [|b f0 r l0 gs names more L D S V W H']; subst; [destruct i; discriminate|].
    destruct vs as [|v vs]; [discriminate|]. cbn [map fst published]. rewrite find_rev_app. cbn [map] in ND, HN.
    rewrite (IH (before ++ [s_name f0]) r more H' (done ++ [v]) vs j f x z).
    + reflexivity.
    + rewrite !app_length. cbn. lia.
    + cbn in HL. lia.
    + exact Hx.
    + rewrite <- app_assoc. exact ND.
    + exact Hf.
    + exact P.
    + rewrite app_length. cbn. lia.
    + rewrite <- app_assoc. exact HN.
    + rewrite <- app_assoc. exact HV.
Qed.
End Handed.

Lemma asked_in key gets vars others x : Forall a_name gets -> In x gets ->
  asked key gets vars others x =
  Some (VInt (match find (fun kv => Nat.eqb (fst kv) (key x)) vars with Some kv => Z.of_N (snd kv) | None => 0 end)).
Proof.
  intros F I. unfold asked. destruct (find _ (rev gets)) as [s|] eqn:E.
  - apply find_some in E as [Is K]. apply in_rev in Is. rewrite Forall_forall in F. rewrite (bound_name _ (F _ Is)) in K.
    apply bytes_eqb_eq in K. now subst s.
  - apply (fun I => find_none _ _ E _ (proj1 (in_rev _ _) I)) in I as K. rewrite Forall_forall in F.
    rewrite (bound_name _ (F _ I)), bytes_eqb_refl in K. discriminate.
Qed.
Lemma asked_out key gets vars others x : Forall a_name gets -> ~ In x gets -> asked key gets vars others x = others x.
Proof.
  intros F I. unfold asked. destruct (find _ (rev gets)) as [s|] eqn:E; [|reflexivity].
  apply find_some in E as [Is K]. apply in_rev in Is. rewrite Forall_forall in F. rewrite (bound_name _ (F _ Is)) in K.
  apply bytes_eqb_eq in K. now subst s.
Qed.
