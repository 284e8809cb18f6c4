(** Proofs about [Jdefault]. *)
From Coq Require Import Ascii String.
From Verif Require Import Base Ints Spec SpecOps TextSpec BaseLemmas CodecBase AttrParse AttrSpec AttrLemmas Schema JDefault JDefaultSpec.
Close Scope string_scope.

Lemma backslash_byte : byte_of 92 = BACKSLASH. Proof. reflexivity. Qed.
Lemma unescape_none s : ~ (exists l r, s = l ++ [BACKSLASH; QUOTE] ++ r) -> unescape_quotes s = s.
Proof.
  induction s as [|c s IH]; intros H; [reflexivity|]. destruct s as [|d r]; [reflexivity|].
  rewrite unescape_two. destruct (Byte.eqb c BACKSLASH) eqn:E1; cbn [andb].
  - destruct (Byte.eqb d QUOTE) eqn:E2.
    + exfalso. apply H. exists [], r. apply byte_eqb_eq in E1 as ->. apply byte_eqb_eq in E2 as ->. reflexivity.
    + f_equal. apply IH. intros (l & r' & E). apply H. exists (c :: l), r'. rewrite E. reflexivity.
  - f_equal. apply IH. intros (l & r' & E). apply H. exists (c :: l), r'. rewrite E. reflexivity.
Qed.
Lemma read_text lit s : literal_text lit s -> parse_value_string lit = s.
Proof.
  intros [H|(-> & H1 & H2)]; [exact (read_string _ _ H)|]. unfold parse_value_string. rewrite (unescape_none s H1).
  destruct s as [|c [|d r]]; [reflexivity..|].
  destruct (Byte.eqb c QUOTE) eqn:E; [|reflexivity]. apply byte_eqb_eq in E as ->. exfalso. apply H2. exists (d :: r). reflexivity.
Qed.
Lemma called_exists k l : called k l <-> existsb (bytes_eqb k) (map txt l) = true.
Proof.
  unfold called. rewrite existsb_exists. split.
  - intros H. exists k. split; [exact H|apply bytes_eqb_iff; reflexivity].
  - intros (x & H & E). apply bytes_eqb_iff in E as ->. exact H.
Qed.
Lemma name_is k x : called k [x] <-> bytes_eqb k (txt x) = true.
Proof. rewrite called_exists. cbn [map existsb]. rewrite orb_false_r. reflexivity. Qed.
Lemma default_key_called k : default_key k = true <-> called k ["default"; "default_value"]%string.
Proof.
  rewrite called_exists. unfold default_key. cbn [map existsb]. rewrite !orb_false_r, orb_comm. reflexivity.
Qed.
Lemma default_tag_called i : default_tag i = true <-> called i ["default"; "default_value"; "enum_default"; "branch_default"]%string.
Proof.
  rewrite called_exists. unfold default_tag. cbn [map existsb].
  destruct (bytes_eqb i (txt "default_value")), (bytes_eqb i (txt "default")); reflexivity.
Qed.
Lemma sets_default_key k lit : sets_default (Property k lit) <-> default_key k = true.
Proof.
  rewrite default_key_called. split.
  - intros (k' & lit' & E & H). injection E as -> ->. exact H.
  - intros H. exists k, lit. auto.
Qed.
Lemma tag_sets_nothing i : ~ sets_default (Tag i).
Proof. intros (k & lit & E & _). discriminate. Qed.
Lemma marked_cons e l : marked (e :: l) <-> marked [e] \/ marked l.
Proof.
  split.
  - intros (i & [->|H] & C); [left|right]; exists i; cbn; auto.
  - intros [(i & [->|[]] & C)|(i & H & C)]; exists i; cbn; auto.
Qed.
Lemma marked_tag i : marked [Tag i] <-> default_tag i = true.
Proof.
  rewrite default_tag_called. split; [|intros H; exists i; cbn; auto].
  intros (j & [E|[]] & C). injection E as ->. exact C.
Qed.
Lemma marked_property k lit : ~ marked [Property k lit].
Proof. intros (j & [E|[]] & _). discriminate. Qed.

(** ** One line *)
Definition known_default (on_field : bool) (e : entry) : bool :=
  match e with Tag i => on_field && default_tag i | Property k _ => default_key k end.
Lemma known_default_iff on_field e : default_entry on_field e <-> known_default on_field e = true.
Proof.
  unfold default_entry. destruct e as [i|k lit]; cbn [known_default].
  - rewrite andb_true_iff, marked_tag. pose proof (tag_sets_nothing i). tauto.
  - rewrite sets_default_key. pose proof (marked_property k lit). tauto.
Qed.
(** The loops over the entries, in one definition. *)
Definition entries_loop (on_field : bool) := if on_field then default_entries else default_container_entries.
Definition flag_after (on_field : bool) (e : entry) (b : bool) : bool :=
  match e with Tag i => (on_field && default_tag i) || b | Property _ _ => b end.
Definition text_after (e : entry) (o : option bytes) : option bytes :=
  match e with Tag _ => o | Property k lit => if default_key k then Some (parse_value_string lit) else o end.
Lemma loop_cons on_field r e l : entries_loop on_field r (e :: l) =
  if known_default on_field e || is_jbytes r
  then entries_loop on_field (mkdattrs (is_jbytes r) (flag_after on_field e (default_bool r)) (text_after e (default_value r))) l
  else None.
Proof.
  destruct r as [j b o]. destruct on_field, e as [i|k lit]; cbn [entries_loop default_entries default_container_entries known_default
    flag_after text_after is_jbytes default_bool default_value andb orb].
  - destruct (default_tag i); [reflexivity|]. cbn [orb]. destruct j; reflexivity.
  - destruct (default_key k); [reflexivity|]. cbn [orb]. destruct j; reflexivity.
  - destruct j; reflexivity.
  - destruct (default_key k); [reflexivity|]. cbn [orb]. destruct j; reflexivity.
Qed.
Lemma loop_jbytes on_field l : forall b o, exists b' o', entries_loop on_field (mkdattrs true b o) l = Some (mkdattrs true b' o').
Proof.
  induction l as [|e l IH]; intros b o; [destruct on_field; exists b, o; reflexivity|].
  rewrite loop_cons. cbn [is_jbytes]. rewrite orb_true_r. apply IH.
Qed.
Lemma loop_accepts on_field l : forall r, (forall e, In e l -> known_default on_field e = true) -> exists r', entries_loop on_field r l = Some r'.
Proof.
  induction l as [|e l IH]; intros r H; [destruct on_field; exists r; reflexivity|].
  rewrite loop_cons, (H e (or_introl eq_refl)). apply IH. intros x I. apply H. right. exact I.
Qed.
Lemma loop_refuses on_field l : forall r e, is_jbytes r = false -> In e l -> known_default on_field e = false ->
  entries_loop on_field r l = None.
Proof.
  induction l as [|x l IH]; intros r e J I K; [contradiction|]. rewrite loop_cons, J, orb_false_r.
  destruct I as [->|I]; [rewrite K; reflexivity|]. destruct (known_default on_field x); [|reflexivity].
  eapply IH; [reflexivity|exact I|exact K].
Qed.
Lemma loop_text on_field l : forall r r', entries_loop on_field r l = Some r' ->
  default_value r' = fold_left (fun o e => text_after e o) l (default_value r).
Proof.
  induction l as [|e l IH]; intros r r' H; [destruct on_field; injection H as <-; reflexivity|].
  rewrite loop_cons in H. destruct (_ || _); [|discriminate]. apply IH in H. exact H.
Qed.
Lemma loop_flag l : forall r r', entries_loop true r l = Some r' -> default_bool r' = true <-> default_bool r = true \/ marked l.
Proof.
  induction l as [|e l IH]; intros r r' H.
  - injection H as <-. split; [auto|]. intros [H|(i & [] & _)]. exact H.
  - rewrite loop_cons in H. destruct (_ || _); [|discriminate]. apply IH in H. rewrite H, marked_cons.
    cbn [default_bool]. destruct e as [i|k lit]; cbn [flag_after andb].
    + rewrite orb_true_iff, marked_tag. tauto.
    + pose proof (marked_property k lit). tauto.
Qed.
Lemma no_text l : (forall e, In e l -> ~ sets_default e) -> forall o, fold_left (fun o e => text_after e o) l o = o.
Proof.
  induction l as [|e l IH]; intros H o; [reflexivity|]. cbn [fold_left]. rewrite IH by (intros x I; apply H; right; exact I).
  destruct e as [i|k lit]; [reflexivity|]. cbn [text_after]. destruct (default_key k) eqn:E; [|reflexivity].
  exfalso. apply (H (Property k lit) (or_introl eq_refl)). apply sets_default_key. exact E.
Qed.
Lemma written_text l o : written_default l o -> fold_left (fun o e => text_after e o) l None = o.
Proof.
  intros [l' H|l' k lit r s C H T]; [exact (no_text l' H None)|].
  rewrite fold_left_app. cbn [fold_left text_after]. apply default_key_called in C. rewrite C, (no_text r H).
  f_equal. exact (read_text _ _ T).
Qed.

(** ** The line that counts *)
Definition parse_default (on_field : bool) := if on_field then parse_default_field else parse_default_container.
Definition is_line (on_field : bool) (a : attribute) : bool :=
  bytes_eqb (t_name a) (txt "jbytes") || bytes_eqb (t_name a) (txt "jd") || (on_field && bytes_eqb (t_name a) (txt "jppe")).
Lemma is_line_iff on_field a : default_line on_field a <-> is_line on_field a = true.
Proof.
  unfold default_line, is_line. rewrite called_exists, name_is. cbn [map existsb]. rewrite orb_false_r, !orb_true_iff, andb_true_iff.
  tauto.
Qed.
Lemma parse_line on_field a : parse_default on_field a =
  if is_line on_field a
  then as_outcome (entries_loop on_field (mkdattrs (negb (bytes_eqb (t_name a) (txt "jd"))) false None) (t_entries a))
  else Parses None.
Proof.
  assert (D : forall x y, bytes_eqb (t_name a) (txt x) = true -> bytes_eqb (txt x) (txt y) = false -> bytes_eqb (t_name a) (txt y) = false).
  { intros x y H1 H2. apply bytes_eqb_iff in H1. rewrite H1. exact H2. }
  unfold is_line. destruct on_field; cbn [parse_default entries_loop andb]; unfold parse_default_field, parse_default_container.
  - destruct (bytes_eqb (t_name a) (txt "jbytes")) eqn:E1; [rewrite (D _ "jd"%string E1 eq_refl); reflexivity|].
    destruct (bytes_eqb (t_name a) (txt "jppe")) eqn:E2; [rewrite (D _ "jd"%string E2 eq_refl); reflexivity|].
    destruct (bytes_eqb (t_name a) (txt "jd")); reflexivity.
  - destruct (bytes_eqb (t_name a) (txt "jbytes")) eqn:E1; [rewrite (D _ "jd"%string E1 eq_refl); reflexivity|].
    destruct (bytes_eqb (t_name a) (txt "jd")); reflexivity.
Qed.
Lemma get_skips on_field l r : (forall b, In b l -> ~ default_line on_field b) ->
  get_attribute (parse_default on_field) (l ++ r) = get_attribute (parse_default on_field) r.
Proof.
  induction l as [|a l IH]; intros H; [reflexivity|]. cbn [app get_attribute]. rewrite parse_line.
  destruct (is_line on_field a) eqn:E; [exfalso; apply (H a (or_introl eq_refl)); apply is_line_iff; exact E|].
  apply IH. intros b I. apply H. right. exact I.
Qed.
Definition attributes_for (on_field : bool) (l : list attribute) : option dattrs :=
  or_default (get_attribute (parse_default on_field) l).
(** What is found there. *)
Lemma counted on_field l es o : acceptable on_field l -> counts on_field l es -> written_default es o ->
  exists r, attributes_for on_field l = Some r /\ default_value r = o
            /\ (on_field = true -> (default_bool r = true <-> marked es)).
Proof.
  intros A C W. unfold attributes_for. destruct C as [l H|l a r H L].
  - rewrite <- (app_nil_r l), (get_skips _ _ _ H). cbn [get_attribute or_default]. eexists. split; [reflexivity|].
    cbn [default_value default_bool]. split.
    + apply written_text in W. exact W.
    + intros _. split; [discriminate|]. intros (i & [] & _).
  - rewrite (get_skips _ _ _ H). cbn [get_attribute]. rewrite parse_line. apply is_line_iff in L. rewrite L.
    assert (E : exists x, entries_loop on_field (mkdattrs (negb (bytes_eqb (t_name a) (txt "jd"))) false None) (t_entries a) = Some x).
    { destruct (bytes_eqb (t_name a) (txt "jd")) eqn:J.
      - apply loop_accepts. intros e I. apply known_default_iff. apply (A l a r eq_refl H); [|exact I]. apply name_is, J.
      - destruct (loop_jbytes on_field (t_entries a) false None) as (b & o' & E). eexists. exact E. }
    destruct E as (x & E). rewrite E. cbn [as_outcome or_default]. exists x. split; [reflexivity|]. split.
    + rewrite (loop_text _ _ _ _ E). exact (written_text _ _ W).
    + intros ->. rewrite (loop_flag _ _ _ E). cbn [default_bool]. split; [intros [F|M]; [discriminate|exact M]|auto].
Qed.
Lemma unacceptable on_field l pre a r e : l = pre ++ a :: r -> (forall b, In b pre -> ~ default_line on_field b) ->
  called (t_name a) ["jd"]%string -> In e (t_entries a) -> ~ default_entry on_field e -> attributes_for on_field l = None.
Proof.
  intros -> H J I N. unfold attributes_for. rewrite (get_skips _ _ _ H). cbn [get_attribute]. rewrite parse_line. apply name_is in J.
  unfold is_line. rewrite J, orb_true_r. cbn [orb negb].
  rewrite (loop_refuses _ _ _ e); [reflexivity|reflexivity|exact I|].
  destruct (known_default on_field e) eqn:K; [|reflexivity]. exfalso. apply N, known_default_iff, K.
Qed.

Lemma accepted on_field l : acceptable on_field l -> exists r, attributes_for on_field l = Some r.
Proof.
  unfold attributes_for. induction l as [|a l IH]; intros A; [eexists; reflexivity|]. cbn [get_attribute]. rewrite parse_line.
  destruct (is_line on_field a) eqn:L.
  - destruct (bytes_eqb (t_name a) (txt "jd")) eqn:J; cbn [negb].
    + destruct (loop_accepts on_field (t_entries a) (mkdattrs false false None)) as (x & ->); [|eexists; reflexivity].
      intros e I. apply known_default_iff. apply (A [] a l eq_refl); [intros b []|apply name_is, J|exact I].
    + destruct (loop_jbytes on_field (t_entries a) false None) as (b & o & ->). eexists; reflexivity.
  - apply IH. intros pre b r -> H J. apply (A (a :: pre) b r eq_refl); [|exact J].
    intros c [<-|I]; [|exact (H c I)]. intros D. apply is_line_iff in D. congruence.
Qed.

(** ** Bodies *)
Lemma forall2_length {A B} (R : A -> B -> Prop) l m : Forall2 R l m -> length l = length m.
Proof. induction 1; cbn [length]; congruence. Qed.
Definition with_defaults (m : texts) (f : list attribute * type_form * dty) : list attribute * type_form * option val :=
  (fst f, jdefault m (snd f)).
Definition defaults_to (m : texts) (t : dty) (v : val) : Prop := jdefault m t = Some v.
Lemma field_written m s f v : field_default (defaults_to m) m s f v ->
  exists a, field_argument s (with_defaults m f) = Some a /\ argument_values m a = Some [v].
Proof.
  destruct f as [[attrs form] t]. intros (A & es & C & D). unfold with_defaults, field_argument. cbn [fst snd] in *.
  change (default_attributes attrs) with (attributes_for true attrs).
  destruct D as [(text & W & M)|(W & F & M)]; destruct (counted _ _ _ _ A C W) as (r & -> & -> & _).
  - eexists. split; [reflexivity|exact M].
  - eexists. split; [reflexivity|]. cbn [argument_values]. rewrite M.
    destruct F as [->|[-> ->]]; [destruct s|]; reflexivity.
Qed.
Lemma fields_written m s fs vs : Forall2 (field_default (defaults_to m) m s) fs vs ->
  exists args, all_some (map (field_argument s) (map (with_defaults m) fs)) = Some args
    /\ all_some (map (argument_values m) args) = Some (map (fun v => [v]) vs).
Proof.
  induction 1 as [|f v fs vs H _ (args & E & V)]; [exists []; split; reflexivity|].
  destruct (field_written m s f v H) as (a & Ea & Va). exists (a :: args). cbn [map all_some]. rewrite Ea, E, Va, V. split; reflexivity.
Qed.
Lemma concat_singles {A} (l : list A) : concat (map (fun v => [v]) l) = l.
Proof. induction l as [|x l IH]; [reflexivity|]. cbn [map concat app]. rewrite IH. reflexivity. Qed.
Lemma arguments_given m variant s args vs : all_some (map (argument_values m) args) = Some (map (fun v => [v]) vs) ->
  arguments_values m (mkexpression variant s args) (length vs) = Some vs.
Proof.
  intros H. unfold arguments_values. cbn [x_args x_shape]. rewrite H, concat_singles, Nat.eqb_refl.
  assert (E : forallb (fun l : list val => Nat.eqb (length l) 1) (map (fun v => [v]) vs) = true)
    by (clear; induction vs as [|? ? IH]; [reflexivity|exact IH]).
  destruct s; try rewrite E; reflexivity.
Qed.
Lemma same_shape_refl s : same_shape s s = true.
Proof. destruct s; reflexivity. Qed.
Lemma struct_default m attrs s fs es vs : acceptable false attrs -> counts false attrs es -> written_default es None ->
  Forall2 (field_default (defaults_to m) m s) fs vs -> jdefault m (DStruct attrs s fs) = Some (VList vs).
Proof.
  intros A C W F. cbn [jdefault]. change (map (fun f => (fst f, jdefault m (snd f))) fs) with (map (with_defaults m) fs).
  unfold generate_struct. change (default_container_attributes attrs) with (attributes_for false attrs).
  destruct (counted _ _ _ _ A C W) as (r & -> & -> & _). unfold generate_struct_body.
  destruct (fields_written m s fs vs F) as (args & -> & V). cbn [option_map run_struct x_shape]. rewrite same_shape_refl.
  rewrite (forall2_length _ _ _ F), (arguments_given m None s args vs V). reflexivity.
Qed.
Lemma newtype_default m attrs fs es text vs : acceptable false attrs -> counts false attrs es -> written_default es (Some text) ->
  m text = Some vs -> length vs = length fs -> jdefault m (DStruct attrs Tuple fs) = Some (VList vs).
Proof.
  intros A C W M L. cbn [jdefault]. unfold generate_struct. change (default_container_attributes attrs) with (attributes_for false attrs).
  destruct (counted _ _ _ _ A C W) as (r & -> & -> & _). cbn [run_struct x_shape same_shape].
  unfold arguments_values. cbn [x_args x_shape map argument_values all_some option_map]. rewrite M. cbn [option_map concat].
  rewrite app_nil_r, L, Nat.eqb_refl. reflexivity.
Qed.

(** ** Variants *)
Definition v_with (m : texts) (v : declaration) := (fst v, map (with_defaults m) (snd v)).
Lemma other_nothing m i v : other_variant v -> generate_variant i (v_with m v) = Some [].
Proof.
  destruct v as [[attrs s] fs]. intros (A & es & C & N & W). cbn [fst snd] in *. unfold v_with, generate_variant. cbn [fst snd].
  change (default_attributes attrs) with (attributes_for true attrs).
  destruct (counted _ _ _ _ A C W) as (r & -> & -> & F). destruct (default_bool r) eqn:E; [|reflexivity].
  exfalso. apply N, F; reflexivity.
Qed.
Lemma variants_app m l r : forall i, generate_variants i (map (v_with m) (l ++ r)) =
  match generate_variants i (map (v_with m) l), generate_variants (i + length l) (map (v_with m) r) with
  | Some a, Some b => Some (a ++ b)
  | _, _ => None
  end.
Proof.
  induction l as [|v l IH]; intros i.
  - cbn [app map generate_variants length]. rewrite Nat.add_0_r. destruct (generate_variants i _); reflexivity.
  - cbn [app map generate_variants length]. rewrite IH. replace (i + S (length l))%nat with (S i + length l)%nat by lia.
    destruct (generate_variant i (v_with m v)) as [a|]; [|reflexivity].
    destruct (generate_variants (S i) (map (v_with m) l)) as [b|]; [|reflexivity].
    destruct (generate_variants (S i + length l) (map (v_with m) r)) as [c|]; [|reflexivity].
    rewrite app_assoc. reflexivity.
Qed.
Lemma others_nothing m l : forall i, Forall other_variant l -> generate_variants i (map (v_with m) l) = Some [].
Proof.
  induction l as [|v l IH]; intros i H; [reflexivity|]. inversion H; subst. cbn [map generate_variants].
  rewrite other_nothing by assumption. rewrite IH by assumption. reflexivity.
Qed.
Lemma enum_unfold m attrs vs : jdefault m (DEnum attrs vs) =
  match generate_enum attrs (map (v_with m) vs) with
  | Some body => run_enum m (map (fun v => (snd (fst v), length (snd v))) vs) body
  | None => None
  end.
Proof. reflexivity. Qed.
Lemma one_variant m attrs l v r e : acceptable false attrs ->
  Forall other_variant l -> Forall other_variant r ->
  generate_variant (length l) (v_with m v) = Some [e] ->
  jdefault m (DEnum attrs (l ++ v :: r)) = run_enum m (map (fun v => (snd (fst v), length (snd v))) (l ++ v :: r)) [e].
Proof.
  intros A L R E. rewrite enum_unfold. unfold generate_enum.
  change (default_container_attributes attrs) with (attributes_for false attrs).
  destruct (accepted _ _ A) as (x & ->). rewrite variants_app, (others_nothing m l 0 L). cbn [Nat.add map generate_variants].
  rewrite E, (others_nothing m r _ R). reflexivity.
Qed.
Lemma nth_declared (l : list declaration) v r :
  nth_error (map (fun v => (snd (fst v), length (snd v))) (l ++ v :: r)) (length l) = Some (snd (fst v), length (snd v)).
Proof. rewrite map_app, nth_error_app2; rewrite map_length; [|lia]. rewrite Nat.sub_diag. reflexivity. Qed.
Lemma marked_default m attrs l vattrs s fs r es o vs : acceptable false attrs ->
  Forall other_variant l -> Forall other_variant r ->
  acceptable true vattrs -> counts true vattrs es -> marked es -> written_default es o -> Forall2 (field_default (defaults_to m) m s) fs vs ->
  jdefault m (DEnum attrs (l ++ (vattrs, s, fs) :: r)) = Some (VVariant (length l) vs).
Proof.
  intros A L R A' C M W F. destruct (fields_written m s fs vs F) as (args & E & V).
  rewrite (one_variant m attrs l _ r (mkexpression (Some (length l)) s args) A L R).
  - cbn [run_enum x_variant]. rewrite nth_declared. cbn [fst snd x_shape]. rewrite same_shape_refl, (forall2_length _ _ _ F).
    rewrite (arguments_given m _ s args vs V). reflexivity.
  - unfold v_with, generate_variant. cbn [fst snd]. change (default_attributes vattrs) with (attributes_for true vattrs).
    destruct (counted _ _ _ _ A' C W) as (x & -> & _ & B). rewrite (proj2 (B eq_refl) M). unfold generate_struct_body. rewrite E. reflexivity.
Qed.
Lemma valued_default m attrs l vattrs fs r es text vs : acceptable false attrs ->
  Forall other_variant l -> Forall other_variant r ->
  acceptable true vattrs -> counts true vattrs es -> ~ marked es -> written_default es (Some text) ->
  m text = Some vs -> length vs = length fs ->
  jdefault m (DEnum attrs (l ++ (vattrs, Tuple, fs) :: r)) = Some (VVariant (length l) vs).
Proof.
  intros A L R A' C M W T N.
  rewrite (one_variant m attrs l _ r (mkexpression (Some (length l)) Tuple [Verbatim text]) A L R).
  - cbn [run_enum x_variant]. rewrite nth_declared. cbn [fst snd x_shape same_shape].
    unfold arguments_values. cbn [x_args x_shape map argument_values all_some option_map]. rewrite T. cbn [option_map concat].
    rewrite app_nil_r, N, Nat.eqb_refl. reflexivity.
  - unfold v_with, generate_variant. cbn [fst snd]. change (default_attributes vattrs) with (attributes_for true vattrs).
    destruct (counted _ _ _ _ A' C W) as (x & -> & -> & B). destruct (default_bool x) eqn:D; [|reflexivity].
    exfalso. apply M, B; reflexivity.
Qed.
(** No or two default variants. *)
Lemma something m i v : says_something v -> generate_variant i (v_with m v) = None \/ exists e, generate_variant i (v_with m v) = Some [e].
Proof.
  destruct v as [[attrs s] fs]. intros (A & es & o & C & W & S). cbn [fst snd] in *. unfold v_with, generate_variant. cbn [fst snd].
  change (default_attributes attrs) with (attributes_for true attrs).
  destruct (counted _ _ _ _ A C W) as (r & -> & -> & F). destruct (default_bool r) eqn:E.
  - destruct (generate_struct_body (Some i) s (map (with_defaults m) fs)); cbn [option_map]; eauto.
  - destruct S as [M|N]; [apply F in M; [discriminate|reflexivity]|]. destruct o as [t|]; [eauto|contradiction].
Qed.
Lemma none_default m attrs vs : Forall other_variant vs -> jdefault m (DEnum attrs vs) = None.
Proof.
  intros H. rewrite enum_unfold. unfold generate_enum. rewrite (others_nothing m vs 0 H).
  destruct (default_container_attributes attrs); reflexivity.
Qed.
Lemma two_defaults m attrs l v r w q : says_something v -> says_something w ->
  jdefault m (DEnum attrs (l ++ v :: r ++ w :: q)) = None.
Proof.
  intros S1 S2. rewrite enum_unfold. unfold generate_enum. destruct (default_container_attributes attrs); [|reflexivity].
  rewrite variants_app. cbn [map generate_variants Nat.add].
  destruct (generate_variants 0 (map (v_with m) l)) as [a|]; [|reflexivity].
  destruct (something m (length l) v S1) as [->|(e & ->)]; [reflexivity|].
  rewrite variants_app. cbn [map generate_variants].
  destruct (generate_variants (S (length l)) (map (v_with m) r)) as [b|]; [|reflexivity].
  destruct (something m (S (length l) + length r) w S2) as [->|(e' & ->)]; [reflexivity|].
  destruct (generate_variants _ (map (v_with m) q)) as [c|]; [|reflexivity].
  destruct a as [|x a]; cbn [app]; [|destruct a; cbn [app]; [|reflexivity]; reflexivity].
  destruct b; reflexivity.
Qed.
Lemma something_variant m i v e : says_something v -> generate_variant i (v_with m v) = Some [e] -> x_variant e = Some i.
Proof.
  destruct v as [[attrs s] fs]. intros _. unfold v_with, generate_variant. cbn [fst snd].
  destruct (default_attributes attrs) as [r|]; [|discriminate]. destruct (default_bool r).
  - unfold generate_struct_body. destruct (all_some _); [|discriminate]. intros E. injection E as <-. reflexivity.
  - destruct (default_value r); [|discriminate]. intros E. injection E as <-. reflexivity.
Qed.
Lemma the_default m attrs (l : list declaration) v r w : jdefault m (DEnum attrs (l ++ v :: r)) = Some w -> says_something v ->
  exists vs, w = VVariant (length l) vs.
Proof.
  intros E S1. revert E. rewrite enum_unfold. unfold generate_enum. destruct (default_container_attributes attrs); [|discriminate].
  rewrite variants_app. cbn [map generate_variants Nat.add].
  destruct (generate_variants 0 (map (v_with m) l)) as [a|]; [|discriminate].
  destruct (something m (length l) v S1) as [->|(e & X)]; [discriminate|].
  pose proof (something_variant m (length l) v e S1 X) as V. rewrite X.
  destruct (generate_variants (S (length l)) (map (v_with m) r)) as [b|]; [|discriminate]. intros E.
  destruct a as [|a0 a]; cbn [app] in E; [|destruct a; discriminate]. destruct b; [|discriminate].
  cbn [run_enum] in E. rewrite V in E. destruct (nth_error _ (length l)) as [[s n]|]; [|discriminate].
  destruct (same_shape _ s); [|discriminate]. destruct (arguments_values m e n) as [vs|]; [|discriminate].
  injection E as <-. exists vs. reflexivity.
Qed.

(** Nested declarations. *)
Definition fields_mono (P Q : dty -> val -> Prop) m s (M : forall t v, P t v -> Q t v) :=
  fix go fs vs (F : Forall2 (field_default P m s) fs vs) : Forall2 (field_default Q m s) fs vs :=
  match F with
  | Forall2_nil _ => Forall2_nil _
  | Forall2_cons f v (conj A (ex_intro _ es (conj C H))) R =>
      Forall2_cons f v
        (conj A (ex_intro _ es (conj C
          match H with
          | or_introl H' => or_introl H'
          | or_intror (conj W (conj D H')) => or_intror (conj W (conj D (M (snd f) v H')))
          end))) (go _ _ R)
  end.
Lemma has_default_computed m : forall t v, has_default m t v -> jdefault m t = Some v.
Proof.
  fix IH 3. intros t v H. destruct H.
  - reflexivity.
  - eapply struct_default; try eassumption. exact (fields_mono _ (defaults_to m) _ _ IH _ _ H2).
  - eapply newtype_default; eassumption.
  - eapply marked_default; try eassumption. exact (fields_mono _ (defaults_to m) _ _ IH _ _ H6).
  - eapply valued_default; eassumption.
Qed.

(** ** Nothing else has a default *)
Lemma written_somehow l : (forall k lit, In (Property k lit) l -> exists s, literal_text lit s) -> exists o, written_default l o.
Proof.
  intros H. assert (X : (forall e, In e l -> ~ sets_default e) \/ exists a k lit r, l = a ++ Property k lit :: r
    /\ default_key k = true /\ forall e, In e r -> ~ sets_default e).
  { clear H. induction l as [|e l [IH|(a & k & lit & r & -> & K & N)]]; [left; intros e []|..].
    - destruct e as [i|k lit]; [left; intros e [<-|I]; [apply tag_sets_nothing|exact (IH e I)]|].
      destruct (default_key k) eqn:K; [right; exists [], k, lit, l; auto|]. left. intros e [<-|I]; [|exact (IH e I)].
      intros S. apply sets_default_key in S. congruence.
    - right. exists (e :: a), k, lit, r. auto. }
  destruct X as [N|(a & k & lit & r & -> & K & N)]; [exists None; apply no_default, N|].
  destruct (H k lit) as [s T]; [apply in_or_app; right; left; reflexivity|].
  exists (Some s). apply last_default; [apply default_key_called, K|exact N|exact T].
Qed.
Lemma accept_inv on_field l r : attributes_for on_field l = Some r -> acceptable on_field l.
Proof.
  intros H pre a q E N J e I. destruct (known_default on_field e) eqn:K; [apply known_default_iff, K|].
  rewrite (unacceptable on_field l pre a q e E N J I) in H; [discriminate|]. intros D. apply known_default_iff in D. congruence.
Qed.
Lemma counts_something on_field l : exists es, counts on_field l es /\ (es = [] \/ exists a, In a l /\ es = t_entries a).
Proof.
  assert (X : (forall a, In a l -> ~ default_line on_field a) \/ exists p a r, l = p ++ a :: r
    /\ default_line on_field a /\ forall b, In b p -> ~ default_line on_field b).
  { induction l as [|a l IH]; [left; intros a []|]. destruct (is_line on_field a) eqn:L.
    - right. exists [], a, l. split; [reflexivity|]. split; [apply is_line_iff, L|intros b []].
    - assert (N : ~ default_line on_field a) by (intros D; apply is_line_iff in D; congruence).
      destruct IH as [IH|(p & b & r & -> & D & F)].
      + left. intros x [<-|I]; [exact N|exact (IH x I)].
      + right. exists (a :: p), b, r. split; [reflexivity|]. split; [exact D|]. intros x [<-|I]; [exact N|exact (F x I)]. }
  destruct X as [N|(p & a & r & -> & D & F)].
  - exists []. split; [apply counts_none, N|left; reflexivity].
  - exists (t_entries a). split; [apply counts_first; assumption|]. right. exists a. split; [apply in_or_app; right; left; reflexivity|reflexivity].
Qed.
Lemma found on_field l r : literals l -> attributes_for on_field l = Some r ->
  acceptable on_field l /\ exists es, counts on_field l es /\ written_default es (default_value r)
    /\ (on_field = true -> (default_bool r = true <-> marked es)).
Proof.
  intros L H. pose proof (accept_inv _ _ _ H) as A. split; [exact A|].
  destruct (counts_something on_field l) as (es & C & O). exists es. split; [exact C|].
  destruct (written_somehow es) as [o W].
  { intros k lit I. destruct O as [->|(a & Ia & ->)]; [destruct I|]. exact (L a k lit Ia I). }
  destruct (counted _ _ _ _ A C W) as (r' & E & V & M). rewrite H in E. injection E as <-. rewrite V. auto.
Qed.
Lemma field_back m s f a l : literals (fst (fst f)) -> field_argument s (with_defaults m f) = Some a -> argument_values m a = Some l ->
  (length l = 1%nat \/ one_expression m s (fst (fst f)) /\ s <> Named) -> (forall v, jdefault m (snd f) = Some v -> has_default m (snd f) v) ->
  exists v, l = [v] /\ field_default (has_default m) m s f v.
Proof.
  destruct f as [[attrs form] t]. cbn [fst snd]. unfold with_defaults, field_argument. cbn [fst snd].
  change (default_attributes attrs) with (attributes_for true attrs). intros L. destruct (attributes_for true attrs) as [r|] eqn:E; [|discriminate].
  destruct (found true attrs r L E) as (A & es & C & W & _). intros Ha Hv O K. injection Ha as <-. unfold field_default. cbn [fst snd].
  destruct (default_value r) as [text|] eqn:V; cbn [argument_values] in Hv.
  - assert (N : length l = 1%nat) by (destruct O as [O|[O S]]; [exact O|exact (O S es text l C W Hv)]).
    destruct l as [|v [|]]; try discriminate. exists v. split; [reflexivity|]. split; [exact A|]. exists es. split; [exact C|]. left. eauto.
  - destruct (default_call s form (jdefault m t)) as [v|] eqn:D; [|discriminate]. injection Hv as <-. exists v. split; [reflexivity|].
    split; [exact A|]. exists es. split; [exact C|]. right. split; [exact W|]. unfold default_call in D. unfold default_form.
    destruct form, s; try discriminate; (split; [auto|apply K; exact D]).
Qed.
Lemma fields_back m s fs : forall args ls, on_all (fun f => literals (fst (fst f)) /\ one_expression m s (fst (fst f)) /\ well_written m (snd f)) fs ->
  Forall (fun f : list attribute * type_form * dty => well_written m (snd f) -> forall v, jdefault m (snd f) = Some v -> has_default m (snd f) v) fs ->
  all_some (map (field_argument s) (map (with_defaults m) fs)) = Some args -> all_some (map (argument_values m) args) = Some ls ->
  (s = Named -> forallb (fun l => Nat.eqb (length l) 1) ls = true) ->
  exists vs, ls = map (fun v => [v]) vs /\ Forall2 (field_default (has_default m) m s) fs vs.
Proof.
  induction fs as [|f fs IH]; intros args ls O F Ha Hv N.
  - injection Ha as <-. injection Hv as <-. exists []. split; [reflexivity|constructor].
  - destruct O as [(L & O1 & Wf) O]. inversion_clear F as [|? ? F1 F2]. cbn [map all_some] in Ha.
    destruct (field_argument s (with_defaults m f)) as [a|] eqn:Ef; [|discriminate].
    destruct (all_some (map (field_argument s) (map (with_defaults m) fs))) as [as'|] eqn:Es; [|discriminate]. injection Ha as <-.
    cbn [map all_some] in Hv. destruct (argument_values m a) as [l|] eqn:El; [|discriminate].
    destruct (all_some (map (argument_values m) as')) as [ls'|] eqn:Els; [|discriminate]. injection Hv as <-.
    destruct (field_back m s f a l L Ef El) as (v & -> & Hf); [|exact (F1 Wf)|].
    { destruct s; [right; split; [exact O1|discriminate]|left|right; split; [exact O1|discriminate]].
      specialize (N eq_refl). cbn [forallb] in N. apply andb_true_iff in N as [N _]. apply Nat.eqb_eq, N. }
    destruct (IH as' ls' O F2 eq_refl Els) as (vs & -> & H).
    { intros S. specialize (N S). cbn [forallb] in N. apply andb_true_iff in N. apply N. }
    exists (v :: vs). split; [reflexivity|constructor; assumption].
Qed.
Lemma body_back m variant s fs args declared vs : on_all (fun f => literals (fst (fst f)) /\ one_expression m s (fst (fst f)) /\ well_written m (snd f)) fs ->
  Forall (fun f : list attribute * type_form * dty => well_written m (snd f) -> forall v, jdefault m (snd f) = Some v -> has_default m (snd f) v) fs ->
  all_some (map (field_argument s) (map (with_defaults m) fs)) = Some args ->
  arguments_values m (mkexpression variant s args) declared = Some vs -> Forall2 (field_default (has_default m) m s) fs vs.
Proof.
  intros O F Ha. unfold arguments_values. cbn [x_args x_shape]. destruct (all_some (map (argument_values m) args)) as [ls|] eqn:E; [|discriminate].
  match goal with |- context [if ?c && _ then _ else _] => destruct c eqn:N; [|discriminate] end. cbn [andb].
  destruct (Nat.eqb _ _); [|discriminate]. intros H. injection H as <-.
  destruct (fields_back m s fs args ls O F Ha E) as (vs & -> & H); [intros ->; exact N|]. rewrite concat_singles. exact H.
Qed.
Lemma same_shape_eq s t : same_shape s t = true -> s = t.
Proof. destruct s, t; try discriminate; reflexivity. Qed.
Lemma text_back m variant text declared vs : arguments_values m (mkexpression variant Tuple [Verbatim text]) declared = Some vs ->
  m text = Some vs /\ length vs = declared.
Proof.
  unfold arguments_values. cbn [x_args x_shape map argument_values all_some]. destruct (m text) as [l|]; [|discriminate].
  cbn [option_map concat andb]. rewrite app_nil_r. destruct (Nat.eqb_spec (length l) declared) as [<-|]; [|discriminate].
  intros H. injection H as <-. auto.
Qed.
(** Variants that are not the default one. *)
Lemma nothing_other m i v : literals (fst (fst v)) -> generate_variant i (v_with m v) = Some [] -> other_variant v.
Proof.
  destruct v as [[attrs s] fs]. unfold v_with, generate_variant. cbn [fst snd]. change (default_attributes attrs) with (attributes_for true attrs).
  intros L. destruct (attributes_for true attrs) as [r|] eqn:E; [|discriminate]. destruct (found true attrs r L E) as (A & es & C & W & M).
  destruct (default_bool r) eqn:B; [destruct (generate_struct_body _ _ _); discriminate|].
  destruct (default_value r) eqn:V; [discriminate|]. intros _. split; [exact A|]. exists es. cbn [fst]. split; [exact C|]. split; [|exact W].
  intros K. apply (M eq_refl) in K. discriminate.
Qed.
Lemma nothing_others m vs : forall i, Forall (fun v : declaration => literals (fst (fst v))) vs -> generate_variants i (map (v_with m) vs) = Some [] ->
  Forall other_variant vs.
Proof.
  induction vs as [|v vs IH]; intros i F H; [constructor|]. inversion_clear F as [|? ? F1 F2]. cbn [map generate_variants] in H.
  destruct (generate_variant i (v_with m v)) as [a|] eqn:E; [|discriminate].
  destruct (generate_variants (S i) (map (v_with m) vs)) as [b|] eqn:E'; [|discriminate]. injection H as H.
  apply app_eq_nil in H as [-> ->]. constructor; [exact (nothing_other m i v F1 E)|exact (IH _ F2 E')].
Qed.
Lemma one_found m vs : forall i e, Forall (fun v : declaration => literals (fst (fst v))) vs -> generate_variants i (map (v_with m) vs) = Some [e] ->
  exists l v r, vs = l ++ v :: r /\ Forall other_variant l /\ Forall other_variant r /\ generate_variant (i + length l) (v_with m v) = Some [e].
Proof.
  induction vs as [|v vs IH]; intros i e F H; [discriminate|]. inversion_clear F as [|? ? F1 F2]. cbn [map generate_variants] in H.
  destruct (generate_variant i (v_with m v)) as [a|] eqn:E; [|discriminate].
  destruct (generate_variants (S i) (map (v_with m) vs)) as [b|] eqn:E'; [|discriminate]. injection H as H.
  destruct a as [|x a]; cbn [app] in H.
  - subst b. destruct (IH (S i) e F2 E') as (l & w & r & -> & Hl & Hr & G). exists (v :: l), w, r. split; [reflexivity|].
    split; [constructor; [exact (nothing_other m i v F1 E)|exact Hl]|]. split; [exact Hr|]. cbn [length].
    replace (i + S (length l))%nat with (S i + length l)%nat by lia. exact G.
  - injection H as -> H. apply app_eq_nil in H as [-> ->]. exists [], v, vs. split; [reflexivity|]. split; [constructor|].
    split; [exact (nothing_others m vs _ F2 E')|]. cbn [length]. rewrite Nat.add_0_r. exact E.
Qed.
Lemma on_all_in {A} (P : A -> Prop) l x : on_all P l -> In x l -> P x.
Proof. induction l as [|y l IH]; intros H I; [destruct I|]. destruct H as [H1 H2]. destruct I as [<-|I]; [exact H1|exact (IH H2 I)]. Qed.
Section Nested.
  Variable P : dty -> Prop.
  Hypothesis HK : forall v, P (DKnown v).
  Hypothesis HS : forall attrs s fs, Forall (fun f => P (snd f)) fs -> P (DStruct attrs s fs).
  Hypothesis HE : forall attrs vs, Forall (fun v : declaration => Forall (fun f => P (snd f)) (snd v)) vs -> P (DEnum attrs vs).
  Fixpoint dty_nested (t : dty) : P t :=
    let each := fix each (fs : list (list attribute * type_form * dty)) : Forall (fun f => P (snd f)) fs :=
      match fs with [] => Forall_nil _ | f :: r => Forall_cons f (dty_nested (snd f)) (each r) end in
    match t with
    | DKnown v => HK v
    | DStruct attrs s fs => HS attrs s fs (each fs)
    | DEnum attrs vs => HE attrs vs ((fix variants (vs : list declaration) : Forall (fun v : declaration => Forall (fun f => P (snd f)) (snd v)) vs :=
        match vs with [] => Forall_nil _ | v :: r => Forall_cons v (each (snd v)) (variants r) end) vs)
    end.
End Nested.
Lemma computed_has_default m : forall t, well_written m t -> forall v, jdefault m t = Some v -> has_default m t v.
Proof.
  apply (dty_nested (fun t => well_written m t -> forall v, jdefault m t = Some v -> has_default m t v)).
  - intros v _ w H. injection H as <-. constructor.
  - intros attrs s fs IH [L O] v H. cbn [jdefault] in H. change (map (fun f => (fst f, jdefault m (snd f))) fs) with (map (with_defaults m) fs) in H.
    unfold generate_struct in H. change (default_container_attributes attrs) with (attributes_for false attrs) in H.
    destruct (attributes_for false attrs) as [r|] eqn:E; [|discriminate]. destruct (found false attrs r L E) as (A & es & C & W & _).
    destruct (default_value r) as [text|].
    + cbn [run_struct x_shape] in H. destruct (same_shape Tuple s) eqn:S; [|discriminate]. apply same_shape_eq in S as <-.
      destruct (arguments_values m _ _) as [vs|] eqn:V; [|discriminate]. injection H as <-. apply text_back in V as [V N].
      eapply of_newtype; eassumption.
    + unfold generate_struct_body in H. destruct (all_some _) as [args|] eqn:Ea; [|discriminate]. cbn [option_map run_struct x_shape] in H.
      rewrite same_shape_refl in H. destruct (arguments_values m _ _) as [vs|] eqn:V; [|discriminate]. injection H as <-.
      eapply of_fields; [exact A|exact C|exact W|]. exact (body_back m None s fs args _ vs O IH Ea V).
  - intros attrs vs IH O v H. rewrite enum_unfold in H. unfold generate_enum in H.
    change (default_container_attributes attrs) with (attributes_for false attrs) in H.
    destruct (attributes_for false attrs) as [r0|] eqn:E0; [|discriminate]. apply accept_inv in E0.
    destruct (generate_variants 0 (map (v_with m) vs)) as [[|e [|e' es']]|] eqn:G; try discriminate.
    destruct (one_found m vs 0 e) as (l & d & r & -> & Hl & Hr & Gd); [|exact G|].
    { apply Forall_forall. intros d I. apply (on_all_in _ _ d O I). }
    assert (Id : In d (l ++ d :: r)) by (apply in_or_app; right; left; reflexivity).
    destruct (on_all_in _ _ d O Id) as [Ld Od]. rewrite Forall_forall in IH. specialize (IH d Id). cbn [Nat.add] in Gd.
    destruct d as [[vattrs s] fs]. cbn [fst snd] in *. unfold v_with, generate_variant in Gd. cbn [fst snd] in Gd.
    change (default_attributes vattrs) with (attributes_for true vattrs) in Gd. destruct (attributes_for true vattrs) as [x|] eqn:E; [|discriminate].
    destruct (found true vattrs x Ld E) as (A & es & C & W & M). specialize (M eq_refl). destruct (default_bool x).
    + unfold generate_struct_body in Gd. destruct (all_some _) as [args|] eqn:Ea; [|discriminate]. injection Gd as <-.
      cbn [run_enum x_variant] in H. rewrite nth_declared in H. cbn [fst snd x_shape] in H. rewrite same_shape_refl in H.
      destruct (arguments_values m _ _) as [ws|] eqn:V; [|discriminate]. injection H as <-.
      eapply of_marked; try eassumption; [apply M; reflexivity|]. exact (body_back m _ s fs args _ ws Od IH Ea V).
    + destruct (default_value x) as [text|]; [|discriminate]. injection Gd as <-.
      cbn [run_enum x_variant] in H. rewrite nth_declared in H. cbn [fst snd x_shape] in H.
      destruct (same_shape Tuple s) eqn:S; [|discriminate]. apply same_shape_eq in S as <-.
      destruct (arguments_values m _ _) as [ws|] eqn:V; [|discriminate]. injection H as <-. apply text_back in V as [V N].
      eapply of_valued; try eassumption. intros K. apply M in K. discriminate.
Qed.
