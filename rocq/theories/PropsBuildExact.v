(** C93: where a derived decoder panics because of overflow checks. *)
From Coq Require Import Ascii String.
From Verif Require VarSourceLemmas PropsMachineEncode.
From Verif Require Import Base BaseLemmas Ints SpecOps Reader Writer Sugar TextSpec Text AttrParse AttrSpec AttrLemmas PropsAttr EnumTextSpec GenExpr GenExprSpec
  GenExprLemmas PropsExpr GenDecode GenSpec GenLemmas PropsGen Source SourceSpec SourceLemmas PropsSource
  Decode Encode Spec Collections Containers NetLemmas PropsContainers WireSpec Examples FieldSpec PropsEnumSource MachineExpr MachineSpec MachineEncodeSpec PropsMachine PropsCondition
  MachineBuild MachineBuildSpec PropsBuild Schema.
Close Scope string_scope.

(** ** Stores *)
Lemma insert_other x n z s : x <> CATTR_NEW -> look x (insert_variable n z s) = look x s.
Proof.
  intros N. induction s as [|[y a] s IH]; [reflexivity|]. cbn [insert_variable]. destruct (bytes_eqb CATTR_NEW y) eqn:E; rewrite !look_cons.
  - apply bytes_eqb_eq in E. subst y. now rewrite (GenLemmas.eqb_neq N).
  - destruct (bytes_eqb x y); [reflexivity|exact IH].
Qed.
Lemma run_stmt_other dty c st input p st' p' x : run_stmt dty c st input p = Ok st' p' -> x <> CATTR_NEW -> ~ In x (map fst (binds c)) -> look x st' = look x st.
Proof.
  intros H N B. destruct c; cbn [run_stmt binds map fst In] in H, B; unfold with_modifiers, on_input, bound, bind, ret, panic, fail in H;
    repeat match type of H with
           | context [match look ?y ?s with _ => _ end] => destruct (look y s) as [[]|]; try discriminate H
           | context [if ?c then _ else _] => destruct c; try discriminate H
           | context [match ?o with _ => _ end] => destruct o; try discriminate H
           end; try discriminate H; injection H as <- <-; rewrite ?look_cons, ?GenLemmas.eqb_neq by (intros ->; tauto); try reflexivity.
  now apply insert_other.
Qed.
Lemma run_guarded_other dty l x : forall st input p st' p', run_guarded dty l st input p = Ok st' p' -> x <> CATTR_NEW ->
  ~ In x (map fst (all_binds (map snd l))) -> look x st' = look x st.
Proof.
  induction l as [|[g c] l IH]; intros st input p st' p'; cbn [run_guarded map snd all_binds].
  - intros [= <- <-]. reflexivity.
  - destruct (g st); [discriminate|]. unfold bind. destruct (run_stmt dty c st input p) as [st1 p1| | |] eqn:E; try discriminate. intros H N B.
    rewrite map_app, in_app_iff in B. rewrite (IH _ _ _ _ _ H N) by tauto. apply (run_stmt_other _ _ _ _ _ _ _ _ E N). tauto.
Qed.
(** Guards that ask for variables which stay what they are. *)
Inductive settled : list ((store -> bool) * stmt) -> Prop :=
| se_end : settled []
| se_more g c l names : (forall st st', (forall x, In x names -> look x st = look x st') -> g st = g st') ->
    (forall x, In x names -> x <> CATTR_NEW /\ ~ In x (map fst (all_binds (map snd ((g, c) :: l))))) -> settled l -> settled ((g, c) :: l).
Lemma same_binds dty l r : Forall2 (guarded_same dty) l r -> all_binds (map snd l) = all_binds (map snd r).
Proof. induction 1 as [|a b l r [E _] H IH]; [reflexivity|]. cbn [map all_binds]. now rewrite IH, E. Qed.
Lemma track dty l r : Forall2 (guarded_same dty) l r -> settled l ->
  forall st input p st' p', run_guarded dty r st input p = Ok st' p' ->
  run_guarded dty l st input p = Ok st' p' /\ (forall g, In g l -> fst g st' = false) \/
  run_guarded dty l st input p = Panic /\ exists g, In g l /\ fst g st' = true.
Proof.
  induction 1 as [|[g c] [h d] l r E H IH]; intros SE st input p st' p' R; [left; split; [exact R|easy]|].
  destruct E as [EB1 E]. pose proof (same_binds _ _ _ H) as EB2. inversion SE as [|g0 c0 l0 names ST NB SE']; subst.
  assert (X : g st' = g st).
  { apply ST. intros x I. destruct (NB x I) as [N B]. apply (run_guarded_other dty ((h, d) :: r) x _ _ _ _ _ R N). intros J. apply B. cbn [map snd all_binds] in *.
    refine (eq_ind _ (fun z => In x (map fst (z ++ binds c))) _ _ (eq_sym EB2)). cbv beta. rewrite EB1. exact J. }
  cbn [run_guarded] in R |- *. destruct (E st) as [G|(G & G' & S)]; cbn [fst snd] in *.
  - right. rewrite G. split; [reflexivity|]. exists (g, c). split; [now left|]. cbn [fst]. congruence.
  - rewrite G' in R. rewrite G, S. unfold bind in R |- *. destruct (run_stmt dty d st input p) as [st1 p1| | |]; try discriminate.
    destruct (IH SE' _ _ _ _ _ R) as [[R' F]|(R' & g' & I & F)]; [left; split; [exact R'|]|right; split; [exact R'|]].
    + intros g' [<-|I]; [cbn [fst]; congruence|now apply F].
    + exists g'. split; [now right|exact F].
Qed.
Lemma settled_app names l r : settled r ->
  (forall g, In g l -> forall st st', (forall x, In x names -> look x st = look x st') -> fst g st = fst g st') ->
  (forall x, In x names -> x <> CATTR_NEW /\ ~ In x (map fst (all_binds (map snd (l ++ r))))) -> settled (l ++ r).
Proof.
  intros R. induction l as [|[g c] l IH]; intros G N; [exact R|]. cbn [app]. apply (se_more _ _ _ names).
  - exact (G (g, c) (or_introl eq_refl)).
  - exact N.
  - apply IH; [intros g' I; apply G; now right|]. intros x I. destruct (N x I) as [A B]. split; [exact A|]. intros J. apply B. cbn [app map snd all_binds].
    rewrite map_app, in_app_iff. now left.
Qed.
(** ** Expressions *)
Section Values.
Context (types : bytes -> option ty) (fields : list (bytes * (ty * val))).
Context (HT : forall x u v, In (x, (u, v)) fields -> types x = Some u) (HV : forall x u v, In (x, (u, v)) fields -> holds u v).
Let F := map (fun f => (fst f, fst (snd f))) fields.
Let names := map fst fields.
Let vs := map (fun f : bytes * (ty * val) => snd (snd f)) fields.
Lemma found x : field_type F x = option_map (fun f => fst (snd f)) (find (fun f => if list_eq_dec Byte.byte_eq_dec x (fst f) then true else false) fields).
Proof. unfold field_type, F. clear. induction fields as [|[y [u v]] r IH]; [reflexivity|]. cbn [map find fst snd]. destruct (list_eq_dec _ x y); [reflexivity|exact IH]. Qed.
Lemma scope_values : scope_typed (integer_field F) (number_in fields) /\ fields_seen (number_in fields) (flag_in fields) /\
  forall x, flag_field F x -> flag_in fields x <> None.
Proof.
  assert (R : forall x t z, number_in fields x = Some (t, z) -> in_range t z).
  { intros x t z. unfold number_in, integers_of. match goal with |- context [find ?f fields] => destruct (find f fields) as [[y [u v]]|] eqn:E end; [|discriminate].
    apply find_some in E as [I _]. specialize (HV _ _ _ I). destruct u; try discriminate. destruct HV as (w & -> & B). now intros [= <- <-]. }
  split; [split; [|exact R]|split; [split; [exact R|]|]].
  - intros x. unfold integer_field. rewrite found. unfold number_in, integers_of.
    match goal with |- context [find ?f fields] => destruct (find f fields) as [[y [u v]]|] eqn:E end; [|reflexivity]. cbn [option_map fst snd].
    apply find_some in E as [I _]. specialize (HV _ _ _ I). destruct u; try reflexivity. destruct HV as (w & -> & B). reflexivity.
  - intros x. unfold flag_in, truths_of, number_in, integers_of.
    match goal with |- context [find ?f fields] => destruct (find f fields) as [[y [u v]]|] eqn:E end; [|reflexivity]. destruct u; try reflexivity; intros H; now elim H.
  - intros x. unfold flag_field. rewrite found. unfold flag_in, truths_of.
    match goal with |- context [find ?f fields] => destruct (find f fields) as [[y [u v]]|] eqn:E end; [|discriminate]. cbn [option_map fst snd]. intros [= ->].
    apply find_some in E as [I _]. specialize (HV _ _ _ I). destruct HV as (b & ->). discriminate.
Qed.
Lemma scope_is x : variables types names vs x = seen (number_in fields) (flag_in fields) x.
Proof. exact (variables_seen types fields HT x). Qed.
Lemma eval_scope checks e : eval (machine_arithmetic checks) (variables types names vs) e = eval (machine_arithmetic checks) (seen (number_in fields) (flag_in fields)) e.
Proof. induction e as [n|x|e IH f|e IH t|o a IHa b IHb]; cbn [eval]; rewrite ?IH, ?IHa, ?IHb; auto using scope_is. Qed.
Lemma number_panics code k text x u : (code = var_code /\ k = Disjunction \/ code = GenExpr.order_code /\ k = Cast) ->
  reads_as k text x -> has_type (integer_field F) x u ->
  (panics true types names vs (code false text) = false <-> exists z, value (number_in fields) x u z).
Proof.
  intros C T H. assert (X : exists name v, type_name name v /\ code_value (machine_arithmetic true) (variables types names vs) (code false text) =
      eval (machine_arithmetic true) (seen (number_in fields) (flag_in fields)) (ECast x name)).
  { destruct C as [[-> ->]|[-> ->]].
    - exists (txt "usize"), Usize. split; [constructor|]. rewrite (C66_text _ _ _ _ _ (var_reads _ _ T)). apply eval_scope.
    - exists (txt "isize"), Isize. split; [constructor|]. rewrite (C66_text _ _ _ _ _ (order_reads _ _ T)). apply eval_scope. }
  destruct X as (name & v & TN & E). unfold panics. rewrite E. cbn [eval]. destruct scope_values as (ST & _ & _).
  destruct (C90_checked _ _ _ _ ST H) as [(z & V & EV)|[NV EV]]; rewrite (eval_more _ _ _ _ _ (seen_more _ (flag_in fields)) EV); cbn [a_cast machine_arithmetic];
    unfold machine_cast; rewrite (type_found _ _ TN).
  - split; [intros _; now exists z|reflexivity].
  - split; [discriminate|]. intros (z & V). elim (NV u z V).
Qed.
Lemma condition_panics text x : reads_as Disjunction text x -> is_condition (integer_field F) (flag_field F) x ->
  (panics true types names vs text = false <-> exists c, decides (number_in fields) (flag_in fields) x c).
Proof.
  intros T H. destruct scope_values as ([ST _] & FS & FL). unfold panics.
  assert (H' : a_condition (number_in fields) (flag_in fields) x).
  { unfold a_condition. clear T. assert (Z : forall e t, fits_type (integer_field F) e t -> fits_type (fun y => option_map fst (number_in fields y)) e t).
    { intros e t FT. clear - FT ST. revert e t FT. 
      apply (fits_type_rec (integer_field F) (fun e t => has_type (fun y => option_map fst (number_in fields y)) e t) (fun e t => fits_type (fun y => option_map fst (number_in fields y)) e t));
        intros; try (econstructor; eauto; fail). constructor. now rewrite <- ST. }
    induction H; [apply ic_flag; now apply FL|eapply ic_compare; eauto|now apply ic_and|now apply ic_or|now apply ic_not|eapply ic_both; eauto]. }
  pose proof (C91_checked _ _ _ _ FS T H') as C. rewrite (C66_text _ _ _ _ _ T) in C. rewrite (C66_text _ _ _ _ _ T), eval_scope.
  destruct C as [(c & D & ->)|[N ->]]; [split; [intros _; now exists c|reflexivity]|split; [discriminate|intros (c & D); elim (N c D)]].
Qed.
End Values.
(** ** What entries leave in the parsed attributes *)
Lemma puts_in ef fa s : In s (map fst ef) -> member (puts ef fa) s <> None.
Proof.
  induction ef as [|[t c] ef IH]; cbn [map fst In puts fold_right snd]; [easy|]. cbn [put member]. intros [-> |I]; [now rewrite slot_beq_refl|].
  destruct (slot_beq t s); [discriminate|]. now apply IH.
Qed.
Lemma stays_set l : forall fa fa' s, field_entries fa l = Some fa' -> member fa s <> None -> member fa' s <> None.
Proof.
  induction l as [|e l IH]; intros fa fa' s; cbn [field_entries]; [now intros [= <-]|]. rewrite entry_effects. destruct (effects e) as [ef|]; [|discriminate].
  cbn [option_map]. intros H N. apply (IH _ _ _ H). clear - N. induction ef as [|[t c] ef IH]; [exact N|]. cbn [puts fold_right fst snd put member].
  destruct (slot_beq t s); [discriminate|exact IH].
Qed.
Lemma entry_set l : forall fa fa' s e ef, field_entries fa l = Some fa' -> In e l -> effects e = Some ef -> In s (map fst ef) -> member fa' s <> None.
Proof.
  induction l as [|e l IH]; intros fa fa' s e' ef; cbn [field_entries]; [easy|]. rewrite entry_effects.
  destruct (effects e) as [ef'|] eqn:E; [|discriminate]. cbn [option_map]. intros H [-> |I] E' J.
  - apply (stays_set _ _ _ _ H). apply puts_in. congruence.
  - exact (IH _ _ _ _ _ H I E' J).
Qed.
Lemma stays l : forall fa fa' s, field_entries fa l = Some fa' -> (forall e ef, In e l -> effects e = Some ef -> ~ In s (map fst ef)) -> member fa' s = member fa s.
Proof.
  induction l as [|e l IH]; intros fa fa' s; cbn [field_entries]; [now intros [= <-]|]. rewrite entry_effects.
  destruct (effects e) as [ef'|] eqn:E; [|discriminate]. cbn [option_map]. intros H N. rewrite (IH _ _ _ H) by (intros; eapply N; [right|]; eassumption).
  apply puts_other. apply (N e); [now left|exact E].
Qed.
Lemma entry_stands l : forall fa fa' s rk k lit, ForallOrdPairs AttrSpec.distinct l -> field_entries fa l = Some fa' -> In (Property k lit) l ->
  assoc k field_properties = Some (rk, s) -> member fa' s = Some (read_literal rk lit).
Proof.
  induction l as [|e l IH]; intros fa fa' s rk k lit D; cbn [field_entries]; [easy|]. rewrite entry_effects.
  destruct (effects e) as [ef'|] eqn:E; [|discriminate]. cbn [option_map]. inversion D as [|e0 l0 DH DT]; subst. intros H [-> |I] A.
  - rewrite (stays _ _ _ s H).
    + cbn [effects] in E. rewrite A in E. injection E as <-. destruct (bytes_eqb k (txt "bits_start")) eqn:K.
      * cbn [app puts fold_right fst snd put member]. destruct (slot_beq SBitsStart s) eqn:B; [|now rewrite slot_beq_refl].
        apply internal_slot_dec_bl in B. subst s. exfalso. apply bytes_eqb_eq in K. subst k. vm_compute in A. discriminate.
      * cbn [app puts fold_right fst snd put member]. now rewrite slot_beq_refl.
    + rewrite Forall_forall in DH. intros e ef I E'. apply (effects_disjoint _ _ _ _ (DH e I) E E'). cbn [effects] in E. rewrite A in E. injection E as <-.
      rewrite map_app, in_app_iff. right. now left.
  - exact (IH _ _ _ _ _ _ DT H I A).
Qed.
Lemma number_property : forallb (fun x => match assoc (txt x) field_properties with
  | Some (RUsize, s) => existsb (slot_beq s) number_slots
  | _ => false end) number_keys = true.
Proof. vm_compute. reflexivity. Qed.
Lemma unset_slots : forallb (fun s => negb (existsb (fun p => slot_beq s (snd (snd p))) field_properties)) [SSkip; SSkipDecode; SFromStrBool] = true.
Proof. vm_compute. reflexivity. Qed.
Section Stand.
Context (m : meaning) (l : list entry) (gs : list (fspec -> fspec)) (fa : field_attributes).
Context (S : Forall2 (says m) l gs) (P : attributes_of [jbytes_line l] = Some fa).
Lemma said e : In e l -> exists g, says m e g.
Proof. clear -S. revert e. induction S as [|e g l gs H S' IH]; intros e' I; [destruct I|destruct I as [<-|I]; eauto]. Qed.
Lemma tag_set s : In s [SSkip; SSkipDecode; SFromStrBool] -> member fa s <> None -> exists x, In (Tag x) l /\ called x ["skip"; "skip_decode"; "from_str"]%string.
Proof.
  intros IS N. destruct (member fa s) as [c|] eqn:M; [|now elim N]. pose proof P as P'. rewrite line_parsed in P'.
  destruct (member_from _ _ _ _ _ P' M) as [X|(e & ef & I & E & J)]; [discriminate X|]. assert (J' : In s (map fst ef)) by (apply in_map_iff; exists (s, c); now split).
  destruct e as [i|k lit].
  - exists i. split; [exact I|]. destruct (tag_slots _ _ _ E J') as (x & A & ->). clear - A IS.
    cbn in A, IS. destruct IS as [<-|[<-|[<-|[]]]]; repeat (destruct A as [A|A]; [first [discriminate A|injection A as <-; cbn; tauto]|]); destruct A.
  - exfalso. pose proof (proj1 (forallb_forall _ _) unset_slots s IS) as U. cbv beta in U. apply negb_true_iff in U.
    destruct (property_slots _ _ _ _ E J') as [[-> _]|(x & rk & A & _)]; [cbn in IS; intuition discriminate|].
    rewrite (proj2 (existsb_exists _ _)) in U; [discriminate|]. exists (x, (rk, s)). split; [exact A|]. apply slot_beq_refl.
Qed.
Lemma set_tag x : In (Tag x) l -> called x ["skip"; "skip_decode"; "from_str"]%string -> exists s, In s [SSkip; SSkipDecode; SFromStrBool] /\ member fa s <> None.
Proof.
  intros I C. pose proof P as P'. rewrite line_parsed in P'.
  assert (X : exists s, In s [SSkip; SSkipDecode; SFromStrBool] /\ assoc x field_tags = Some s).
  { unfold called in C. cbn [map In] in C. destruct C as [<-|[<-|[<-|[]]]]; [exists SSkip|exists SSkipDecode|exists SFromStrBool]; (split; [cbn; tauto|vm_compute; reflexivity]). }
  destruct X as (s & IS & A). exists s. split; [exact IS|]. apply (entry_set _ _ _ s _ [(s, Flag)] P' I); [cbn [effects]; now rewrite A|now left].
Qed.
Lemma no_with s t : In s [SWith; SWithDecode; SFromStr] -> member fa s <> Some (Raw t).
Proof.
  intros IS M. destruct (content_from _ _ _ _ P M ltac:(discriminate)) as (x & rk & lit & I & J & _). destruct (said _ I) as (g & SG).
  assert (K : called (txt x) ["from_str"; "with_decode"; "decode_with"; "with"]%string).
  { clear - J IS. cbn in J, IS. destruct IS as [<-|[<-|[<-|[]]]]; repeat (destruct J as [J|J]; [first [discriminate J|injection J as <- _; cbn; tauto]|]); destruct J. }
  clear - SG K. inversion SG; subst; not_called.
Qed.
Lemma decoded_here m' : conditional l <-> f_skip_decode (field_spec m' fa) = None /\ f_from_str (field_spec m' fa) = None.
Proof.
  unfold field_spec. cbn [f_skip_decode f_from_str]. split.
  - intros C. assert (N : forall s, In s [SSkip; SSkipDecode; SFromStrBool] -> member fa s = None).
    { intros s IS. destruct (member fa s) as [c|] eqn:M; [|reflexivity]. destruct (tag_set s IS) as (x & I & K); [congruence|]. elim (C x I K). }
    rewrite !N by (cbn; tauto). split; [reflexivity|]. destruct (member fa SFromStr) as [[| |t]|] eqn:M; try reflexivity. elim (no_with SFromStr t); [cbn; tauto|exact M].
  - intros [A B] x I K. destruct (set_tag x I K) as (s & IS & N). cbn in IS.
    destruct IS as [<-|[<-|[<-|[]]]]; [destruct (member fa SSkip)|destruct (member fa SSkip), (member fa SSkipDecode)|destruct (member fa SFromStrBool)]; try discriminate; now elim N.
Qed.
Lemma not_with m' : f_with_decode (field_spec m' fa) = None.
Proof.
  unfold field_spec. cbn [f_with_decode]. unfold with_code. destruct (member fa SWithDecode) as [[| |t]|] eqn:M; try (elim (no_with SWithDecode t); [cbn; tauto|exact M]);
    cbn [raw_code]; destruct (member fa SWith) as [[| |t]|] eqn:M'; try reflexivity; elim (no_with SWith t); (cbn; tauto) || exact M'.
Qed.
Context (D : ForallOrdPairs AttrSpec.distinct l).
Lemma number_stands e x : In e l -> holds_number e x ->
  exists t, In t (texts fa [SByteorder]) /\ reads_as Cast t x \/ exists s t, In s number_slots /\ In t (texts fa [s]) /\ reads_as Disjunction t x.
Proof.
  intros I H. pose proof P as P'. rewrite line_parsed in P'. inversion H as [k lit text x' SL K X R|k lit text x' SL K X R]; subst.
  - exists []. right. unfold called in K. apply in_map_iff in K as (y & <- & K).
    pose proof (proj1 (forallb_forall _ _) number_property y K) as N. cbv beta in N. destruct (assoc (txt y) field_properties) as [[[] s]|] eqn:A; try discriminate.
    apply existsb_exists in N as (s' & N & E). apply internal_slot_dec_bl in E. subst s'. exists s, text. split; [exact N|]. split; [|exact R].
    pose proof (entry_stands _ _ _ _ _ _ _ D P' I A) as M. cbn [read_literal] in M. rewrite (parse_expression _ _ SL X) in M. unfold texts. cbn [flat_map]. rewrite M. now left.
  - exists text. left. split; [|exact R]. unfold called in K. apply in_map_iff in K as (y & <- & [<-|[]]).
    pose proof (entry_stands _ _ _ SByteorder ROrder _ _ D P' I ltac:(vm_compute; reflexivity)) as M. cbn [read_literal] in M. rewrite (order_expression _ _ SL X) in M.
    unfold texts. cbn [flat_map]. rewrite M. now left.
Qed.
Lemma condition_stands e x : In e l -> holds_condition e x -> exists t, member fa SIfExpr = Some (Raw t) /\ reads_as Disjunction t x.
Proof.
  intros I H. pose proof P as P'. rewrite line_parsed in P'. inversion H as [k lit text x' SL K R]; subst.
  exists text. split; [|exact R]. unfold called in K. apply in_map_iff in K as (y & <- & [<-|[]]).
  pose proof (entry_stands _ _ _ SIfExpr RString _ _ D P' I ltac:(vm_compute; reflexivity)) as M. cbn [read_literal] in M. now rewrite (read_string _ _ SL) in M.
Qed.
End Stand.
(** ** The guards of a field *)
Section Guards.
Context (types : bytes -> option ty) (fields : list (bytes * (ty * val))) (vars : list (nat * N)).
Context (HT : forall x u v, In (x, (u, v)) fields -> types x = Some u) (HV : forall x u v, In (x, (u, v)) fields -> holds u v).
Let F := map (fun f => (fst f, fst (snd f))) fields.
Let names := map fst fields.
Let vs := map (fun f : bytes * (ty * val) => snd (snd f)) fields.
Context (m m' : meaning) (l : list entry) (gs : list (fspec -> fspec)) (fa : field_attributes).
Context (S : Forall2 (says m) l gs) (P : attributes_of [jbytes_line l] = Some fa).
Context (AT : attributes_typed (integer_field F) (flag_field F) (fun x => exists e, In e l /\ holds_number e x) (fun x => exists e, In e l /\ holds_condition e x) fa).
Context (i : nat) (name : bytes) (u : ty) (before : list bytes).
Let stmts := gen_fields true vars before i [mkfield name (field_spec m' fa) u].
Lemma defined_passes c : (forall e, In e l -> entry_defined fields l e) -> In c stmts -> stmt_panics true types names fa c vs = false.
Proof.
  intros DF IC. assert (N : forall sl, incl sl number_slots -> existsb (fun t => panics true types names vs (var_code false t)) (texts fa sl) = false).
  { intros sl L. destruct (existsb _ _) eqn:X; [|reflexivity]. apply existsb_exists in X as (t & I & E). unfold texts in I. apply in_flat_map in I as (s & I & J).
    assert (J' : In t (texts fa [s])) by (unfold texts; cbn [flat_map]; now rewrite app_nil_r).
    destruct (at_numbers _ _ _ _ _ AT s t (L s I) J') as (x & v & T & H & e & Ie & He).
    pose proof (proj2 (number_panics types fields HT HV var_code Disjunction t x v (or_introl (conj eq_refl eq_refl)) T H) (proj1 (DF e Ie) x v He H)) as E'.
    exact (False_ind _ (Bool.diff_true_false (eq_trans (eq_sym E) E'))). }
  destruct c; try reflexivity; cbn [stmt_panics].
  - rewrite N by (intros s I; cbn in *; tauto). rewrite orb_false_r. destruct (existsb _ _) eqn:X; [|reflexivity]. apply existsb_exists in X as (t & I & E).
    destruct (at_byteorder _ _ _ _ _ AT t I) as (x & v & T & H & e & Ie & He).
    pose proof (proj2 (number_panics types fields HT HV GenExpr.order_code Cast t x v (or_intror (conj eq_refl eq_refl)) T H) (proj1 (DF e Ie) x v He H)) as E'.
    exact (False_ind _ (Bool.diff_true_false (eq_trans (eq_sym E) E'))).
  - apply N. intros s I; cbn in *; tauto.
  - destruct c; [|reflexivity]. destruct (member fa SIfExpr) as [[| |t]|] eqn:X; try reflexivity.
    destruct (at_condition _ _ _ _ _ AT t X) as (x & T & H & e & Ie & He).
    apply (condition_panics types fields HT HV t x T H). apply (proj2 (DF e Ie) x He H). apply (decoded_here m l gs fa S P m').
    unfold stmts in IC. cbn [gen_fields orb n_spec n_name n_type] in IC. rewrite app_nil_r in IC. cbn [app In] in IC. destruct IC as [IC|IC]; [discriminate|].
    unfold gen_field in IC. rewrite (not_with m l gs fa S P m') in IC. rewrite !in_app_iff in IC. destruct IC as [IC|[IC|IC]].
    + destruct (f_offset _); [destruct IC as [IC|[]]; discriminate|destruct IC].
    + destruct (f_skip_decode _); [destruct IC as [IC|[]]; discriminate|]. destruct (f_from_str _) as [[pa sh]|]; [destruct IC as [IC|[IC|[]]]; discriminate|]. now split.
    + unfold field_spec in IC. cbn [f_vars] in IC. rewrite (at_no_variable _ _ _ _ _ AT) in IC. destruct IC.
Qed.
Lemma passes_defined : ForallOrdPairs AttrSpec.distinct l -> (forall c, In c stmts -> stmt_panics true types names fa c vs = false) ->
  forall e, In e l -> entry_defined fields l e.
Proof.
  intros D G e Ie. unfold stmts in G. cbn [gen_fields orb n_spec n_name n_type] in G. rewrite app_nil_r in G. cbn [app In] in G. split.
  - intros x t He H. pose proof (G _ (or_introl eq_refl)) as G1. cbn [stmt_panics] in G1. apply orb_false_iff in G1 as [GO GN].
    destruct (number_stands l fa P D e x Ie He) as (t0 & [[I T]|(s & t1 & IS & I & T)]).
    + apply (number_panics types fields HT HV GenExpr.order_code Cast t0 x t (or_intror (conj eq_refl eq_refl)) T H).
      destruct (panics _ _ _ _ _) eqn:E; [|reflexivity]. rewrite <- GO. symmetry. apply existsb_exists. now exists t0.
    + apply (number_panics types fields HT HV var_code Disjunction t1 x t (or_introl (conj eq_refl eq_refl)) T H).
      destruct (panics _ _ _ _ _) eqn:E; [|reflexivity]. destruct (slot_beq s SOffset) eqn:SO.
      * apply internal_slot_dec_bl in SO. subst s. pose proof (text_from _ _ _ I) as M.
        assert (IA : In (Advance (fun st => m_number m' t1 (sees before vars st))) (gen_field vars before (mkbinder name i u) (field_spec m' fa))).
        { unfold gen_field. apply in_app_iff. left. unfold field_spec. cbn [f_offset]. rewrite M. now left. }
        pose proof (G _ (or_intror IA)) as GA. cbn [stmt_panics] in GA. rewrite <- GA. symmetry. apply existsb_exists. now exists t1.
      * rewrite <- GN. symmetry. apply existsb_exists. exists t1. split; [|exact E]. apply (in_texts fa s); [|exact I]. cbn in IS |- *.
        repeat (destruct IS as [<-|IS]; [first [tauto|discriminate SO]|]). destruct IS.
  - intros x He H C. destruct (condition_stands l fa P D e x Ie He) as (t & M & T). apply (condition_panics types fields HT HV t x T H).
    apply (decoded_here m l gs fa S P m') in C as [C1 C2].
    assert (ID : In (LetDecoded (mkbinder name i u) (Some (fun s => m_condition m' t (sees before vars s)))) (gen_field vars before (mkbinder name i u) (field_spec m' fa))).
    { unfold gen_field. rewrite (not_with m l gs fa S P m'), C1, C2. apply in_app_iff. right. apply in_app_iff. left. apply in_app_iff. right. apply in_app_iff. left.
      unfold field_spec. cbn [f_if]. rewrite M. now left. }
    pose proof (G _ (or_intror ID)) as GD. cbn [stmt_panics] in GD. rewrite M in GD. exact GD.
Qed.
End Guards.
(** ** Structs *)
Lemma twice (a b : list bytes) x : NoDup (a ++ b) -> In x a -> In x b -> False.
Proof. induction a as [|y a IH]; [easy|]. cbn [app]. intros N [-> |I] J; apply NoDup_cons_iff in N as [N D]; [apply N, in_app_iff; now right|now apply IH]. Qed.
Definition valued (st : store) (f : source_field) : bytes * (ty * val) := (s_name f, (s_type f, value_of_local (look (s_name f) st))).
Lemma fields_exact types vars numbers stn rest : forall past b0 out i fs, fields_mean numbers b0 rest out ->
  read_fields (build_number true types) (map s_name past) (with_conditions (build_condition true types) (map s_name past) rest) = Some fs ->
  (forall f, In f (past ++ rest) -> types (s_name f) = Some (s_type f) /\ holds (s_type f) (value_of_local (look (s_name f) stn)) /\ ~ In (s_name f) reserved) ->
  (forall j f l, nth_error rest j = Some f -> first_line ["jbytes"%string] (s_lines f) l ->
     Forall (entry_typed (map typed_name (past ++ firstn j rest))) l /\ ForallOrdPairs AttrSpec.distinct l) ->
  NoDup (map s_name (past ++ rest)) ->
  map n_name fs = map s_name rest /\ settled (build_stmts true types vars (map s_name past) i rest fs) /\
  map snd (build_stmts true types vars (map s_name past) i rest fs) = gen_fields true vars (map s_name past) i fs /\
  ((forall g, In g (build_stmts true types vars (map s_name past) i rest fs) -> fst g stn = false) <->
   (forall j f l e, nth_error rest j = Some f -> first_line ["jbytes"%string] (s_lines f) l -> In e l -> entry_defined (map (valued stn) (past ++ firstn j rest)) l e)).
Proof.
  induction rest as [|f rest IH]; intros past b0 out i fs HM R HF TY ND.
  - cbn in R. injection R as <-. cbn. split; [reflexivity|]. split; [constructor|]. split; [reflexivity|]. split; [|easy]. intros _ [|j] f l e; discriminate.
  - inversion HM as [|b f' r l gs0 more L D S V HM']; subst. destruct (C50_all _ _ _ S) as (fa & P & _).
    cbn [with_conditions read_fields s_lines s_name s_meaning s_type] in R. rewrite (first_line_parsed _ _ L D), P in R.
    destruct (read_fields _ _ _) as [fs0|] eqn:R0; [|discriminate]. injection R as <-.
    assert (EN : map s_name (past ++ [f]) = map s_name past ++ [s_name f]) by (rewrite map_app; reflexivity). rewrite <- EN in R0.
    assert (EA : past ++ f :: rest = (past ++ [f]) ++ rest) by (rewrite <- app_assoc; reflexivity).
    destruct (IH (past ++ [f]) _ _ (Datatypes.S i) fs0 HM' R0) as (N1 & N2 & N3 & N4).
    { intros g. rewrite <- EA. apply HF. }
    { intros j g l' J L'. destruct (TY (Datatypes.S j) g l' J L') as [T1 T2]. split; [|exact T2]. cbn [firstn] in T1. now rewrite <- app_assoc. }
    { now rewrite <- EA. }
    rewrite EN in N2, N3, N4. destruct (TY 0%nat f l eq_refl L) as [TF DF]. cbn [firstn] in TF. rewrite app_nil_r in TF.
    assert (HT : forall x u v, In (x, (u, v)) (map (valued stn) past) -> types x = Some u).
    { intros x u v I. apply in_map_iff in I as (g & [= <- <- <-] & I). apply (HF g). apply in_app_iff. now left. }
    assert (HV : forall x u v, In (x, (u, v)) (map (valued stn) past) -> holds u v).
    { intros x u v I. apply in_map_iff in I as (g & [= <- <- <-] & I). apply (HF g). apply in_app_iff. now left. }
    assert (EF : map typed_name past = map (fun f => (fst f, fst (snd f))) (map (valued stn) past)) by (rewrite map_map; reflexivity).
    rewrite EF in TF. pose proof (entries_typed _ _ _ _ _ S V TF P) as AT.
    assert (E1 : map s_name past = map fst (map (valued stn) past)) by (rewrite map_map; reflexivity).
    assert (E2 : ev_fields (sees (map s_name past) vars stn) = map (fun f => snd (snd f)) (map (valued stn) past)) by (cbn [sees ev_fields]; rewrite !map_map; reflexivity).
    cbn [build_stmts map n_name]. rewrite (first_line_parsed _ _ L D), P. split; [now rewrite N1|].
    match goal with |- settled (map ?h ?q ++ ?r) /\ _ => set (here := q); set (G := h); set (there := r) in * end.
    assert (SN : map snd (map G here ++ there) = gen_fields true vars (map s_name past) i (mkfield (s_name f) (field_spec (with_numbers (build_number true types var_code (map s_name past)) (build_number true types GenExpr.order_code (map s_name past)) (mkmeaning (m_number (s_meaning f)) (m_order (s_meaning f)) (build_condition true types (map s_name past)) (m_function (s_meaning f)) (m_value (s_meaning f)) (m_literal (s_meaning f)) (m_name (s_meaning f)) (m_default (s_meaning f)) (m_from_str (s_meaning f)) (m_decoder (s_meaning f)) (m_encoder (s_meaning f)))) fa) (s_type f) :: fs0)).
    { rewrite map_app, N3, map_map. unfold G. cbn [snd]. rewrite map_id. unfold here. cbn [gen_fields n_spec n_name n_type]. now rewrite !app_nil_r, app_assoc. }
    split; [|split; [exact SN|]].
    + apply (settled_app (map s_name past)); [exact N2| |].
      * intros g I st st' E. apply in_map_iff in I as (c & <- & _). unfold G. cbn [fst]. f_equal. cbn [sees ev_fields]. apply map_ext_in. intros x I. now rewrite (E x I).
      * intros x I. apply in_map_iff in I as (g & <- & I). destruct (HF g) as (_ & _ & NR); [apply in_app_iff; now left|].
        split; [intros E; apply NR; rewrite E; cbn; tauto|]. intros J. pose proof (eq_ind _ (fun z => In (s_name g) (map fst (all_binds z))) J _ SN) as J'. cbv beta in J'. clear J. rename J' into J. apply in_map_iff in J as ([y k] & E & J). cbn [fst] in E. subst y.
        apply gen_fields_names in J as [J|J]; [|contradiction]. cbn [map n_name] in J. rewrite N1 in J. rewrite map_app in ND.
        exact (twice _ _ _ ND (in_map s_name _ _ I) J).
    + split.
      * intros A [|j] g l' e J L' I.
        -- cbn in J. injection J as <-. rewrite <- (VarSourceLemmas.first_line_unique _ _ _ _ L L') in *. cbn [firstn]. rewrite app_nil_r.
           refine (passes_defined types (map (valued stn) past) vars HT HV _ _ l gs0 fa S P i (s_name f) (s_type f) (map s_name past) DF _ e I).
           intros c IC. rewrite <- E1, <- E2. exact (A (G c) (proj2 (in_app_iff _ _ _) (or_introl (in_map G here c IC)))).
        -- cbn in J. cbn [firstn]. replace (past ++ f :: firstn j rest) with ((past ++ [f]) ++ firstn j rest) by (rewrite <- app_assoc; reflexivity).
           apply (proj1 N4) with g; auto. intros g' I'. apply A. apply in_app_iff. now right.
      * intros A g I. apply in_app_iff in I as [I|I].
        -- apply in_map_iff in I as (c & <- & IC). unfold G. cbn [fst]. rewrite E2, E1.
           refine (defined_passes types (map (valued stn) past) vars HT HV _ _ l gs0 fa S P AT i (s_name f) (s_type f) (map s_name past) c _ IC).
           intros e Ie. pose proof (A 0%nat f l e eq_refl L Ie) as A0. cbn [firstn] in A0. now rewrite app_nil_r in A0.
        -- apply (proj2 N4); [|exact I]. intros j g' l' e J L' Ie. rewrite <- app_assoc. exact (A (Datatypes.S j) g' l' e J L' Ie).
Qed.
Lemma names_bound k fs : map b_name (binders k fs) = map n_name fs.
Proof. revert k. induction fs as [|f fs IH]; intros k; [reflexivity|]. cbn [binders map b_name]. now rewrite IH. Qed.
Lemma before_valued s stn i : map (valued stn) (firstn i (s_fields s)) = fields_before s (map (fun f => value_of_local (look (s_name f) stn)) (s_fields s)) i.
Proof.
  unfold fields_before. revert i. induction (s_fields s) as [|f r IH]; intros [|i]; try reflexivity. cbn [map combine firstn fst snd]. rewrite IH. reflexivity.
Qed.
(** Where the decoder without overflow checks delivers the values [vs], the one with them
    delivers the same if every expression in the attributes has a value, and panics else. *)
Theorem C93_exact : forall s c l dty ca input p n vs,
  (exists es, first_line ["jbytes"; "repr"]%string (s_container s) es /\ Forall container_entry es /\ Forall own_codec es /\
     decided about_order es (c_order c) /\ decided about_width es (c_byte_count c)) ->
  fields_mean (machine_number (types_of s)) [] (s_fields s) l -> source_typed s ->
  NoDup (map s_name (s_fields s)) -> (forall f, In f (s_fields s) -> own_name (s_name f)) ->
  (forall f es, In f (s_fields s) -> first_line ["jbytes"%string] (s_lines f) es -> ForallOrdPairs AttrSpec.distinct es) ->
  Forall2 holds (map s_type (s_fields s)) vs ->
  exists d d', build_decoder true s = Some d /\ build_decoder false s = Some d' /\
    (run_build false dty s d' ca input p = Ok (VList vs) n ->
     source_defined s vs /\ run_build true dty s d ca input p = Ok (VList vs) n \/
     ~ source_defined s vs /\ run_build true dty s d ca input p = Panic).
Proof.
  intros s c l dty ca input p n vs HC HM TY ND ON DI HV. destruct (container_read _ _ HC) as (co & E1 & E2 & _).
  destruct (fields_build dty (types_of s) (k_vars ca) _ (s_fields s) [] [] l 0 HM) as (fs & gs & R1 & R2 & B & G2 & _ & _).
  { cbn [app]. intros x t. unfold field_type, types_of. clear. induction (s_fields s) as [|f r IH]; cbn [map find fst typed_name]; [discriminate|].
    destruct (list_eq_dec Byte.byte_eq_dec x (s_name f)) as [-> |N]; [rewrite bytes_eqb_refl; auto|].
    destruct (bytes_eqb x (s_name f)) eqn:E; [apply bytes_eqb_eq in E; contradiction|exact IH]. }
  { intros j f l' J L. exact (TY j f l' J L). }
  unfold build_decoder, derived. cbn [s_container s_fields]. rewrite E1, E2. cbn [map] in R1, R2, G2. rewrite R1, R2.
  do 2 eexists. split; [reflexivity|]. split; [reflexivity|]. unfold run_build. cbn [d_fields]. unfold bind.
  change (struct_store (mkdecl true ?c (Some fs))) with (struct_store (mkdecl true c (Some gs))).
  set (st0 := struct_store _). destruct (run_guarded dty (build_stmts false _ _ _ _ _ gs) st0 input p) as [stn q| | |] eqn:R; try discriminate.
  unfold ret at 1. intros X. injection X as EV EQ. subst q.
  assert (NB : map n_name fs = map s_name (s_fields s) -> map (fun f => value_of_local (look (s_name f) stn)) (s_fields s) = vs).
  { intros EN. rewrite <- EV, <- B. unfold run_return. transitivity (map (fun x => value_of_local (look x stn)) (map s_name (s_fields s))); [now rewrite map_map|].
    rewrite <- EN, <- (names_bound 0 fs), map_map. reflexivity. }
  assert (EN : map n_name fs = map s_name (s_fields s)).
  { clear - R1. revert R1. generalize (@nil bytes). revert fs. induction (s_fields s) as [|f r IH]; intros fs b; cbn [with_conditions read_fields s_lines s_name]; [now intros [= <-]|].
    destruct (attributes_of _); [|discriminate]. destruct (read_fields _ _ _) as [fs'|] eqn:E; [|discriminate]. intros [= <-]. cbn [map n_name]. now rewrite (IH _ _ E). }
  specialize (NB EN).
  assert (HF : forall f, In f (s_fields s) -> types_of s (s_name f) = Some (s_type f) /\ holds (s_type f) (value_of_local (look (s_name f) stn)) /\ ~ In (s_name f) reserved).
  { intros f I. split; [now apply PropsMachineEncode.type_found|]. split.
    - rewrite <- NB in HV. clear - HV I. induction (s_fields s) as [|g r IH]; [easy|]. cbn [map] in HV. inversion HV; subst. destruct I as [<-|I]; [assumption|now apply IH].
    - intros J. apply (proj1 (ON f I)). clear - J. cbn in *. tauto. }
  destruct (fields_exact (types_of s) (k_vars ca) _ stn (s_fields s) [] [] l 0 fs HM R1 HF) as (_ & SE & _ & DE).
  { intros j f es J L. split; [exact (TY j f es J L)|]. apply (DI f es); [now apply nth_error_In in J|exact L]. }
  { exact ND. }
  cbn [app map] in DE, SE.
  assert (SD : source_defined s vs <-> (forall g, In g (build_stmts true (types_of s) (k_vars ca) [] 0 (s_fields s) fs) -> fst g stn = false)).
  { rewrite DE. unfold source_defined. rewrite <- NB. split; intros H j f es e J L I; specialize (H j f es e J L I); rewrite before_valued in *; exact H. }
  destruct (track dty _ _ G2 SE _ _ _ _ _ R) as [[-> A]|(-> & g & I & A)].
  - left. split; [now apply SD|]. cbn beta iota. unfold ret. now rewrite B, EV.
  - right. split; [|reflexivity]. intros H. pose proof (proj1 SD H g I). congruence.
Qed.
(** ** A text as long as a number less a constant *)
Lemma without_conditions types fs : forall before, (forall f fa t, In f fs -> attributes_of (s_lines f) = Some fa -> member fa SIfExpr <> Some (Raw t)) ->
  read_fields (build_number false types) before (with_conditions (build_condition false types) before fs) = read_fields (machine_number types) before fs.
Proof.
  induction fs as [|f fs IH]; intros before H; [reflexivity|]. cbn [with_conditions read_fields s_lines s_name s_meaning s_type].
  rewrite IH by (intros g fa t I; apply H; now right). destruct (attributes_of (s_lines f)) as [fa|] eqn:A; [|reflexivity].
  destruct (read_fields _ _ _); [|reflexivity]. unfold field_spec. cbn [with_numbers m_number m_order m_condition m_function m_value m_literal m_name m_default m_from_str m_decoder m_encoder].
  destruct (member fa SIfExpr) as [[| |t]|] eqn:M; try reflexivity. elim (H f fa t (or_introl eq_refl) A M).
Qed.
(** A text stands for one expression. *)
Lemma reads_unique text e f : reads_as Disjunction text e -> reads_as Disjunction text f -> e = f.
Proof.
  set (A := mkarithmetic rexpr (fun n => Some (ENum n)) (fun o a b => Some (EOp o a b)) (fun t e => Some (ECast e t)) (fun e f => Some (EField e f))).
  assert (E : forall e, eval A (fun x => Some (EName x)) e = Some e).
  { induction e0 as [n|x|e0 IH g|e0 IH t|o a IHa b IHb]; cbn [eval]; rewrite ?IH, ?IHa, ?IHb; reflexivity. }
  intros H K. pose proof (C66_text _ A (fun x => Some (EName x)) _ _ H) as X. rewrite (C66_text _ A (fun x => Some (EName x)) _ _ K), !E in X. congruence.
Qed.
Lemma less_line t k m f es : In f (s_fields (text_less t k m)) -> first_line ["jbytes"%string] (s_lines f) es ->
  f = mksource_field (txt "len") [] m (TInt t) /\ es = [] \/ f = mksource_field (txt "body") [jbytes_line [Property (txt "length") (quoted (txt "len - " ++ k))]] m TBytes /\ es = [Property (txt "length") (quoted (txt "len - " ++ k))].
Proof.
  intros [<-|[<-|[]]] L; [left|right]; (split; [reflexivity|]); cbn [s_lines] in L.
  - destruct L as [(a & b & c & E & _)|(-> & _)]; [destruct a; discriminate E|reflexivity].
  - destruct L as [(pre & a & post & E & _ & <- & _)|(_ & N)].
    + destruct pre as [|? []]; [injection E as <- _; reflexivity|discriminate|discriminate].
    + exfalso. apply (N _ (or_introl eq_refl)). left. reflexivity.
Qed.
Lemma less_typed t k n : decimal_text k n -> in_range t (Z.of_N n) ->
  entry_typed [(txt "len", TInt t)] (Property (txt "length") (quoted (txt "len - " ++ k))).
Proof.
  intros D R x Q. assert (X : x = txt "len - " ++ k). { rewrite <- (read_string _ _ Q). apply read_string. now apply (less_literal k n). }
  subst x. split; [|split; intros C; vm_compute in C; intuition discriminate]. intros _ _. exists (EOp Minus (EName (txt "len")) (ENum n)), t. split; [now apply less_reads|].
  apply ht_op; [cbn; tauto|intros [(z & H) _]; discriminate|cbn; intuition discriminate|apply ft_type; now constructor|now constructor].
Qed.
Lemma less_source_typed t k n m : decimal_text k n -> in_range t (Z.of_N n) -> source_typed (text_less t k m).
Proof.
  intros D R i f es J L. destruct (less_line _ _ _ _ _ (nth_error_In _ _ J) L) as [[-> ->]|[-> ->]]; [constructor|].
  destruct i as [|[|i]]; [discriminate J| |destruct i; discriminate]. constructor; [|constructor]. now apply less_typed with n.
Qed.
Lemma less_defined t k n m len body : decimal_text k n -> in_range t (Z.of_N n) -> in_range t len ->
  (source_defined (text_less t k m) [VInt len; VBytes body] <-> in_range t (len - Z.of_N n)).
Proof.
  intros D RN RL. set (fields := [(txt "len", (TInt t, VInt len))]).
  assert (EF : fields_before (text_less t k m) [VInt len; VBytes body] 1 = fields) by reflexivity.
  assert (HT : forall x u v, In (x, (u, v)) fields -> types_of (text_less t k m) x = Some u) by (intros x u v [[= <- <- <-]|[]]; reflexivity).
  assert (HV : forall x u v, In (x, (u, v)) fields -> holds u v) by (intros x u v [[= <- <- <-]|[]]; exists len; now split).
  assert (PA : panics true (types_of (text_less t k m)) (map fst fields) (map (fun f => snd (snd f)) fields) (var_code false (txt "len - " ++ k)) = false <-> in_range t (len - Z.of_N n)).
  { unfold panics. rewrite (C66_text _ _ _ _ _ (var_reads _ _ (less_reads k n D))). cbn [eval a_num a_op a_cast machine_arithmetic].
    change (variables _ _ _ (txt "len")) with (Some (Whole t len)). cbv beta iota. cbn [machine_op shifts]. rewrite (proj2 (in_rangeb_iff t (Z.of_N n)) RN).
    cbn [divides andb calculate]. unfold fitted. destruct (in_rangeb t (len - Z.of_N n)) eqn:E; cbn [machine_cast].
    - split; [intros _; now apply in_rangeb_iff|reflexivity].
    - split; [discriminate|]. intros H. apply in_rangeb_iff in H. congruence. }
  rewrite <- PA. split.
  - intros H. assert (L : first_line ["jbytes"%string] [jbytes_line [Property (txt "length") (quoted (txt "len - " ++ k))]] [Property (txt "length") (quoted (txt "len - " ++ k))]) by (apply this_line; now left).
    destruct (H 1%nat _ _ _ eq_refl L (or_introl eq_refl)) as [HN _]. rewrite EF in HN.
    destruct (proj1 (less_typed t k n D RN _ (less_literal k n D))) as (x & u & T & HX); [left; reflexivity|split; [vm_compute; intuition discriminate|discriminate]|].
    apply (number_panics _ fields HT HV var_code Disjunction _ x u (or_introl (conj eq_refl eq_refl)) T HX).
    apply HN; [|exact HX]. apply (hn_number _ _ (txt "len - " ++ k)); [now apply (less_literal k n)|left; reflexivity|split; [vm_compute; intuition discriminate|discriminate]|exact T].
  - intros H i f es e J L I. destruct (less_line _ _ _ _ _ (nth_error_In _ _ J) L) as [[-> ->]|[-> ->]]; [destruct I|]. destruct I as [<-|[]].
    destruct i as [|[|i]]; [discriminate J| |destruct i; discriminate]. rewrite EF. split.
    + intros x u HN HX. inversion HN as [k' lit text x' SL K X R|k' lit text x' SL K X R]; subst; [|vm_compute in K; intuition discriminate].
      assert (E : text = txt "len - " ++ k). { rewrite <- (read_string _ _ SL). apply read_string. now apply (less_literal k n). } subst text.
      now apply (number_panics _ fields HT HV var_code Disjunction _ x u (or_introl (conj eq_refl eq_refl)) R HX).
    + intros x HC. inversion HC as [k' lit text x' SL K R]; subst. vm_compute in K. intuition discriminate.
Qed.
(** Built with overflow checks the decoder panics if [len] is smaller than [k], which the
    sender decides. *)
Theorem C93_text : forall m t k n len body rest, signed t = false -> (imod t <= 2 ^ 64)%Z -> decimal_text k n ->
  in_range t len -> in_range t (Z.of_N n) -> wraps_to t (len - Z.of_N n) (Z.of_N (size body)) ->
  let w := digits Be (N.to_nat (width_bytes t)) (Z.to_N len) ++ body in allocatable (w ++ rest) ->
  exists d d', build_decoder true (text_less t k m) = Some d /\ build_decoder false (text_less t k m) = Some d' /\
    run_build false dec (text_less t k m) d' no_cattr (w ++ rest) 0 = Ok (VList [VInt len; VBytes body]) (size w) /\
    ((Z.of_N n <= len)%Z -> run_build true dec (text_less t k m) d no_cattr (w ++ rest) 0 = Ok (VList [VInt len; VBytes body]) (size w)) /\
    ((len < Z.of_N n)%Z -> run_build true dec (text_less t k m) d no_cattr (w ++ rest) 0 = Panic).
Proof.
  intros m t k n len body rest S B D RL RN SB w AL.
  assert (HC : exists es, first_line ["jbytes"; "repr"]%string (s_container (text_less t k m)) es /\ Forall container_entry es /\ Forall own_codec es /\
     decided about_order es (c_order no_cspec) /\ decided about_width es (c_byte_count no_cspec)).
  { exists []. split; [right; easy|]. repeat split; try (constructor; fail); apply undecided; easy. }
  pose proof (text_less_means t k n m D) as HM. pose proof (less_source_typed t k n m D RN) as ST.
  destruct (C93_exact (text_less t k m) no_cspec _ dec no_cattr (w ++ rest) 0 (size w) [VInt len; VBytes body] HC HM ST) as (d & d' & E & E' & R).
  - repeat (apply NoDup_cons; [vm_compute; intuition discriminate|]). apply NoDup_nil.
  - intros f [<-|[<-|[]]]; (split; [vm_compute; intuition discriminate|]); do 2 eexists; (split; [reflexivity|vm_compute; intuition discriminate]).
  - intros f es I L. destruct (less_line _ _ _ _ _ I L) as [[-> ->]|[-> ->]]; repeat constructor.
  - apply Forall2_cons; [exists len; now split|]. apply Forall2_cons; [exact Logic.I|]. apply Forall2_nil.
  - exists d, d'. split; [exact E|]. split; [exact E'|].
    destruct (C93_plain (text_less t k m) no_cspec _ dec no_cattr (w ++ rest) 0 HC HM ST) as (d2 & E2 & P).
    { intros (f & es & e & x & I & L & Ie & He & Dx). destruct (less_line _ _ _ _ _ I L) as [[-> ->]|[-> ->]]; [destruct Ie|]. destruct Ie as [<-|[]].
      destruct He as [HN|HN]; [|inversion HN as [k' lit text x' SL K R']; subst; vm_compute in K; intuition discriminate].
      inversion HN as [k' lit text x' SL K X R'|k' lit text x' SL K X R']; subst; [|vm_compute in K; intuition discriminate].
      assert (EX : text = txt "len - " ++ k). { rewrite <- (read_string _ _ SL). apply read_string. now apply (less_literal k n). } subst text.
      rewrite (reads_unique _ _ _ R' (less_reads k n D)) in Dx. cbn in Dx. intuition discriminate. }
    assert (d2 = d') by congruence. subst d2.
    destruct (PropsMachineEncode.C92_text m t k n len body rest S B D RL RN SB AL) as (d3 & e & E3 & _ & _ & _ & _ & RS).
    assert (d3 = d').
    { enough (build_decoder false (text_less t k m) = machine_decoder (text_less t k m)) by congruence. unfold build_decoder, machine_decoder, derived. cbn [s_container s_fields].
      rewrite without_conditions; [reflexivity|]. intros f fa x I A M. destruct I as [<-|[<-|[]]]; cbn [s_lines] in A.
      - injection A as <-. discriminate M.
      - destruct (content_from _ _ _ _ A M ltac:(discriminate)) as (y & rk & lit & [[= Y _]|[]] & J & _). apply (f_equal string_of_list_byte) in Y. 
        rewrite !string_of_list_byte_of_string in Y. subst y. vm_compute in J. intuition discriminate. }
    subst d3. fold w in RS. rewrite <- P in RS. split; [exact RS|].
    pose proof (less_defined t k n m len body D RN RL) as LD. assert (IR : in_range t (len - Z.of_N n) <-> (Z.of_N n <= len)%Z).
    { unfold in_range, imin, imax in *. rewrite S in *. lia. }
    destruct (R RS) as [[SD X]|[SD X]]; split; intros C; try exact X; exfalso; [|apply SD; apply LD; now apply IR]. apply LD, IR in SD. lia.
Qed.

(** With [len - 4]: [len] is 9, and 2. *)
Example C93_text_case m : exists d d', build_decoder true (text_less U8 (txt "4") m) = Some d /\ build_decoder false (text_less U8 (txt "4") m) = Some d' /\
  run_build true dec (text_less U8 (txt "4") m) d no_cattr ((digits Be 1 9 ++ repeat x07 5) ++ [x01]) 0 =
    Ok (VList [VInt 9; VBytes (repeat x07 5)]) (size (digits Be 1 9 ++ repeat x07 5)).
Proof.
  destruct (C93_text m U8 (txt "4") 4 9 (repeat x07 5) [x01] eq_refl ltac:(vm_compute; discriminate) four) as (d & d' & E & E' & _ & R & _).
  - vm_compute. split; discriminate.
  - vm_compute. split; discriminate.
  - split; [vm_compute; split; discriminate|]. exists 0%Z. reflexivity.
  - vm_compute. reflexivity.
  - exists d, d'. split; [exact E|]. split; [exact E'|]. apply R. discriminate.
Qed.
Example C93_panic_case m : exists d d', build_decoder true (text_less U8 (txt "4") m) = Some d /\ build_decoder false (text_less U8 (txt "4") m) = Some d' /\
  run_build false dec (text_less U8 (txt "4") m) d' no_cattr ((digits Be 1 2 ++ repeat x07 254) ++ [x01]) 0 =
    Ok (VList [VInt 2; VBytes (repeat x07 254)]) (size (digits Be 1 2 ++ repeat x07 254)) /\
  run_build true dec (text_less U8 (txt "4") m) d no_cattr ((digits Be 1 2 ++ repeat x07 254) ++ [x01]) 0 = Panic.
Proof.
  destruct (C93_text m U8 (txt "4") 4 2 (repeat x07 254) [x01] eq_refl ltac:(vm_compute; discriminate) four) as (d & d' & E & E' & R' & _ & R).
  - vm_compute. split; discriminate.
  - vm_compute. split; discriminate.
  - split; [vm_compute; split; discriminate|]. exists (-1)%Z. reflexivity.
  - vm_compute. reflexivity.
  - exists d, d'. split; [exact E|]. split; [exact E'|]. split; [exact R'|]. apply R. reflexivity.
Qed.

Print Assumptions C93_exact.
Print Assumptions C93_text.
