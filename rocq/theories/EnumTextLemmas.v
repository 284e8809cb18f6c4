(** Lemmas about the declarations of enums. *)
From Coq Require Import Ascii String.
From Verif Require Import Base BaseLemmas Ints Spec SpecOps Text TextSpec TextLemmas Reader Sugar AttrParse AttrSpec AttrLemmas JDefaultSpec DefaultLemmas
  WireSpec EnumText EnumTextSpec Schema.
Close Scope string_scope.

(** ** Containers *)
Lemma decided_snoc {A} (about : entry -> A -> Prop) l e a : about e a -> decided about (l ++ [e]) (Some a).
Proof. intros H. apply (decided_by about l e [] a H). intros e' a' []. Qed.
Lemma decided_skip {A} (about : entry -> A -> Prop) l e o : (forall a, ~ about e a) -> decided about l o -> decided about (l ++ [e]) o.
Proof.
  intros N [l' H|l' f r a F H].
  - constructor. intros f a I. apply in_app_iff in I as [I|[<-|[]]]; [exact (H f a I)|apply N].
  - rewrite <- app_assoc. cbn [app]. apply decided_by; [exact F|]. intros g b I.
    apply in_app_iff in I as [I|[<-|[]]]; [exact (H g b I)|apply N].
Qed.
Lemma decided_last {A} (about : entry -> A -> Prop) l e o : decided about (l ++ [e]) o ->
  (exists a, about e a /\ o = Some a) \/ ((forall a, ~ about e a) /\ decided about l o).
Proof.
  intros H. remember (l ++ [e]) as le eqn:E. destruct H as [le N|l1 f r a F N]; subst.
  - right. split; [intros a; apply N; apply in_app_iff; right; left; reflexivity|]. constructor. intros f a I. apply N. apply in_app_iff. auto.
  - destruct r as [|g r _] using rev_ind.
    + apply app_inj_tail in E as [<- <-]. left. exists a. auto.
    + rewrite app_comm_cons, app_assoc in E. apply app_inj_tail in E as [<- <-]. right.
      split; [intros b; apply N; apply in_app_iff; right; left; reflexivity|]. apply decided_by; [exact F|].
      intros h b I. apply N. apply in_app_iff. auto.
Qed.
Lemma decided_fun {A} (about : entry -> A -> Prop) : (forall e a b, about e a -> about e b -> a = b) ->
  forall l o o', decided about l o -> decided about l o' -> o = o'.
Proof.
  intros Fun l. induction l as [|e l IH] using rev_ind; intros o o' H H'.
  - assert (N : forall l o, decided about l o -> l = [] -> o = None).
    { intros l p D. destruct D as [l _|l f r a _ _]; [reflexivity|]. intros E. destruct l; discriminate. }
    rewrite (N _ _ H eq_refl), (N _ _ H' eq_refl). reflexivity.
  - apply decided_last in H as [(a & A1 & ->)|[N H]]; apply decided_last in H' as [(b & B1 & ->)|[N' H']].
    + f_equal. exact (Fun _ _ _ A1 B1).
    + destruct (N' _ A1).
    + destruct (N _ B1).
    + exact (IH _ _ H H').
Qed.
Definition container_step (ca : container_attributes) (e : entry) : option container_attributes :=
  match e with Tag i => container_tag ca i | Property k lit => container_property ca k lit end.
Lemma container_app l r : forall ca, container_entries ca (l ++ r) =
  match container_entries ca l with Some ca' => container_entries ca' r | None => None end.
Proof.
  induction l as [|e l IH]; intros ca; cbn [app container_entries]; [reflexivity|].
  destruct (match e with Tag i => container_tag ca i | Property k lit => container_property ca k lit end); [apply IH|reflexivity].
Qed.
Lemma container_snoc l e ca ca' : container_entries default_container l = Some ca -> container_step ca e = Some ca' ->
  container_entries default_container (l ++ [e]) = Some ca'.
Proof. intros H E. rewrite container_app, H. cbn [container_entries]. change (match container_step ca e with Some c => Some c | None => None end = Some ca'). rewrite E. reflexivity. Qed.
Lemma not_order e : (forall lit, e <> Property (txt "byteorder") lit) -> forall a, ~ about_order e a.
Proof. intros N a H. destruct H as [k s K S|k s K S]; apply called_one in K as ->; exact (N _ eq_refl). Qed.
Lemma not_take e : (forall lit, e <> Property (txt "branch_take_bytes") lit) -> forall a, ~ about_take e a.
Proof. intros N a H. destruct H as [k s n K S]; apply called_one in K as ->; exact (N _ eq_refl). Qed.
Lemma not_width e : (forall lit, e <> Property (txt "byte_count") lit) ->
  (forall i, e = Tag i -> ~ called i ["u8"; "u16"; "u32"; "u64"; "usize"]%string) -> forall a, ~ about_width e a.
Proof.
  intros N M a H. destruct H as [i n I|k s n K S]; [|apply called_one in K as ->; exact (N _ eq_refl)].
  apply (M _ eq_refl). unfold called. apply in_map. apply (in_map fst) in I. exact I.
Qed.
Lemma tagged_snoc l e i : tagged (l ++ [e]) i <-> tagged l i \/ e = Tag (txt i).
Proof. unfold tagged. rewrite in_app_iff. cbn [In]. unfold txt. intuition congruence. Qed.
Lemma quoted_inj s t : quoted s = quoted t -> s = t.
Proof. unfold quoted. cbn [app]. intros E. injection E as E. apply app_inj_tail in E as [-> _]. reflexivity. Qed.
Lemma number_read lit n : number_literal lit n -> parse_usize lit = AUsize n.
Proof. intros (s & E & H & L). exact (parse_number _ _ _ E H L). Qed.
Definition read_so_far (l : list entry) (ca : container_attributes) : Prop :=
  decided about_order l (c_order (container_spec ca)) /\
  decided about_width l (c_byte_count (container_spec ca)) /\
  decided about_take l (match ca_take_bytes ca with Some (AUsize n) => Some n | _ => None end) /\
  (ca_disable ca = true <-> tagged l "byte_count_disable") /\
  (ca_starts_with ca = true <-> tagged l "branch_starts_with") /\
  (ca_starts_with_untake ca = true <-> tagged l "branch_starts_with_untake").
Ltac keeps_tags H := rewrite tagged_snoc; rewrite <- H; split; [auto|intros [X|X]; [exact X|discriminate X]].
Ltac not_about :=
  first [apply not_order; intros; discriminate | apply not_take; intros; discriminate
        | apply not_width; [intros; discriminate|intros ? X; first [discriminate X|
            injection X as <-; intros X; repeat (destruct X as [X|X]; [discriminate X|]); destruct X]]].
Lemma container_one l ca e : container_entry e -> read_so_far l ca ->
  exists ca', container_step ca e = Some ca' /\ read_so_far (l ++ [e]) ca'.
Proof.
  intros E (RO & RW & RT & RD & RS & RU). destruct ca as [o bc d tb sw swu].
  cbn [container_spec c_order c_byte_count ca_order ca_byte_count ca_take_bytes ca_disable ca_starts_with ca_starts_with_untake] in *.
  assert (Same : forall e, (forall a, ~ about_order e a) -> (forall a, ~ about_width e a) -> (forall a, ~ about_take e a) ->
    e <> Tag (txt "byte_count_disable") -> e <> Tag (txt "branch_starts_with") -> e <> Tag (txt "branch_starts_with_untake") ->
    read_so_far (l ++ [e]) (mkcontainer o bc d tb sw swu)).
  { intros f A B C D F G. unfold read_so_far. 
    cbn [container_spec c_order c_byte_count ca_order ca_byte_count ca_take_bytes ca_disable ca_starts_with ca_starts_with_untake].
    repeat split; try (apply decided_skip; assumption); rewrite tagged_snoc; intuition. }
  destruct E as [[bo E]|[[n E]|[[n E]|[E|(i & -> & E)]]]].
  - destruct E as [k s K S|k s K S]; apply called_one in K as ->;
      [destruct (order_word s Be S) as [P B]|destruct (order_word s Le S) as [P B]];
      (eexists; split; [unfold container_step; cbn [container_property]; change (bytes_eqb (txt "byteorder") (txt "byteorder")) with true; reflexivity|]);
      unfold read_so_far; cbn [container_spec c_order c_byte_count ca_order ca_byte_count ca_take_bytes ca_disable ca_starts_with ca_starts_with_untake];
      rewrite P, B; (split; [apply decided_snoc; constructor; [left; reflexivity|exact S]|]);
      (split; [apply decided_skip; [not_about|exact RW]|]); (split; [apply decided_skip; [not_about|exact RT]|]);
      (split; [keeps_tags RD|]); (split; [keeps_tags RS|keeps_tags RU]).
  - destruct E as [i n I|k lit n K S].
    + assert (W : about_width (Tag (txt i)) n) by (constructor; exact I).
      eexists (mkcontainer o (Some (AUsize n)) d tb sw swu). split.
      { repeat (destruct I as [I|I]; [injection I as <- <-; reflexivity|]). destruct I. }
      assert (T : forall j, ~ In j (map fst [("u8", 1); ("u16", 2); ("u32", 4); ("u64", 8); ("usize", 8)]%string) -> Tag (txt i) <> Tag (txt j)).
      { intros j J X. injection X as X. apply J. apply (in_map fst) in I. cbn [fst] in I.
        assert (i = j) as -> by (rewrite <- (string_of_list_byte_of_string i), <- (string_of_list_byte_of_string j); unfold txt in X; congruence). exact I. }
      unfold read_so_far; cbn [container_spec c_order c_byte_count ca_order ca_byte_count ca_take_bytes ca_disable ca_starts_with ca_starts_with_untake].
      split; [apply decided_skip; [not_about|exact RO]|]. split; [apply decided_snoc; exact W|].
      split; [apply decided_skip; [not_about|exact RT]|]. rewrite !tagged_snoc.
      assert (Tag (txt i) <> Tag (txt "byte_count_disable")) by (apply T; cbn; intuition discriminate).
      assert (Tag (txt i) <> Tag (txt "branch_starts_with")) by (apply T; cbn; intuition discriminate).
      assert (Tag (txt i) <> Tag (txt "branch_starts_with_untake")) by (apply T; cbn; intuition discriminate).
      tauto.
    + assert (W : about_width (Property k lit) n) by (constructor; assumption). apply called_one in K as ->.
      exists (mkcontainer o (Some (parse_usize lit)) d tb sw swu). split; [reflexivity|].
      unfold read_so_far; cbn [container_spec c_order c_byte_count ca_order ca_byte_count ca_take_bytes ca_disable ca_starts_with ca_starts_with_untake].
      rewrite (number_read _ _ S). split; [apply decided_skip; [not_about|exact RO]|]. split; [apply decided_snoc; exact W|].
      split; [apply decided_skip; [not_about|exact RT]|]. split; [keeps_tags RD|]. split; [keeps_tags RS|keeps_tags RU].
  - destruct E as [k lit n K S]. assert (W : about_take (Property k lit) n) by (constructor; assumption). apply called_one in K as ->.
    exists (mkcontainer o bc d (Some (parse_usize lit)) sw swu). split; [reflexivity|].
    unfold read_so_far; cbn [container_spec c_order c_byte_count ca_order ca_byte_count ca_take_bytes ca_disable ca_starts_with ca_starts_with_untake].
    rewrite (number_read _ _ S). split; [apply decided_skip; [not_about|exact RO]|]. split; [apply decided_skip; [not_about|exact RW]|].
    split; [apply decided_snoc; exact W|]. split; [keeps_tags RD|]. split; [keeps_tags RS|keeps_tags RU].
  - exists (mkcontainer o bc d tb sw swu). destruct e as [i|k lit]; cbn [about_other] in E.
    + split; [unfold container_step; cbn [container_tag]; destruct E as [<-|[<-|[]]]; reflexivity|].
      destruct E as [<-|[<-|[]]]; apply Same; solve [not_about|discriminate].
    + split; [unfold container_step; cbn [container_property]; repeat (destruct E as [<-|E]; [reflexivity|]); destruct E|].
      repeat (destruct E as [<-|E]; [apply Same; solve [not_about|discriminate]|]). destruct E.
  - destruct E as [<-|[<-|[<-|[]]]]; (eexists; split; [reflexivity|]);
      unfold read_so_far; cbn [container_spec c_order c_byte_count ca_order ca_byte_count ca_take_bytes ca_disable ca_starts_with ca_starts_with_untake];
      (split; [apply decided_skip; [not_about|exact RO]|]); (split; [apply decided_skip; [not_about|exact RW]|]);
      (split; [apply decided_skip; [not_about|exact RT]|]); rewrite !tagged_snoc;
      change list_byte_of_string with txt;
      repeat match goal with |- context [Tag (txt ?a) = Tag (txt ?b)] =>
        first [constr_eq a b; fail 1 | assert (Tag (txt a) <> Tag (txt b)) by discriminate; generalize dependent (Tag (txt a) = Tag (txt b)); intros ? ?] end; tauto.
Qed.
Lemma container_all l : Forall container_entry l -> exists ca, container_entries default_container l = Some ca /\ read_so_far l ca.
Proof.
  induction l as [|e l IH] using rev_ind; intros F.
  - exists default_container. split; [reflexivity|]. unfold read_so_far. cbn.
    assert (D : forall A (about : entry -> A -> Prop), decided about [] None) by (intros A about; constructor; intros e a []).
    repeat split; try apply D; (discriminate || intros []).
  - apply Forall_app in F as [F E]. inversion E as [|? ? E' _]; subst. destruct (IH F) as (ca & C & R).
    destruct (container_one l ca e E' R) as (ca' & S & R'). exists ca'. split; [|exact R']. exact (container_snoc _ _ _ _ C S).
Qed.
Definition for_containers (a : attribute) : Prop := called (t_name a) ["jbytes"; "repr"]%string.
Lemma containers_name a : bytes_eqb (t_name a) (txt "jbytes") || bytes_eqb (t_name a) (txt "repr") = true <-> for_containers a.
Proof.
  rewrite orb_true_iff, !bytes_eqb_iff. unfold for_containers, called. cbn [map In]. change list_byte_of_string with txt.
  intuition congruence.
Qed.
Lemma container_line before a more : (forall b, In b before -> ~ for_containers b) -> for_containers a ->
  container_attributes_of (before ++ a :: more) = container_entries default_container (t_entries a).
Proof.
  intros N C. unfold container_attributes_of.
  assert (get_attribute parse_container_attribute (before ++ a :: more) = get_attribute parse_container_attribute (a :: more)) as ->.
  { induction before as [|b before IH]; [reflexivity|]. cbn [app get_attribute]. unfold parse_container_attribute at 1.
    destruct (_ || _) eqn:E; [apply containers_name in E; destruct (N b (or_introl eq_refl) E)|]. apply IH. intros c I. apply N. right. exact I. }
  cbn [get_attribute]. unfold parse_container_attribute at 1. apply containers_name in C. rewrite C.
  destruct (container_entries _ _); reflexivity.
Qed.
Lemma container_none l : (forall b, In b l -> ~ for_containers b) -> container_attributes_of l = Some default_container.
Proof.
  intros N. unfold container_attributes_of. induction l as [|b l IH]; [reflexivity|]. cbn [get_attribute].
  unfold parse_container_attribute at 1.
  destruct (_ || _) eqn:E; [apply containers_name in E; destruct (N b (or_introl eq_refl) E)|]. apply IH. intros c I. apply N. right. exact I.
Qed.
Lemma called_eqb k l : existsb (bytes_eqb k) (map txt l) = true <-> called k l.
Proof.
  rewrite existsb_exists. unfold called. change list_byte_of_string with txt. split.
  - intros (x & I & E). apply bytes_eqb_iff in E as ->. exact I.
  - intros I. exists k. split; [exact I|apply bytes_eqb_iff; reflexivity].
Qed.
Lemma step_known ca e : container_step ca e = None <-> ~ known_container e.
Proof.
  destruct ca as [o bc d tb sw swu]. destruct e as [i|k lit]; unfold container_step; cbn [container_tag container_property known_container].
  - rewrite <- called_eqb. cbn [map existsb]. rewrite orb_false_r.
    repeat match goal with |- context [bytes_eqb i ?t] => destruct (bytes_eqb i t); cbn [orb]; [split; congruence|] end. split; congruence.
  - rewrite <- called_eqb. cbn [map existsb]. rewrite !orb_false_r.
    repeat match goal with |- context [bytes_eqb k ?t] => destruct (bytes_eqb k t); cbn [orb]; [split; congruence|] end. split; congruence.
Qed.
Lemma container_known l : forall ca, container_entries ca l = None <-> exists e, In e l /\ ~ known_container e.
Proof.
  induction l as [|e l IH]; intros ca; cbn [container_entries].
  - split; [discriminate|intros (e & [] & _)].
  - change (match container_step ca e with Some ca' => container_entries ca' l | None => None end = None <-> exists f, In f (e :: l) /\ ~ known_container f).
    destruct (container_step ca e) as [ca'|] eqn:E.
    + rewrite (IH ca'). split; intros (f & I & K); exists f; (split; [|exact K]); [right; exact I|].
      destruct I as [<-|I]; [|exact I]. apply (step_known ca) in K. congruence.
    + split; [|reflexivity]. intros _. exists e. split; [left; reflexivity|]. apply (step_known ca). exact E.
Qed.

(** ** Numbers *)
Lemma starts_with_iff p s : starts_with p s = true <-> exists t, s = p ++ t.
Proof.
  revert s. induction p as [|x p IH]; intros s; cbn [starts_with app].
  - split; [intros _; exists s; reflexivity|reflexivity].
  - destruct s as [|y s]; [split; [discriminate|intros (t & X); discriminate]|]. rewrite andb_true_iff, IH. split.
    + intros [E (t & ->)]. apply byte_eqb_eq in E as ->. exists t. reflexivity.
    + intros (t & X). injection X as -> ->. split; [apply byte_eqb_eq; reflexivity|exists t; reflexivity].
Qed.
Lemma skipn_pre (p t : bytes) : skipn (length p) (p ++ t) = t.
Proof. induction p; [reflexivity|assumption]. Qed.
Lemma after_some p s t : after_text p s = Some t <-> follows_first p s t.
Proof.
  revert t. induction s as [|c s IH]; intros t.
  - cbn [after_text]. destruct (starts_with p []) eqn:E.
    + apply starts_with_iff in E as (u & E). symmetry in E. apply app_eq_nil in E as [-> ->]. cbn. split.
      * intros X. injection X as <-. exists []. split; [reflexivity|cbn; lia].
      * intros (a & X & _). destruct a; [|discriminate]. destruct t; [reflexivity|discriminate].
    + split; [discriminate|]. intros (a & X & _). symmetry in X. apply app_eq_nil in X as [_ X]. apply app_eq_nil in X as [-> ->]. discriminate.
  - cbn [after_text]. destruct (starts_with p (c :: s)) eqn:E.
    + apply starts_with_iff in E as (u & ->). rewrite skipn_pre. split.
      * intros X. injection X as <-. exists []. split; [reflexivity|cbn; lia].
      * intros (a & X & M). specialize (M [] u eq_refl). destruct a; [|cbn in M; lia]. cbn [app] in X. apply app_inv_head in X as ->. reflexivity.
    + rewrite IH. split.
      * intros (a & -> & M). exists (c :: a). split; [reflexivity|]. intros b u X. destruct b as [|y b].
        -- exfalso. assert (starts_with p (c :: a ++ p ++ t) = true) by (apply starts_with_iff; exists u; exact X). congruence.
        -- injection X as -> X. cbn. apply le_n_S. exact (M _ _ X).
      * intros (a & X & M). destruct a as [|y a].
        -- exfalso. assert (starts_with p (c :: s) = true) by (apply starts_with_iff; exists t; exact X). congruence.
        -- injection X as -> ->. exists a. split; [reflexivity|]. intros b u X. specialize (M (y :: b) u). cbn in M. rewrite X in M.
           specialize (M eq_refl). lia.
Qed.
Lemma after_none p s : after_text p s = None <-> ~ contains p s.
Proof.
  induction s as [|c s IH]; cbn [after_text].
  - destruct (starts_with p []) eqn:E.
    + apply starts_with_iff in E as (u & E). split; [discriminate|]. intros N. destruct N. exists [], u. exact E.
    + split; [|reflexivity]. intros _ (a & t & X). symmetry in X. apply app_eq_nil in X as [_ X]. apply app_eq_nil in X as [-> ->]. discriminate.
  - destruct (starts_with p (c :: s)) eqn:E.
    + apply starts_with_iff in E as (u & E). split; [discriminate|]. intros N. destruct N. exists [], u. exact E.
    + rewrite IH. split; intros N (a & t & X); apply N.
      * destruct a as [|y a]; [|injection X as -> X; exists a, t; exact X]. exfalso.
        assert (starts_with p (c :: s) = true) by (apply starts_with_iff; exists t; exact X). congruence.
      * exists (c :: a), t. cbn. f_equal. exact X.
Qed.
Lemma radix_iff base s n : 0 < base <= 16 -> (from_str_radix base (2 ^ 64) s = Some n <-> signed_numeral base s n).
Proof.
  intros B. unfold from_str_radix, signed_numeral. destruct s as [|c r].
  - split; [discriminate|]. intros (t & [<-|X] & W & _); [destruct (written_nonempty _ _ _ W eq_refl)|discriminate].
  - destruct (N.eqb_spec (b2n c) 43) as [E|E].
    + assert (c = "+"%byte) as -> by (apply b2n_inj; exact E). split.
      * destruct r as [|d r]; [discriminate|]. intros X. apply written_radix in X as [W L]; [|exact B|discriminate].
        exists (d :: r). auto.
      * intros (t & [<-|X] & W & L).
        -- exfalso. apply written_chars in W. inversion W as [|? ? (d & D & _) _]; subst. destruct (digit_char _ _ D) as (_ & X & _). exact (X eq_refl).
        -- injection X as <-. destruct r as [|d r]; [destruct (written_nonempty _ _ _ W eq_refl)|].
           apply written_radix; [exact B|discriminate|auto].
    + rewrite written_radix by (exact B || discriminate). split.
      * intros [W L]. exists (c :: r). auto.
      * intros (t & [<-|X] & W & L); [auto|]. injection X as -> ->. destruct E. reflexivity.
Qed.
Lemma upto_dots s : contains (txt "..=") s -> contains dots s.
Proof. intros (a & t & ->). exists a, ("="%byte :: t). reflexivity. Qed.
Lemma number_from_iff s current n : number_from s current = Some n <-> counted current s n.
Proof.
  unfold number_from, parse_number_10. change (["b"%byte; QUOTE]) with ["b"%byte; byte_of 34].
  destruct (starts_with (txt "0x") s) eqn:X.
  - apply starts_with_iff in X as (t & ->). change (skipn 2 (txt "0x" ++ t)) with t. rewrite radix_iff by lia. split.
    + intros H. exact (counted_hex _ _ t n eq_refl H).
    + assert (Y : exists u, txt "0x" ++ t = txt "0x" ++ u) by eauto. intros H; destruct H as [u n E H|u n N _ _|u n N _ _ _|N _ _|n N _ _ _]; try (destruct (N Y)).
      apply app_inv_head in E as <-. exact H.
  - assert (Y : ~ exists t, s = txt "0x" ++ t) by (intros E; apply starts_with_iff in E; congruence).
    destruct (after_text (txt "..=") s) as [t|] eqn:U.
    + assert (V : contains (txt "..=") s). { apply after_some in U as (a & -> & _). exists a, t. reflexivity. }
      rewrite radix_iff by lia. split.
      * intros H. apply after_some in U. exact (counted_upto _ _ t n Y U H).
      * intros H; destruct H as [u n E H|u n _ F H|u n _ N _ _|_ N _|n _ N _ _]; [destruct Y; eauto| |destruct (N V)|destruct (N (upto_dots _ V))..].
        apply after_some in F. unfold txt in U. rewrite U in F. injection F as ->. exact H.
    + apply after_none in U. destruct (after_text (txt "..") s) as [t|] eqn:D.
      * assert (V : contains dots s). { apply after_some in D as (a & -> & _). exists a, t. reflexivity. }
        rewrite radix_iff by lia. split.
        -- intros H. apply after_some in D. exact (counted_below _ _ t n Y U D H).
        -- intros H; destruct H as [u n E H|u n _ (a & E & _) H|u n _ _ F H|_ N _|n _ N _ _]; [destruct Y; eauto|destruct U; exists a, u; exact E| |destruct (N V)..].
           apply after_some in F. change (txt "..") with dots in D. rewrite D in F. injection F as ->. exact H.
      * apply after_none in D. destruct (after_text ["b"%byte; byte_of 34] s) as [t|] eqn:Q.
        -- assert (V : contains ["b"%byte; byte_of 34] s). { apply after_some in Q as (a & -> & _). exists a, t. reflexivity. } split.
           ++ intros H. injection H as <-. exact (counted_bytes _ _ Y D V).
           ++ intros H; destruct H as [u n E H|u n _ (a & E & _) H|u n _ _ (a & E & _) H|_ _ _|n _ _ N _];
                [destruct Y; eauto|destruct U; exists a, u; exact E|destruct D; exists a, u; exact E|reflexivity|destruct (N V)].
        -- apply after_none in Q. rewrite radix_iff by lia. split.
           ++ intros H. exact (counted_decimal _ _ n Y D Q H).
           ++ intros H; destruct H as [u n E H|u n _ (a & E & _) H|u n _ _ (a & E & _) H|_ _ N|n _ _ N H];
                [destruct Y; eauto|destruct U; exists a, u; exact E|destruct D; exists a, u; exact E|destruct (Q N)|exact H].
Qed.
Lemma contains_in p s c : contains p s -> In c p -> In c s.
Proof. intros (a & t & ->) I. apply in_app_iff. right. apply in_app_iff. left. exact I. Qed.
Lemma digits_not base s n c : written_in base s n -> ~ (exists d, hex_digit c d) -> ~ In c s.
Proof. intros W N I. apply written_chars in W. rewrite Forall_forall in W. destruct (W _ I) as (d & D & _). destruct N. eauto. Qed.
Lemma not_digit c : is_hex c = None -> ~ exists d, hex_digit c d.
Proof. intros H (d & D). apply digit_is_hex in D. congruence. Qed.
Lemma written_signed base s n : written_in base s n -> n < 2 ^ 64 -> signed_numeral base s n.
Proof. intros W L. exists s. auto. Qed.
Lemma digits_0x a n u : written_in 10 a n -> ~ exists t, a ++ "."%byte :: u = txt "0x" ++ t.
Proof.
  intros W (t & E). pose proof (digits_not 10 a n "x"%byte W (not_digit "x"%byte eq_refl)) as X.
  destruct a as [|c [|d a]]; [destruct (written_nonempty _ _ _ W eq_refl)|discriminate|].
  injection E as -> -> _. apply X. right. left. reflexivity.
Qed.
Lemma numeral_counted current s n : numeral s n -> n < 2 ^ 64 -> counted current s n.
Proof.
  intros [W|(t & -> & W)] L; [|exact (counted_hex _ _ t n eq_refl (written_signed _ _ _ W L))].
  pose proof (fun c H => digits_not 10 s n c W (not_digit c H)) as X. apply counted_decimal.
  - intros (t & ->). apply (X "x"%byte eq_refl). right. left. reflexivity.
  - intros C. apply (X "."%byte eq_refl), (contains_in _ _ _ C). left. reflexivity.
  - intros C. apply (X (byte_of 34) eq_refl), (contains_in _ _ _ C). right. left. reflexivity.
  - exact (written_signed _ _ _ W L).
Qed.
Lemma first_char (c : byte) q a u : ~ In c a -> follows_first (c :: q) (a ++ (c :: q) ++ u) u.
Proof.
  intros N. exists a. split; [reflexivity|]. cbn [app]. generalize (q ++ u) as r. intros r.
  induction a as [|x a IH]; intros b v E; [cbn; lia|]. destruct b as [|y b].
  - injection E as -> _. destruct N. left. reflexivity.
  - injection E as -> E. cbn. apply le_n_S. apply (IH (fun I => N (or_intror I)) b v E).
Qed.
Lemma range_counted current s lo hi incl : range_text s lo hi incl -> counted current s hi.
Proof.
  intros (a & b & -> & A & B & L).
  pose proof (digits_not 10 a lo "."%byte A (not_digit "."%byte eq_refl)) as NA.
  pose proof (fun c H => digits_not 10 b hi c B (not_digit c H)) as NB. destruct incl.
  - apply (counted_upto _ _ b); [exact (digits_0x a lo _ A)|exact (first_char "."%byte _ a b NA)|exact (written_signed _ _ _ B L)].
  - apply (counted_below _ _ b); [exact (digits_0x a lo _ A)| |exact (first_char "."%byte _ a b NA)|exact (written_signed _ _ _ B L)].
    intros (x & t & E).
    assert (I : In "="%byte (a ++ ["."; "."]%byte ++ b)).
    { change (list_byte_of_string "..") with ["."; "."]%byte in E. rewrite E. apply in_app_iff. right. right. right. left. reflexivity. }
    apply in_app_iff in I as [I|[I|[I|I]]]; [|discriminate I..|exact (NB "="%byte eq_refl I)].
    exact (digits_not 10 a lo "="%byte A (not_digit "="%byte eq_refl) I).
Qed.
Lemma bytes_counted current s : byte_string_literal s -> ~ contains dots s -> counted current s current.
Proof.
  intros (t & -> & _ & _) N. apply counted_bytes; [intros (u & E); discriminate|exact N|].
  exists [], (t ++ [byte_of 34]). reflexivity.
Qed.
Lemma counted_fun current s n m : counted current s n -> counted current s m -> n = m.
Proof. rewrite <- !number_from_iff. congruence. Qed.

(** ** The members that hold text *)
Definition text_slot (key : string) (s : slot) : Prop :=
  assoc (txt key) field_properties = Some (RString, s) /\ s <> SBitsStart /\
  forallb (fun p : string * (reader_kind * slot) => negb (slot_beq (snd (snd p)) s) || String.eqb (fst p) key) field_properties = true /\
  forallb (fun p : string * slot => negb (slot_beq (snd p) s)) field_tags = true.
Lemma entry_text key s fa fa' e : text_slot key s -> field_entry fa e = Some fa' ->
  (exists lit, e = Property (txt key) lit /\ member fa' s = Some (Raw (parse_value_string lit))) \/
  ((forall lit, e <> Property (txt key) lit) /\ member fa' s = member fa s).
Proof.
  intros (A & NB & P & T). destruct e as [i|k lit]; cbn [field_entry].
  - destruct (assoc i field_tags) as [t|] eqn:E; [|discriminate]. cbn [option_map]. intros X. injection X as <-. right.
    split; [intros lit; discriminate|]. apply assoc_in in E as (x & I & ->). rewrite forallb_forall in T. specialize (T _ I).
    cbn [snd] in T. apply negb_true_iff in T. cbn [put member]. rewrite T. reflexivity.
  - destruct (bytes_eqb k (txt key)) eqn:K.
    + apply bytes_eqb_iff in K as ->. rewrite A. cbn [option_map]. intros X. injection X as <-. left. exists lit. split; [reflexivity|].
      assert (B : slot_beq SBitsStart s = false) by (apply slot_beq_false; congruence).
      destruct (bytes_eqb (txt key) (txt "bits_start")); cbn [put member]; rewrite ?B, slot_beq_refl; reflexivity.
    + destruct (assoc k field_properties) as [[rk t]|] eqn:E; [|discriminate]. cbn [option_map]. intros X. injection X as <-. right.
      split; [intros l X; injection X as -> _; assert (bytes_eqb (txt key) (txt key) = true) by (apply bytes_eqb_iff; reflexivity); congruence|].
      apply assoc_in in E as (x & I & ->). rewrite forallb_forall in P. specialize (P _ I). cbn [fst snd] in P.
      assert (Z : slot_beq t s = false).
      { destruct (slot_beq t s); [|reflexivity]. cbn in P. apply String.eqb_eq in P as ->.
        assert (bytes_eqb (txt key) (txt key) = true) by (apply bytes_eqb_iff; reflexivity); congruence. }
      assert (B : slot_beq SBitsStart s = false) by (apply slot_beq_false; congruence).
      destruct (bytes_eqb (txt x) (txt "bits_start")); cbn [put member]; rewrite ?B, Z; reflexivity.
Qed.
Lemma entries_text_same key s l : text_slot key s -> (forall lit, ~ In (Property (txt key) lit) l) ->
  forall fa fa', field_entries fa l = Some fa' -> member fa' s = member fa s.
Proof.
  intros T. induction l as [|e l IH]; intros N fa fa'; cbn [field_entries]; [congruence|].
  destruct (field_entry fa e) as [fb|] eqn:E; [|discriminate]. intros H.
  rewrite (IH (fun lit I => N lit (or_intror I)) _ _ H). destruct (entry_text _ _ _ _ _ T E) as [(lit & -> & _)|[_ M]]; [|exact M].
  destruct (N lit (or_introl eq_refl)).
Qed.
Lemma entries_text key s l fa fa' o : text_slot key s ->
  (forall lit, In (Property (txt key) lit) l -> exists t, literal_text lit t) ->
  field_entries fa l = Some fa' -> member fa s = None -> decided (about_text key) l o -> raw (member fa' s) = o.
Proof.
  intros T L H M D. destruct D as [l N|l e r a A N].
  - rewrite (entries_text_same key s l T) with (2 := H).
    + rewrite M. reflexivity.
    + intros lit I. destruct (L lit I) as (t & X). apply (N (Property (txt key) lit) t I). exists (txt key), lit. repeat split; [left; reflexivity|exact X].
  - rewrite entries_app in H. destruct (field_entries fa l) as [fb|]; [|discriminate]. cbn [field_entries] in H.
    destruct (field_entry fb e) as [fc|] eqn:E; [|discriminate].
    rewrite (entries_text_same key s r T) with (2 := H).
    + destruct A as (k & lit & -> & K & X). apply called_one in K as ->.
      destruct (entry_text _ _ _ _ _ T E) as [(lit' & Y & ->)|[Y _]]; [|destruct (Y _ eq_refl)]. injection Y as <-.
      cbn [raw]. f_equal. exact (read_text _ _ X).
    + intros lit' I. assert (I' : In (Property (txt key) lit') (l ++ e :: r)) by (apply in_app_iff; right; right; exact I).
      destruct (L lit' I') as (t & X). apply (N (Property (txt key) lit') t I). exists (txt key), lit'. repeat split; [left; reflexivity|exact X].
Qed.
Lemma slot_value : text_slot "branch_value" SBranchValue.
Proof. repeat split; discriminate. Qed.
Lemma slot_range : text_slot "branch_range" SBranchRange.
Proof. repeat split; discriminate. Qed.
Lemma slot_bits : text_slot "branch_bits" SBranchBits.
Proof. repeat split; discriminate. Qed.
Lemma slot_bits_value : text_slot "branch_bits_value" SBranchBitsValue.
Proof. repeat split; discriminate. Qed.
Definition default_tag (l : list entry) : Prop := exists i, In (Tag i) l /\ called i ["branch_default"; "enum_default"]%string.
Lemma default_tags i : assoc i field_tags = Some SBranchDefault <-> called i ["branch_default"; "enum_default"]%string.
Proof.
  split.
  - intros H. apply assoc_in in H as (x & I & ->). unfold field_tags in I. cbn [In] in I.
    repeat (destruct I as [I|I]; [injection I as <-; first [discriminate|left; reflexivity|right; left; reflexivity]|]). destruct I.
  - intros [<-|[<-|[]]]; reflexivity.
Qed.
Lemma entry_default fa fa' e : field_entry fa e = Some fa' ->
  given_flag (member fa' SBranchDefault) = true <-> (given_flag (member fa SBranchDefault) = true \/ default_tag [e]).
Proof.
  assert (D : default_tag [e] <-> exists i, e = Tag i /\ assoc i field_tags = Some SBranchDefault).
  { unfold default_tag. split.
    - intros (i & [-> |[]] & C). exists i. split; [reflexivity|]. apply default_tags. exact C.
    - intros (i & -> & C). exists i. split; [left; reflexivity|]. apply default_tags. exact C. }
  rewrite D. clear D. destruct e as [i|k lit]; cbn [field_entry].
  - destruct (assoc i field_tags) as [t|] eqn:E; [|discriminate]. cbn [option_map]. intros X. injection X as <-. cbn [put member].
    destruct (slot_beq t SBranchDefault) eqn:B.
    + apply internal_slot_dec_bl in B as ->. split; [intros _; right; exists i; auto|reflexivity].
    + split; [auto|]. intros [H|(j & X & Y)]; [exact H|]. injection X as <-. rewrite E in Y. injection Y as ->. discriminate.
  - destruct (assoc k field_properties) as [[rk t]|] eqn:E; [|discriminate]. cbn [option_map]. intros X. injection X as <-.
    assert (Z : slot_beq t SBranchDefault = false).
    { apply assoc_in in E as (x & I & _). unfold field_properties in I. cbn [In] in I.
      repeat (destruct I as [I|I]; [injection I as _ _ <-; reflexivity|]). destruct I. }
    assert (Y : forall P : Prop, (P <-> P \/ exists i, Property k lit = Tag i /\ assoc i field_tags = Some SBranchDefault)).
    { intros P. split; [auto|]. intros [H|(i & X & _)]; [exact H|discriminate]. }
    rewrite <- Y. destruct (bytes_eqb k (txt "bits_start")); cbn [put member slot_beq]; rewrite Z; reflexivity.
Qed.
Lemma entries_default l : forall fa fa', field_entries fa l = Some fa' ->
  given_flag (member fa' SBranchDefault) = true <-> (given_flag (member fa SBranchDefault) = true \/ default_tag l).
Proof.
  induction l as [|e l IH]; intros fa fa'; cbn [field_entries].
  - intros X. injection X as <-. split; [auto|]. intros [H|(i & [] & _)]. exact H.
  - destruct (field_entry fa e) as [fb|] eqn:E; [|discriminate]. intros H. rewrite (IH _ _ H), (entry_default _ _ _ E).
    unfold default_tag. cbn [In]. split.
    + intros [[X|(i & [X|[]] & C)]|(i & I & C)]; [left; exact X|right; exists i; auto..].
    + intros [X|(i & [X|I] & C)]; [left; left; exact X|left; right; exists i; auto|right; exists i; auto].
Qed.

(** ** Variants *)
Lemma other_line a : ~ called (t_name a) ["jbytes"; "default"]%string -> parse_field_attribute a = Parses None.
Proof.
  intros N. unfold parse_field_attribute, called in *. cbn [map In] in N. change list_byte_of_string with txt in N.
  destruct (bytes_eqb (t_name a) (txt "default")) eqn:E; [apply bytes_eqb_iff in E; destruct N; right; left; congruence|].
  destruct (bytes_eqb (t_name a) (txt "jbytes")) eqn:F; [apply bytes_eqb_iff in F; destruct N; left; congruence|]. reflexivity.
Qed.
Lemma other_lines before r : (forall a, In a before -> ~ called (t_name a) ["jbytes"; "default"]%string) ->
  attributes_of (before ++ r) = attributes_of r.
Proof.
  intros N. unfold attributes_of. replace (get_attribute parse_field_attribute (before ++ r)) with (get_attribute parse_field_attribute r); [reflexivity|].
  induction before as [|a before IH]; [reflexivity|]. cbn [app get_attribute]. rewrite (other_line a (N a (or_introl eq_refl))).
  apply IH. intros b I. apply N. right. exact I.
Qed.
Record read_variant (pm : patterns) (fa : field_attributes) (d : variant_decl) (v : vspec) : Prop := mkread {
  rv_default : given_flag (member fa SBranchDefault) = v_default v;
  rv_disc : match v_disc v with
            | None => d_disc d = None
            | Some n => exists s, d_disc d = Some s /\ numeral s n /\ n < 2 ^ 64
            end;
  rv_value : (raw (member fa SBranchValue) = None /\ v_value v = None /\ v_bytes v = None)
             \/ exists s, raw (member fa SBranchValue) = Some s /\
                ((exists n, numeral s n /\ n < 2 ^ 64 /\ v_value v = Some n /\ v_bytes v = None)
                 \/ (byte_string_literal s /\ ~ contains dots s /\ v_value v = None /\ v_bytes v = Some (p_bytes pm s)));
  rv_range : match v_range v with
             | None => raw (member fa SBranchRange) = None
             | Some (lo, hi, incl) => exists s, raw (member fa SBranchRange) = Some s /\ range_text s lo hi incl
             end;
  rv_bits : match v_bits v with
            | None => raw (member fa SBranchBits) = None
            | Some (mask, want) => exists s, raw (member fa SBranchBits) = Some s /\ p_number pm s = mask /\
                p_number pm (match raw (member fa SBranchBitsValue) with Some t => t | None => s end) = want
            end }.
Lemma variant_read pm d l v : declares pm d l v -> exists fa, attributes_of (d_attrs d) = Some fa /\ read_variant pm fa d v.
Proof.
  intros [DL DN DK DT DD DI DV DR DB].
  assert (X : exists u fa, field_entries (mkfields u (fun _ => None)) l = Some fa /\ attributes_of (d_attrs d) = Some fa).
  { destruct DL as [[-> N]|(before & more & N & ->)].
    - exists false, default_fields. split; [reflexivity|]. rewrite <- (app_nil_r (d_attrs d)), (other_lines _ [] N). reflexivity.
    - rewrite (other_lines _ _ N). change (mkattribute (list_byte_of_string "jbytes") l) with (jbytes_line l). rewrite line_parsed.
      exists (match l with [] => false | _ => true end). set (u := match l with [] => false | _ => true end).
      destruct (field_entries (mkfields u (fun _ => None)) l) as [fa|] eqn:E; [exists fa; auto|]. exfalso.
      apply entries_known in E as (e & I & K). exact (K (DK e I)). }
  destruct X as (u & fa & H & A). exists fa. split; [exact A|].
  assert (Txt : forall key s o, text_slot key s -> In key ["branch_value"; "branch_range"; "branch_bits"; "branch_bits_value"]%string ->
    decided (about_text key) l o -> raw (member fa s) = o).
  { intros key s o T K D. apply (entries_text key s l (mkfields u (fun _ => None)) fa o T); [|exact H|reflexivity|exact D].
    intros lit I. apply (DT _ _ I). unfold called. apply in_map. exact K. }
  constructor.
  - pose proof (entries_default _ _ _ H) as D. cbn [member given_flag] in D. unfold default_tag in D. rewrite <- DD in D.
    destruct (given_flag (member fa SBranchDefault)), (v_default v); intuition congruence.
  - exact DI.
  - destruct DV as [(D & V)|(s & D & V)]; apply (Txt _ _ _ slot_value) in D; cbn; auto. right. exists s. auto.
  - destruct (v_range v) as [[[lo hi] incl]|]; [destruct DR as (s & D & R); exists s; split; [|exact R]|];
      apply (Txt _ _ _ slot_range); cbn; auto.
  - destruct (v_bits v) as [[mask want]|]; [destruct DB as (s & o & D & E & M & W); exists s|apply (Txt _ _ _ slot_bits); cbn; auto].
    apply (Txt _ _ _ slot_bits) in D; [|cbn; auto]. apply (Txt _ _ _ slot_bits_value) in E; [|cbn; auto]. rewrite E. auto.
Qed.
Definition variant_number (v : vspec) (next : N) : N :=
  match v_disc v, v_range v, v_value v with
  | Some n, _, _ => n
  | None, Some (_, hi, _), _ => hi
  | None, None, Some n => n
  | None, None, None => next
  end.
Lemma number_read_from pm fa d v next : read_variant pm fa d v ->
  match number_text fa (d_disc d) with Some s => number_from s next | None => Some next end = Some (variant_number v next).
Proof.
  intros [_ DI DV DR _]. unfold variant_number, number_text. destruct (v_disc v) as [n|].
  - destruct DI as (s & -> & H & L). apply number_from_iff, numeral_counted; assumption.
  - rewrite DI. destruct (v_range v) as [[[lo hi] incl]|].
    + destruct DR as (s & -> & R). apply number_from_iff. exact (range_counted _ _ _ _ _ R).
    + rewrite DR. destruct DV as [(-> & -> & _)|(s & -> & [(n & H & L & -> & _)|(B & D & -> & _)])]; [reflexivity|..]; apply number_from_iff.
      * apply numeral_counted; assumption.
      * apply bytes_counted; assumption.
Qed.
Lemma numbers_read pm ds vs : Forall2 (fun d v => exists l, declares pm d l v) ds vs ->
  forall next, variant_numbers next ds = Some (numbering next vs).
Proof.
  intros F. induction F as [|d v ds vs (l & D) F IH]; intros next; [reflexivity|]. cbn [variant_numbers numbering].
  destruct (variant_read _ _ _ _ D) as (fa & -> & R). rewrite (number_read_from _ _ _ _ next R), IH. reflexivity.
Qed.
Lemma arm_read pm fa d v n tag : reads_numbers pm -> read_variant pm fa d v -> v_bytes v = None ->
  arm_takes pm (arm_of fa n) tag = accepts v n tag.
Proof.
  intros [PN PR] [DD _ DV DR DB] NB. unfold arm_of, accepts. rewrite DD. destruct (v_default v); [reflexivity|].
  destruct (v_bits v) as [[mask want]|].
  - destruct DB as (s & -> & M & W). cbn [arm_takes]. rewrite M. f_equal. exact W.
  - rewrite DB. destruct DV as [(-> & -> & _)|(s & -> & [(k & H & L & -> & _)|(_ & _ & _ & B)])]; [|exact (PN _ _ _ H L)|congruence].
    destruct (v_range v) as [[[lo hi] incl]|].
    + destruct DR as (s & -> & R). cbn [arm_takes]. rewrite (PR _ _ _ _ tag R). destruct incl; reflexivity.
    + rewrite DR. reflexivity.
Qed.
Lemma arm_bytes pm fa d v n value : read_variant pm fa d v -> v_bits v = None -> v_default v = true \/ v_bytes v <> None ->
  arm_takes_bytes pm (arm_of fa n) value = Some (v_default v || bytes_eqb value (literal v)).
Proof.
  intros [DD _ DV _ DB] NB [E|E]; unfold arm_of; rewrite DD; [rewrite E; reflexivity|]. destruct (v_default v); [reflexivity|].
  rewrite NB in DB. rewrite DB. destruct DV as [(_ & _ & X)|(s & -> & [(k & _ & _ & _ & X)|((t & -> & _) & _ & _ & X)])]; [congruence..|].
  unfold literal. rewrite X. reflexivity.
Qed.

(** ** Prefixes *)
Definition cond_for (pm : patterns) (c : condition) (vn : vspec * N) : Prop :=
  let (v, n) := vn in
  if v_default v then c = Else
  else exists s, (v_value v = None -> p_bytes pm s = literal v) /\
       ((value_given v /\ n = 0 /\ c = If s) \/ (~ (value_given v /\ n = 0) /\ c = ElseIf s)).
Lemma condition_read pm fa d l v n : declares pm d l v -> read_variant pm fa d v -> cond_for pm (condition_of d fa n) (v, n).
Proof.
  intros D [DD _ DV _ _]. unfold cond_for, condition_of. rewrite DD. destruct (v_default v); [reflexivity|].
  assert (G : forall P : Prop, v_value v = None -> v_bytes v = None -> ~ (value_given v /\ P)) by (intros P A B [[X|X] _]; congruence).
  destruct DV as [(-> & A & B)|(s & -> & V)].
  - exists ("b"%byte :: QUOTE :: d_name d ++ [QUOTE]). split; [|right; split; [apply G; assumption|reflexivity]].
    intros _. unfold literal. rewrite B. exact (dl_name _ _ _ _ D).
  - assert (W : value_given v). { destruct V as [(k & _ & _ & X & _)|(_ & _ & _ & X)]; unfold value_given; rewrite X; [left|right]; discriminate. }
    exists s. split.
    + intros X. destruct V as [(k & _ & _ & Y & _)|(_ & _ & _ & Y)]; [congruence|]. unfold literal. rewrite Y. reflexivity.
    + destruct (N.eqb_spec n 0); [left; auto|right; split; [tauto|reflexivity]].
Qed.
Lemma conditions_read pm ds vs : Forall2 (fun d v => exists l, declares pm d l v) ds vs ->
  forall next, exists cs, conditions next ds = Some cs /\ Forall2 (cond_for pm) cs (combine vs (numbering next vs)).
Proof.
  intros F. induction F as [|d v ds vs (l & D) F IH]; intros next; [exists []; split; [reflexivity|constructor]|].
  cbn [conditions numbering]. destruct (variant_read _ _ _ _ D) as (fa & -> & R). rewrite (number_read_from _ _ _ _ next R).
  fold (variant_number v next). destruct (IH (variant_number v next + 1)) as (cs & -> & C). cbn [option_map combine].
  eexists. split; [reflexivity|]. constructor; [exact (condition_read _ _ _ _ _ _ D R)|exact C].
Qed.
Lemma closed_cons c l : c <> Else -> closed (c :: l) = c :: closed l.
Proof. intros N. unfold closed. cbn [existsb]. destruct c; [..|congruence]; cbn [orb]; destruct (existsb _ l); reflexivity. Qed.
Definition rest_order (r : list (vspec * N)) : Prop :=
  forall i w k, nth_error r i = Some (w, k) ->
    (v_default w = true -> S i = length r) /\ (v_default w = false -> value_given w -> k <> 0).
Lemma else_ifs_order pm cs r : Forall2 (cond_for pm) cs r -> else_ifs (closed cs) = true <-> rest_order r.
Proof.
  intros F. induction F as [|c [v n] cs r C F IH].
  - split; [|reflexivity]. intros _ [|i] w k X; discriminate.
  - unfold cond_for in C. destruct (v_default v) eqn:D.
    + subst c. assert (closed (Else :: cs) = Else :: cs) as -> by reflexivity. split.
      * destruct cs as [|c cs]; [|discriminate]. inversion F; subst. intros _ [|[|i]] w k X; try discriminate. injection X as <- <-.
        split; [reflexivity|congruence].
      * intros O. destruct (O 0%nat v n eq_refl) as [A _]. specialize (A D). cbn in A. destruct r; [|discriminate]. inversion F. reflexivity.
    + destruct C as (s & _ & [(G & N & ->)|(G & ->)]); (rewrite closed_cons by discriminate); cbn [else_ifs].
      * split; [discriminate|]. intros O. destruct (O 0%nat v n eq_refl) as [_ A]. destruct (A D G N).
      * rewrite IH. split; intros O.
        -- intros [|i] w k X; cbn [nth_error] in X.
           ++ injection X as <- <-. split; [congruence|]. intros _ W N. exact (G (conj W N)).
           ++ destruct (O i w k X) as [A B]. split; [intros W; cbn; f_equal; exact (A W)|exact B].
        -- intros i w k X. destruct (O (S i) w k X) as [A B]. split; [intros W; specialize (A W); cbn in A; lia|exact B].
Qed.
Lemma chain_grammar pm cs vs : Forall2 (cond_for pm) cs (combine vs (numbering 0 vs)) ->
  grammatical (closed cs) = true <-> chain_order vs.
Proof.
  unfold chain_order. intros F. destruct F as [|c [v n] cs r C F]; [split; [discriminate|intros []]|].
  unfold cond_for in C. destruct (v_default v) eqn:D.
  - subst c. split; [discriminate|]. intros [X _]. discriminate.
  - destruct C as (s & _ & [(G & N & ->)|(G & ->)]); (rewrite closed_cons by discriminate); cbn [grammatical].
    + rewrite (else_ifs_order _ _ _ F). unfold rest_order. tauto.
    + split; [discriminate|]. tauto.
Qed.
Lemma chain_choice pm cs vs ns data : Forall (fun v => v_value v = None) vs -> length vs = length ns ->
  Forall2 (cond_for pm) cs (combine vs ns) ->
  chain_takes pm data (closed cs) =
  Some (match first_such (fun v => v_default v || starts_with (literal v) data) vs with Some i => i | None => length vs end).
Proof.
  intros V. revert cs ns. induction V as [|v vs E V IH]; intros cs ns L F.
  - destruct ns; [|discriminate]. inversion F. reflexivity.
  - destruct ns as [|n ns]; [discriminate|]. cbn [combine] in F. inversion F as [|c vn cs' r C F']; subst. cbn [first_such].
    unfold cond_for in C. destruct (v_default v) eqn:D.
    + subst c. reflexivity.
    + destruct C as (s & B & C). specialize (B E).
      assert (X : closed (c :: cs') = c :: closed cs' /\ forall l, chain_takes pm data (c :: l) =
                if starts_with (p_bytes pm s) data then Some O else option_map S (chain_takes pm data l)).
      { destruct C as [(_ & _ & ->)|(_ & ->)]; (split; [apply closed_cons; discriminate|reflexivity]). }
      destruct X as [-> ->]. rewrite B. cbn [orb]. destruct (starts_with (literal v) data); [reflexivity|].
      rewrite (IH _ ns); [|injection L as ->; reflexivity|exact F']. cbn [option_map]. destruct (first_such _ vs); reflexivity.
Qed.
Lemma numbering_length vs : forall next, length (numbering next vs) = length vs.
Proof. induction vs as [|v vs IH]; intros next; [reflexivity|]. cbn [numbering length]. f_equal. apply IH. Qed.

(** ** Entries that hold a text *)
Lemma text_member (s : slot) (names : list string) :
  (forall x, In x names -> assoc (txt x) field_properties = Some (RString, s)) ->
  (forall x rk, In (x, (rk, s)) field_properties -> In x names) -> (forall x, ~ In (x, s) field_tags) -> s <> SBitsStart ->
  forall l fa o, attributes_of [jbytes_line l] = Some fa ->
    (forall k lit, In (Property k lit) l -> called k names -> exists t, string_literal lit t) ->
    decided (text_of names) l o -> member fa s = option_map Raw o.
Proof.
  intros HN HP HT HB l. induction l as [|e l IH] using rev_ind; intros fa o A T D.
  - cbv in A. injection A as <-. inversion D as [|? ? ? ? ? ? E]; [reflexivity|]. exfalso. destruct l; discriminate.
  - assert (exists fa1, attributes_of [jbytes_line l] = Some fa1) as (fa1 & A1).
    { destruct (attributes_of [jbytes_line l]) as [fa1|] eqn:A1; [exists fa1; reflexivity|]. exfalso.
      rewrite line_parsed in A1. apply entries_known in A1 as (e' & I & K).
      enough (attributes_of [jbytes_line (l ++ [e])] = None) by congruence. rewrite line_parsed. apply entries_known.
      exists e'. split; [apply in_app_iff; left; exact I|exact K]. }
    rewrite (line_snoc _ _ _ A1), entry_effects in A. destruct (effects e) as [ef|] eqn:EF; [|discriminate].
    injection A as <-.
    assert (T1 : forall k lit, In (Property k lit) l -> called k names -> exists t, string_literal lit t).
    { intros k lit I. apply T. apply in_app_iff. left. exact I. }
    destruct (decided_last _ _ _ _ D) as [(t & (k & lit & -> & K & L) & ->)|[N D1]].
    + cbn [effects] in EF. unfold called in K. apply in_map_iff in K as (x & <- & I). change (list_byte_of_string x) with (txt x) in *.
      rewrite (HN x I) in EF. cbn [option_map] in EF. injection EF as <-.
      assert (R : read_literal RString lit = Raw t) by (cbn [read_literal]; rewrite (read_string _ _ L); reflexivity).
      cbn [read_literal] in R. rewrite ?R. destruct (bytes_eqb (txt x) (txt "bits_start")); cbn [app puts read_literal fold_right put member fst snd].
      * rewrite slot_beq_false by congruence. rewrite slot_beq_refl, ?R. reflexivity.
      * rewrite slot_beq_refl, ?R. reflexivity.
    + rewrite puts_other; [exact (IH fa1 o A1 T1 D1)|]. intros I. destruct e as [i|k lit].
      * destruct (tag_slots _ _ _ EF I) as (x & J & _). exact (HT x J).
      * destruct (property_slots _ _ _ _ EF I) as [[E _]|(x & rk & J & ->)]; [exact (HB E)|].
        destruct (T (txt x) lit) as (t & L).
        { apply in_app_iff. right. left. reflexivity. }
        { unfold called. apply in_map. exact (HP x rk J). }
        apply (N t). exists (txt x), lit. split; [reflexivity|]. split; [|exact L]. unfold called. apply in_map. exact (HP x rk J).
Qed.
