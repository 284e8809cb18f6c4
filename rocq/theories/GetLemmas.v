(** Lemmas about the Jget derive: text functions and attributes. *)
From Coq Require Import Ascii String Lia.
From Verif Require Import Base BaseLemmas Ints Text MacLemmas Schema AttrParse JDefault JGet GetSpec.
Close Scope string_scope.

Lemma starts_iff p s : starts_with p s = true <-> exists r, s = p ++ r.
Proof.
  revert s; induction p as [|x p IH]; intros s; cbn.
  - split; [intros _; exists s; reflexivity|auto].
  - destruct s as [|y s]; [split; [discriminate|intros (r & H); discriminate]|].
    rewrite andb_true_iff, IH. unfold byte_eqb. split.
    + intros (E & r & ->). apply Byte.byte_dec_bl in E. subst y. exists r. reflexivity.
    + intros (r & H). injection H as -> ->. split; [apply Byte.byte_dec_lb; reflexivity|exists r; reflexivity].
Qed.
Lemma starts_app p r : starts_with p (p ++ r) = true.
Proof. apply starts_iff. exists r. reflexivity. Qed.

(** ** [remove_all] *)
Lemma remove_none p s : p <> [] -> ~ occurs p s -> remove_from p s 0%nat = s.
Proof.
  intros Hp. induction s as [|c r IH]; intros H; [reflexivity|]. cbn [remove_from].
  destruct (starts_with p (c :: r)) eqn:E.
  - apply starts_iff in E. destruct E as (t & E). elim H. exists [], t. exact E.
  - f_equal. apply IH. intros (a & b & ->). apply H. exists (c :: a), b. reflexivity.
Qed.
Lemma remove_skip p a b : remove_from p (a ++ b) (List.length a) = remove_from p b 0%nat.
Proof. induction a; cbn; [destruct b|]; auto. Qed.
Lemma remove_head p r : p <> [] -> remove_from p (p ++ r) 0%nat = remove_from p r 0%nat.
Proof.
  intros H. destruct p as [|c p]; [congruence|]. cbn [app remove_from].
  change (c :: p ++ r) with ((c :: p) ++ r). rewrite starts_app. cbn [List.length].
  replace (S (List.length p) - 1)%nat with (List.length p) by lia. apply remove_skip.
Qed.
Lemma starts_before p a c b : ~ In c p -> starts_with p (a ++ c :: b) = starts_with p a.
Proof.
  revert a; induction p as [|x p IH]; intros a H; [reflexivity|]. cbn in H.
  destruct a as [|y a]; cbn.
  - unfold byte_eqb. destruct (Byte.eqb x c) eqn:E; [|reflexivity].
    apply Byte.byte_dec_bl in E. tauto.
  - rewrite IH by tauto. reflexivity.
Qed.
Lemma starts_length p s : starts_with p s = true -> (List.length p <= List.length s)%nat.
Proof. intros H. apply starts_iff in H. destruct H as (r & ->). rewrite app_length. lia. Qed.
Lemma remove_across p a c b k : ~ In c p -> p <> [] -> (k <= List.length a)%nat ->
  remove_from p (a ++ c :: b) k = remove_from p a k ++ c :: remove_from p b 0%nat.
Proof.
  intros Hc Hp. revert k; induction a as [|y a IH]; intros k Hk.
  - cbn in Hk. assert (k = 0%nat) as -> by lia. cbn [app remove_from].
    destruct (starts_with p (c :: b)) eqn:E; [|reflexivity].
    apply starts_iff in E. destruct E as (r & E). destruct p as [|x p]; [congruence|].
    injection E as -> _. elim Hc. left; reflexivity.
  - cbn [app remove_from]. destruct k as [|k].
    + change (y :: a ++ c :: b) with ((y :: a) ++ c :: b). rewrite starts_before by exact Hc.
      destruct (starts_with p (y :: a)) eqn:E.
      * apply IH. apply starts_length in E. cbn in E. lia.
      * cbn [app]. f_equal. apply IH. lia.
    + apply IH. cbn in Hk. lia.
Qed.
Lemma remove_char c s : remove_from [c] s 0%nat = filter (fun d => negb (Byte.eqb d c)) s.
Proof.
  induction s as [|d s IH]; [reflexivity|]. cbn [remove_from starts_with List.length].
  rewrite andb_true_r. unfold byte_eqb. replace (Byte.eqb c d) with (Byte.eqb d c).
  - cbn [filter Nat.sub]. destruct (Byte.eqb d c); cbn [negb]; rewrite IH; reflexivity.
  - destruct (Byte.eqb d c) eqn:E.
    + apply Byte.byte_dec_bl in E. subst. symmetry. apply Byte.byte_dec_lb. reflexivity.
    + destruct (Byte.eqb c d) eqn:E2; [|reflexivity]. apply Byte.byte_dec_bl in E2. subst.
      rewrite Byte.byte_dec_lb in E by reflexivity. discriminate.
Qed.
Lemma eqb_iff a b : Byte.eqb a b = true <-> a = b.
Proof. split; [apply Byte.byte_dec_bl|apply Byte.byte_dec_lb]. Qed.
Lemma no_spaces_filter s : no_spaces s = filter (fun c => negb (Byte.eqb c " "%byte)) s.
Proof. unfold no_spaces, remove_all. change (txt " ") with [" "%byte]. apply remove_char. Qed.
Lemma no_spaces_type ts : no_spaces (type_text ts) = spelled ts.
Proof.
  rewrite no_spaces_filter. unfold type_text, spelled. induction ts as [|t ts IH]; [reflexivity|].
  cbn [map concat]. rewrite !filter_app, IH. f_equal.
  destruct (bytes_eqb t _); [reflexivity|]. rewrite filter_app. cbn [filter].
  replace (Byte.eqb " "%byte " "%byte) with true by reflexivity. cbn [negb]. apply app_nil_r.
Qed.

(** ** Names *)
Lemma ident_not s c : Forall ident_char s -> ~ ident_char c -> ~ In c s.
Proof. intros H H' HI. rewrite Forall_forall in H. auto. Qed.
Lemma dot_not : ~ ident_char "."%byte.
Proof. unfold ident_char. change (b2n "."%byte) with 46. lia. Qed.
Lemma hash_not : ~ ident_char "#"%byte.
Proof. unfold ident_char. change (b2n "#"%byte) with 35. lia. Qed.
Lemma paren_not : ~ ident_char "("%byte.
Proof. unfold ident_char. change (b2n "("%byte) with 40. lia. Qed.
Lemma comma_not : ~ ident_char ","%byte.
Proof. unfold ident_char. change (b2n ","%byte) with 44. lia. Qed.
Lemma occurs_char p s c : In c p -> ~ In c s -> ~ occurs p s.
Proof. intros H H' (a & b & ->). apply H'. rewrite !in_app_iff. auto. Qed.
Lemma remove_r s : ~ In "#"%byte s -> remove_all "r#" s = s.
Proof. intros H. apply remove_none; [discriminate|]. apply (occurs_char _ _ "#"%byte); [right; left; reflexivity|exact H]. Qed.
Lemma split_last_segment p q : ~ In "."%byte q -> last (split_on "."%byte (p ++ "."%byte :: q)) [] = q.
Proof.
  intros H. assert (Hq : split_on "."%byte q = [q]).
  { clear p. induction q as [|c q IH]; [reflexivity|]. cbn. cbn in H.
    destruct (Byte.eqb c "."%byte) eqn:E; [apply eqb_iff in E; subst; tauto|]. rewrite IH by tauto. reflexivity. }
  assert (G : forall p, exists l, split_on "."%byte (p ++ "."%byte :: q) = l ++ [q] /\ l <> []).
  { clear p. induction p as [|c p (l & E & Hl)].
    - exists [[]]. split; [|discriminate]. transitivity ([] :: split_on "."%byte q); [reflexivity|]. rewrite Hq. reflexivity.
    - cbn [app split_on]. destruct (Byte.eqb c "."%byte).
      + exists ([] :: l). rewrite E. split; [reflexivity|discriminate].
      + rewrite E. destruct l as [|x l]; [congruence|]. exists ((c :: x) :: l). split; [reflexivity|discriminate]. }
  destruct (G p) as (l & -> & _). apply last_last.
Qed.
Lemma split_one_segment q : ~ In "."%byte q -> last (split_on "."%byte q) [] = q.
Proof.
  intros H. assert (Hq : split_on "."%byte q = [q]).
  { induction q as [|c q IH]; [reflexivity|]. cbn. cbn in H.
    destruct (Byte.eqb c "."%byte) eqn:E; [apply eqb_iff in E; subst; tauto|]. rewrite IH by tauto. reflexivity. }
  rewrite Hq. reflexivity.
Qed.
Lemma simple_parts m : simple_name m ->
  ~ In "."%byte m /\ ~ In "#"%byte m /\ ~ In "("%byte m /\ ~ occurs (txt "get_") m.
Proof. intros (H & G). repeat split; [apply ident_not; auto using dot_not, hash_not, paren_not..|exact G]. Qed.
Lemma get_first a b : ~ occurs (txt "get_") a -> remove_from (txt "get_") (a ++ txt "get_" ++ b) 0%nat = a ++ remove_from (txt "get_") b 0%nat.
Proof.
  induction a as [|c a IH]; intros H; [cbn [app]; apply (remove_head (txt "get_")); discriminate|].
  assert (H' : ~ occurs (txt "get_") a) by (intros (x & y & ->); apply H; exists (c :: x), y; reflexivity).
  specialize (IH H'). cbn [app remove_from]. destruct (starts_with (txt "get_") (c :: a ++ txt "get_" ++ b)) eqn:E; [exfalso|now rewrite IH].
  apply starts_iff in E as (r & E). destruct a as [|c1 [|c2 [|c3 a]]]; try discriminate E. injection E as -> -> -> -> _.
  apply H. exists [], a. reflexivity.
Qed.
Lemma remove_get n m : without_get n m -> remove_from (txt "get_") n 0%nat = m.
Proof. induction 1 as [n H|a b m H W IH]; [now apply remove_none|]. now rewrite get_first, IH. Qed.
Lemma without_ident n m : without_get n m -> Forall ident_char n -> Forall ident_char m.
Proof.
  induction 1 as [n H|a b m H W IH]; [easy|]. intros F. apply Forall_app in F as (Fa & F). apply Forall_app in F as (_ & F).
  apply Forall_app. auto.
Qed.
Lemma ident_parts m : Forall ident_char m -> ~ In "."%byte m /\ ~ In "#"%byte m /\ ~ In "("%byte m.
Proof. intros H. repeat split; apply ident_not; auto using dot_not, hash_not, paren_not. Qed.
Lemma simple_for m : simple_name m -> named_for m m.
Proof. intros (H & G). split; [exact H|now constructor]. Qed.
Lemma remove_simple n m : named_for n m -> remove_all "()" (remove_all "get_" (remove_all "r#" n)) = m.
Proof.
  intros (F & W). destruct (ident_parts n F) as (_ & H1 & _). rewrite (remove_r n H1). unfold remove_all. rewrite (remove_get n m W).
  destruct (ident_parts m (without_ident n m W F)) as (_ & _ & H2).
  apply remove_none; [discriminate|]. apply (occurs_char _ _ "("%byte); [left; reflexivity|exact H2].
Qed.
Lemma occurs_suffix p m c q : ~ In c p -> occurs p (m ++ c :: q) -> occurs p m \/ occurs p q.
Proof.
  intros Hc (a & b & E). revert a E. induction m as [|y m IH]; intros a E.
  - right. destruct a as [|x a].
    + cbn in E. destruct p as [|x p]; [exists [], q; reflexivity|]. injection E as -> _. elim Hc. left. reflexivity.
    + injection E as _ ->. exists a, b. reflexivity.
  - destruct a as [|x a].
    + left. cbn [app] in E.
      assert (S : starts_with p ((y :: m) ++ c :: q) = true) by (apply starts_iff; exists b; exact E).
      rewrite starts_before in S by exact Hc. apply starts_iff in S. destruct S as (r & S). exists [], r. exact S.
    + injection E as <- E. destruct (IH _ E) as [(a' & b' & ->)|H]; [|auto].
      left. exists (y :: a'), b'. reflexivity.
Qed.
Lemma without_call n m : without_get n m -> without_get (n ++ txt "()") (m ++ txt "()").
Proof.
  induction 1 as [n H|a b m H W IH].
  - constructor. intros O. change (txt "()") with ("("%byte :: [")"%byte]) in O.
    apply occurs_suffix in O; [|cbn; intuition discriminate]. destruct O as [O|O]; [auto|].
    destruct O as (a & b & O). apply (f_equal (@List.length _)) in O. rewrite !app_length in O. cbn in O. lia.
  - rewrite <- !app_assoc. now constructor.
Qed.
Lemma remove_call n m : named_for n m ->
  remove_all "()" (remove_all "get_" (remove_all "r#" (txt "get_" ++ n ++ txt "()"))) = m.
Proof.
  intros (F & W). destruct (ident_parts n F) as (_ & H1 & _).
  rewrite remove_r.
  2:{ rewrite !in_app_iff. intros [I|[I|I]]; [|tauto|]; cbn in I; repeat destruct I as [I|I]; try discriminate I; exact I. }
  unfold remove_all. rewrite remove_head by discriminate. rewrite (remove_get _ _ (without_call _ _ W)).
  destruct (ident_parts m (without_ident n m W F)) as (_ & _ & H2).
  change (txt "()") with ["("%byte; ")"%byte].
  assert (G : forall m, ~ In "("%byte m -> remove_from ["("%byte; ")"%byte] (m ++ ["("%byte; ")"%byte]) 0%nat = m).
  { clear. induction m as [|c m IH]; intros H; [reflexivity|]. cbn in H. cbn [app remove_from starts_with].
    unfold byte_eqb. destruct (Byte.eqb "("%byte c) eqn:E.
    - apply eqb_iff in E. subst. tauto.
    - cbn [andb]. rewrite IH by tauto. reflexivity. }
  apply G, H2.
Qed.
Lemma function_name n m : called n m -> get_function_name n = m.
Proof.
  intros (u & Hm & H). unfold get_function_name. destruct (ident_parts u (proj1 Hm)) as (Hd & Hh & Hp).
  destruct (ident_parts m (without_ident u m (proj2 Hm) (proj1 Hm))) as (Md & _ & _).
  destruct H as [-> | (p & Hpn & [-> | ->])].
  - rewrite (remove_simple u m) by exact Hm. apply split_one_segment, Md.
  - change (txt "." ++ u) with ("."%byte :: u). unfold remove_all.
    assert (A : forall q, In q ["r#"; "get_"; "()"]%string -> ~ In "."%byte (txt q) /\ txt q <> []).
    { intros q I. cbn in I. repeat destruct I as [<-|I]; [..|tauto]; (split; [cbn; intuition discriminate|discriminate]). }
    rewrite !remove_across by (apply A; cbn; tauto) || lia.
    pose proof (remove_simple u m Hm) as R. unfold remove_all in R. rewrite R.
    apply split_last_segment, Md.
  - change (txt ".get_" ++ u ++ txt "()") with ("."%byte :: (txt "get_" ++ u ++ txt "()")). unfold remove_all.
    assert (A : forall q, In q ["r#"; "get_"; "()"]%string -> ~ In "."%byte (txt q) /\ txt q <> []).
    { intros q I. cbn in I. repeat destruct I as [<-|I]; [..|tauto]; (split; [cbn; intuition discriminate|discriminate]). }
    rewrite !remove_across by (apply A; cbn; tauto) || lia.
    pose proof (remove_call u m Hm) as R. unfold remove_all in R. rewrite R.
    apply split_last_segment, Md.
Qed.
Lemma simple_called m : simple_name m -> called m m.
Proof. intros H. exists m. split; [now apply simple_for|now left]. Qed.

(** ** Literals *)
Lemma white_iff c : is_white c = true <-> white c.
Proof.
  unfold is_white, white. cbv zeta. rewrite orb_true_iff, andb_true_iff, N.eqb_eq, !N.leb_le. reflexivity.
Qed.
Lemma trim_neat s : (forall c r, s = c :: r -> ~ white c) -> (forall c r, s = r ++ [c] -> ~ white c) -> trim s = s.
Proof.
  intros H1 H2. unfold trim.
  assert (A : forall s, (forall c r, s = c :: r -> ~ white c) -> trim_start s = s).
  { clear. intros s H. destruct s as [|c r]; [reflexivity|]. cbn. destruct (is_white c) eqn:E; [|reflexivity].
    apply white_iff in E. elim (H c r eq_refl E). }
  rewrite (A s) by exact H1. rewrite A.
  - apply rev_involutive.
  - intros c r E. apply (H2 c (rev r)). rewrite <- (rev_involutive s), E. reflexivity.
Qed.
Lemma split_once_first c a b : ~ In c a -> split_once c (a ++ c :: b) = Some (a, b).
Proof.
  intros H. induction a as [|d a IH]; cbn.
  - replace (Byte.eqb c c) with true; [reflexivity|]. symmetry. apply eqb_iff. reflexivity.
  - cbn in H. destruct (Byte.eqb d c) eqn:E; [apply eqb_iff in E; subst; tauto|]. rewrite IH by tauto. reflexivity.
Qed.
Lemma split_comma l : l <> [] -> Forall (fun x => ~ In ","%byte x) l -> split_on ","%byte (comma l) = l.
Proof.
  intros Hl H. induction l as [|x l IH]; [congruence|]. inversion_clear H as [|? ? Hx Hr].
  assert (E : forall x b, ~ In ","%byte x -> split_on ","%byte (x ++ ","%byte :: b) = x :: split_on ","%byte b).
  { clear. induction x as [|c x IH]; intros b H; [reflexivity|]. cbn in H. cbn [app split_on].
    destruct (Byte.eqb c ","%byte) eqn:E; [apply eqb_iff in E; subst; tauto|]. rewrite IH by tauto. reflexivity. }
  destruct l as [|y l].
  - cbn [comma]. clear - Hx. induction x as [|c x IH]; [reflexivity|]. cbn in Hx. cbn [split_on].
    destruct (Byte.eqb c ","%byte) eqn:F; [apply eqb_iff in F; subst; tauto|]. rewrite IH by tauto. reflexivity.
  - change (comma (x :: y :: l)) with (x ++ ","%byte :: comma (y :: l)). rewrite E by exact Hx.
    f_equal. apply IH; [discriminate|exact Hr].
Qed.
Lemma literal_list l : listing l -> get_value_string_list (literal_of l) = l.
Proof.
  intros (Hl & H). unfold get_value_string_list, literal_of.
  assert (Q : forall x, get_value_string (QUOTE :: x ++ [QUOTE]) = x).
  { intros x. unfold get_value_string.
    assert (L : last (x ++ [QUOTE]) x00 = QUOTE) by apply last_last.
    destruct (x ++ [QUOTE]) as [|c r] eqn:E; [destruct x; discriminate|]. rewrite L.
    change (Byte.eqb QUOTE QUOTE) with true. cbn [andb tl]. rewrite <- E. apply removelast_last. }
  rewrite Q, split_comma.
  - rewrite map_map. rewrite <- (map_id l) at 2. apply map_ext_in. intros (n, t) I.
    rewrite Forall_forall in H. destruct (H _ I) as ((_ & H1 & H2) & H3 & (_ & H4 & H5)). cbn [fst snd] in *.
    unfold name_and_type, pair_text. cbn [fst snd]. rewrite split_once_first by exact H3.
    rewrite !trim_neat; auto.
  - destruct l; [congruence|discriminate].
  - rewrite Forall_map. eapply Forall_impl; [|exact H]. intros (n, t) ((A & _) & _ & (B & _)). cbn [fst snd] in *.
    unfold pair_text. cbn [fst snd]. rewrite in_app_iff. cbn. intros [I|[I|I]]; [tauto|discriminate I|tauto].
Qed.

(** ** Attributes *)
Lemma attributes_jget al es : jget al es -> get_attributes al = get_entries no_gattrs es.
Proof.
  intros (pre & post & -> & H). unfold get_attributes. induction pre as [|a pre IH]; cbn [app get_attribute].
  - unfold parse_get_field at 1. cbn [t_name t_entries]. rewrite bytes_eqb_refl.
    destruct (get_entries no_gattrs es); reflexivity.
  - inversion_clear H as [|? ? Ha Hr]. unfold parse_get_field at 1.
    destruct (bytes_eqb (t_name a) (txt "jget")) eqn:E; [apply bytes_eqb_eq in E; congruence|]. apply IH, Hr.
Qed.
Lemma attributes_none al : no_jget al -> get_attributes al = Some no_gattrs.
Proof.
  intros H. unfold get_attributes. induction al as [|a al IH]; [reflexivity|]. inversion_clear H as [|? ? Ha Hr].
  cbn [get_attribute]. unfold parse_get_field at 1.
  destruct (bytes_eqb (t_name a) (txt "jget")) eqn:E; [apply bytes_eqb_eq in E; congruence|]. apply IH, Hr.
Qed.
Ltac tag_cases :=
  intuition (try congruence; try match goal with H : Tag _ = Tag _ |- _ => vm_compute in H; discriminate H end).
Lemma entries_spec es : forall r a, get_entries r es = Some a ->
  (a_get a = true <-> a_get r = true \/ In (Tag (txt "get")) es) /\
  (a_get_option a = true <-> a_get_option r = true \/ In (Tag (txt "get_option")) es) /\
  (a_option a = true <-> a_option r = true \/ In (Tag (txt "option")) es) /\
  (forall x, In x (a_get_string a) <-> In x (a_get_string r) \/
     exists lit, In (Property (txt "get") lit) es /\ In x (get_value_string_list lit)) /\
  (forall x, In x (a_get_string_option a) <-> In x (a_get_string_option r) \/
     exists lit, In (Property (txt "get_option") lit) es /\ In x (get_value_string_list lit)).
Proof.
  induction es as [|e es IH]; intros r a E.
  - injection E as <-. cbn [In]. clear.
    assert (X : forall (A B : Prop) (P : bytes -> Prop), (A <-> A \/ exists lit, False /\ P lit)) by (intros; split; [tauto|intros [H|(? & [] & _)]; exact H]).
    repeat apply conj; try tauto; intros x; apply X; exact True.
  - cbn [get_entries] in E. destruct r as [g gs o os c p]. destruct e as [i|k lit].
    + assert (D : forall s, txt s = txt s) by reflexivity.
      destruct (bytes_eqb i (txt "get")) eqn:E1; [|destruct (bytes_eqb i (txt "get_option")) eqn:E2;
        [|destruct (bytes_eqb i (txt "clone")) eqn:E3; [|destruct (bytes_eqb i (txt "option")) eqn:E4; [|discriminate]]]];
      apply bytes_eqb_eq in E1 || apply bytes_eqb_eq in E2 || apply bytes_eqb_eq in E3 || apply bytes_eqb_eq in E4; subst i;
      apply IH in E; cbn [a_get a_get_option a_option a_get_string a_get_string_option In] in *;
      destruct E as (A & B & C & F & G);
      (split; [rewrite A; clear; tag_cases|]);
      (split; [rewrite B; clear; tag_cases|]);
      (split; [rewrite C; clear; tag_cases|]);
      (split; intros x; [rewrite F|rewrite G]); clear;
      (split; intros [H|(lit & H & H')]; [left; exact H| right; exists lit; tauto | left; exact H|right; exists lit; split; [destruct H as [H|H]; [discriminate H|exact H]|exact H']]).
    + destruct (bytes_eqb k (txt "name")) eqn:E1; [|destruct (bytes_eqb k (txt "get")) eqn:E2;
        [|destruct (bytes_eqb k (txt "get_option")) eqn:E3; [|discriminate]]];
      apply bytes_eqb_eq in E1 || apply bytes_eqb_eq in E2 || apply bytes_eqb_eq in E3; subst k;
      apply IH in E; cbn [a_get a_get_option a_option a_get_string a_get_string_option In] in *;
      destruct E as (A & B & C & F & G);
      (split; [rewrite A; clear; tag_cases|]);
      (split; [rewrite B; clear; tag_cases|]);
      (split; [rewrite C; clear; tag_cases|]);
      (split; intros x; [rewrite F|rewrite G]); clear; try rewrite in_app_iff;
      (split; intros H;
       [destruct H as [H|(l' & H & H')]; [try destruct H as [H|H]; eauto|right; exists l'; tauto]
       |destruct H as [H|(l' & [H|H] & H')];
        [tauto| try discriminate H; try (injection H as <-; tauto) | right; exists l'; tauto]]).
Qed.

(** ** Types *)
Lemma space_not : ~ ident_char " "%byte.
Proof. unfold ident_char. change (b2n " "%byte) with 32. lia. Qed.
Lemma word_apart w c rest tok r : Forall ident_char w -> c <> " "%byte -> ~ ident_char c -> Forall ident_char tok ->
  w ++ c :: rest <> tok ++ " "%byte :: r.
Proof.
  revert tok. induction w as [|x w IH]; intros tok Hw Hs Hc Ht E.
  - destruct tok as [|y tok]; cbn in E; [injection E as E _; congruence|].
    injection E as -> _. inversion Ht; tauto.
  - inversion_clear Hw as [|? ? Hx Hw']. destruct tok as [|y tok]; cbn in E.
    + injection E as -> _. exact (space_not Hx).
    + injection E as -> E. inversion_clear Ht. eapply IH; eauto.
Qed.
(** The text of a type never starts with a word and a [<]. *)
Lemma type_prefix w rest ts : Forall token ts -> Forall ident_char w -> w <> [] ->
  starts_with (w ++ "<"%byte :: rest) (type_text ts) = false.
Proof.
  intros H Hw Hn. destruct (starts_with _ _) eqn:E; [|reflexivity]. apply starts_iff in E. destruct E as (r & E).
  exfalso. unfold type_text in E. destruct ts as [|t ts]; [destruct w; discriminate|].
  inversion_clear H as [|? ? Ht _]. cbn [map concat] in E. rewrite <- app_assoc in E. cbn [app] in E.
  destruct t as [|c t]; [exact Ht|]. cbn in Ht.
  destruct w as [|x w]; [congruence|]. inversion_clear Hw as [|? ? Hx Hw'].
  destruct Ht as [Ht|Hc].
  - destruct (bytes_eqb (c :: t) ["'"%byte]) eqn:Q.
    { apply bytes_eqb_eq in Q. injection Q as -> ->. inversion Ht as [|? ? B]. unfold ident_char in B.
      change (b2n "'"%byte) with 39 in B. lia. }
    rewrite <- app_assoc in E. cbn [app] in E. symmetry in E.
    change (x :: w ++ "<"%byte :: rest ++ r) with ((x :: w) ++ "<"%byte :: rest ++ r) in E.
    change (c :: t ++ " "%byte :: ?z) with ((c :: t) ++ " "%byte :: z) in E.
    revert E. apply word_apart; [constructor; assumption|discriminate| |exact Ht].
    unfold ident_char. change (b2n "<"%byte) with 60. lia.
  - destruct (bytes_eqb (c :: t) ["'"%byte]); cbn [app] in E; injection E as -> _; exact (Hc Hx).
Qed.

(** ** Calls *)
Lemma all_some_in {A B} (f : A -> option B) l ys x : all_some (map f l) = Some ys -> In x l ->
  exists y, f x = Some y /\ In y ys.
Proof.
  revert ys; induction l as [|a l IH]; intros ys H I; [destruct I|]. cbn in H.
  destruct (f a) as [b|] eqn:E; [|discriminate]. destruct (all_some (map f l)) as [r|]; [|discriminate].
  injection H as <-. destruct I as [->|I]; [exists b; split; [exact E|left; reflexivity]|].
  destruct (IH r eq_refl I) as (y & F & G). exists y. split; [exact F|right; exact G].
Qed.
Lemma all_some_from {A B} (f : A -> option B) l ys y : all_some (map f l) = Some ys -> In y ys ->
  exists x, In x l /\ f x = Some y.
Proof.
  revert ys; induction l as [|a l IH]; intros ys H I; cbn in H; [injection H as <-; destruct I|].
  destruct (f a) as [b|] eqn:E; [|discriminate]. destruct (all_some (map f l)) as [r|]; [|discriminate].
  injection H as <-. destruct I as [->|I]; [exists a; split; [left; reflexivity|exact E]|].
  destruct (IH r eq_refl I) as (x & F & G). exists x. split; [right; exact F|exact G].
Qed.
Lemma the_one_filter {A} (l : list (bytes * A)) n x : NoDup (map fst l) -> In (n, x) l ->
  the_one (filter (fun y => bytes_eqb (fst y) n) l) = Some (n, x).
Proof.
  induction l as [|(m, y) l IH]; intros H I; [destruct I|]. cbn [map fst] in H. inversion_clear H as [|? ? Hm Hl].
  assert (G : forall n, ~ In n (map fst l) -> filter (fun y => bytes_eqb (fst y) n) l = []).
  { clear. intros n H. induction l as [|(m, y) l IH]; [reflexivity|]. cbn in H |- *.
    destruct (bytes_eqb m n) eqn:E; [apply bytes_eqb_eq in E; subst; tauto|]. apply IH. tauto. }
  cbn [filter fst]. destruct I as [I|I].
  - injection I as -> ->. rewrite bytes_eqb_refl, G by exact Hm. reflexivity.
  - destruct (bytes_eqb m n) eqn:E.
    + apply bytes_eqb_eq in E. subst. elim Hm. apply in_map_iff. exists (n, x). split; [reflexivity|exact I].
    + apply IH; assumption.
Qed.
Lemma functions_field attrs fs l f : struct_functions attrs (NamedFields fs) = Some l -> In f fs ->
  exists a, get_attributes (gf_attrs f) = Some a /\
    forall g, In g ((if a_get a then [plain_getter f a false] else []) ++
                    (if a_get_option a then [plain_getter f a true] else []) ++
                    map (named_getter f a false) (a_get_string a) ++
                    map (named_getter f a true) (a_get_string_option a)) -> In (g_name g, Some g) l.
Proof.
  unfold struct_functions. destruct (get_container_attributes attrs) as [ds|]; [|discriminate]. cbn [body_getters].
  destruct (all_some _) as [gs|] eqn:E; [|discriminate]. cbn [option_map]. intros H I. injection H as <-.
  destruct (all_some_in _ _ _ _ E I) as (ys & F & G). unfold field_getters in F.
  destruct (get_attributes (gf_attrs f)) as [a|]; [|discriminate]. exists a. split; [reflexivity|].
  intros g Ig. cbn [option_map] in F. injection F as <-. apply in_app_iff. right. apply in_map_iff.
  exists (g, gf_name f). split; [reflexivity|]. apply in_concat. eexists. split; [exact G|].
  apply in_map_iff. exists g. split; [reflexivity|exact Ig].
Qed.
Lemma call_of into attrs fs l n g env : struct_functions attrs (NamedFields fs) = Some l -> NoDup (map fst l) ->
  In (n, Some g) l -> struct_call into attrs (NamedFields fs) n env = run_getter into (g_ret g) env g.
Proof. intros H D I. unfold struct_call. rewrite H, (the_one_filter l n (Some g) D I). reflexivity. Qed.
Lemma marked_call into attrs fs f o m env : derives attrs fs -> In f fs -> marked (gf_attrs f) o -> named_for (gf_name f) m ->
  exists a, a_option a = false /\
    struct_call into attrs (NamedFields fs) m env =
      run_getter into (g_ret (plain_getter f a o)) env (plain_getter f a o).
Proof.
  intros (l & H & D) I (es & J & Ho & M) N. destruct (functions_field _ _ _ _ H I) as (a & A & G).
  exists a. rewrite (attributes_jget _ _ J) in A. apply entries_spec in A. cbn in A.
  destruct A as (A1 & A2 & A3 & _). split.
  - destruct (a_option a); [|reflexivity]. exfalso. destruct (proj1 A3 eq_refl); [discriminate|tauto].
  - apply (call_of into attrs fs l _ _ env H D).
    assert (X : g_name (plain_getter f a o) = m).
    { apply function_name. exists (gf_name f). split; [exact N|left; reflexivity]. }
    rewrite <- X. apply G. apply in_app_iff. destruct o.
    + right. apply in_app_iff. left. rewrite (proj2 A2) by (right; exact M). left. reflexivity.
    + left. rewrite (proj2 A1) by (right; exact M). left. reflexivity.
Qed.
Lemma asks_call into attrs fs f o n t m env : derives attrs fs -> In f fs -> asks (gf_attrs f) o n t -> called n m ->
  exists a, a_option a = false /\
    struct_call into attrs (NamedFields fs) m env =
      run_getter into (g_ret (named_getter f a o (n, t))) env (named_getter f a o (n, t)).
Proof.
  intros (l & H & D) I (es & ls & J & Ho & M & L & P) N. destruct (functions_field _ _ _ _ H I) as (a & A & G).
  exists a. rewrite (attributes_jget _ _ J) in A. apply entries_spec in A. cbn in A.
  destruct A as (_ & _ & A3 & A4 & A5). split.
  - destruct (a_option a); [|reflexivity]. exfalso. destruct (proj1 A3 eq_refl); [discriminate|tauto].
  - apply (call_of into attrs fs l _ _ env H D).
    assert (X : g_name (named_getter f a o (n, t)) = m) by (apply function_name; exact N).
    rewrite <- X. apply G. apply in_app_iff. right. apply in_app_iff. right. apply in_app_iff.
    rewrite <- (literal_list ls L) in P. destruct o.
    + right. apply in_map_iff. exists (n, t). split; [reflexivity|]. apply A5. right. eexists. split; [exact M|exact P].
    + left. apply in_map_iff. exists (n, t). split; [reflexivity|]. apply A4. right. eexists. split; [exact M|exact P].
Qed.

(** ** Steps *)
Lemma wrapped t : inside (txt "Option<" ++ t ++ txt ">") = t.
Proof.
  unfold inside, begins. rewrite starts_app. change (txt ">") with [">"%byte].
  change (skipn 7 (txt "Option<" ++ t ++ [">"%byte])) with (t ++ [">"%byte]). apply removelast_last.
Qed.
Lemma no_spaces_app a b : no_spaces (a ++ b) = no_spaces a ++ no_spaces b.
Proof. rewrite !no_spaces_filter. apply filter_app. Qed.
Lemma spelled_one t : spelled [t] = no_spaces t.
Proof. rewrite no_spaces_filter. unfold spelled. cbn. rewrite app_nil_r. reflexivity. Qed.
Lemma word s : forallb (fun c => existsb (Byte.eqb c) (txt "abcdefghijklmnopqrstuvwxyzABCDEFGHIJKLMNOPQRSTUVWXYZ0123456789_")) (txt s) = true ->
  Forall ident_char (txt s).
Proof.
  intros H. apply Forall_forall. intros c I. rewrite forallb_forall in H. specialize (H _ I).
  rewrite existsb_exists in H. destruct H as (d & D & E). apply eqb_iff in E. subst d.
  unfold ident_char. cbn in D.
  repeat (destruct D as [<-|D]; [vm_compute; intuition congruence|]). destruct D.
Qed.
Lemma begins_type p q ts : Forall token ts -> forallb (fun c => existsb (Byte.eqb c) (txt "abcdefghijklmnopqrstuvwxyzABCDEFGHIJKLMNOPQRSTUVWXYZ0123456789_")) (txt p) = true ->
  txt p <> [] -> starts_with (txt p ++ "<"%byte :: q) (type_text ts) = false.
Proof. intros H W N. apply type_prefix; [exact H|apply word, W|exact N]. Qed.
