(** C60: the functions derived by [#[derive(Jget)]] on a struct. *)
From Coq Require Import Ascii String Lia.
From Verif Require Import Base BaseLemmas Ints Text Schema AttrParse JDefault JGet GetSpec GetLemmas.
Close Scope string_scope.

Lemma wrapped_vector t : begins "Vec<u" (txt "Option<" ++ t ++ txt ">") = false /\ begins "Vec<i" (txt "Option<" ++ t ++ txt ">") = false.
Proof. split; reflexivity. Qed.
Lemma plain_step f a o : Forall token (gf_type f) ->
  code_step (g_ret (plain_getter f a o)) (spelled (gf_type f)) =
    (if begins "Option<" (spelled (gf_type f)) then IntoOption else Into).
Proof.
  intros T. unfold plain_getter, code. cbn [g_ret]. unfold get_return_type.
  assert (O : begins "Option<" (type_text (gf_type f)) = false).
  { unfold begins. apply (begins_type "Option" []); [exact T|reflexivity|discriminate]. }
  rewrite O, orb_false_r. cbn [negb andb].
  assert (V : forall c, starts_with (txt "Vec" ++ "<"%byte :: [c]) (type_text (gf_type f)) = false).
  { intros c. apply begins_type; [exact T|reflexivity|discriminate]. }
  unfold code_step. destruct o.
  - destruct (wrapped_vector (type_text (gf_type f))) as (-> & ->). cbn [orb andb].
    assert (W : forall c, c <> ">"%byte -> starts_with (txt "Option<Vec<" ++ [c]) (txt "Option<" ++ type_text (gf_type f) ++ txt ">") = false).
    { intros c Hc. transitivity (starts_with (txt "Vec" ++ "<"%byte :: [c]) (type_text (gf_type f) ++ ">"%byte :: [])); [reflexivity|].
      rewrite starts_before; [apply V|]. cbn. intuition congruence. }
    pose proof (W "u"%byte ltac:(discriminate) : begins "Option<Vec<u" _ = _) as W1.
    pose proof (W "i"%byte ltac:(discriminate) : begins "Option<Vec<i" _ = _) as W2. rewrite W1, W2. reflexivity.
  - pose proof (V "u"%byte : begins "Vec<u" _ = _) as V1. pose proof (V "i"%byte : begins "Vec<i" _ = _) as V2.
    rewrite V1, V2. cbn [orb andb].
    assert (W : forall c, starts_with (txt "Option" ++ "<"%byte :: txt "Vec<" ++ [c]) (type_text (gf_type f)) = false).
    { intros c. apply begins_type; [exact T|reflexivity|discriminate]. }
    pose proof (W "u"%byte : begins "Option<Vec<u" _ = _) as W1.
    pose proof (W "i"%byte : begins "Option<Vec<i" _ = _) as W2. rewrite W1, W2. reflexivity.
Qed.
Lemma plain_ret f a o : Forall token (gf_type f) ->
  no_spaces (g_ret (plain_getter f a o)) =
    (if o then txt "Option<" ++ spelled (gf_type f) ++ txt ">" else spelled (gf_type f)).
Proof.
  intros T. unfold plain_getter, code. cbn [g_ret]. unfold get_return_type.
  assert (O : begins "Option<" (type_text (gf_type f)) = false).
  { unfold begins. apply (begins_type "Option" []); [exact T|reflexivity|discriminate]. }
  rewrite O, orb_false_r. cbn [negb andb]. destruct o; [|apply no_spaces_type].
  rewrite !no_spaces_app, no_spaces_type. reflexivity.
Qed.
Lemma field_path n : Forall ident_char n -> get_field_name n = n.
Proof. intros H. apply remove_r. apply ident_parts in H. tauto. Qed.

(** *** A field marked [get] has a getter of its name (without any [get_]) that returns its
    value. *)
Theorem C60_get_partial into attrs fs f v m env : standard_conversions into -> derives attrs fs -> In f fs ->
  marked (gf_attrs f) false -> named_for (gf_name f) m -> Forall token (gf_type f) ->
  env (gf_name f) = Some (spelled (gf_type f), v) ->
  (forall u, spelled (gf_type f) = txt "Option<" ++ u -> exists o, v = VOpt o) ->
  struct_call into attrs (NamedFields fs) m env = Some v.
Proof.
  intros (R & _) D I M N T E W. destruct (marked_call into attrs fs f false m env D I M N) as (a & Ha & ->).
  unfold run_getter. pose proof (plain_step f a false T) as S. rewrite (plain_ret f a false T).
  unfold plain_getter, code in S |- *. cbn [g_path g_some g_step g_ret] in *.
  rewrite (field_path _ (proj1 N)), E, no_spaces_type, S, Ha. cbn [orb].
  destruct (begins "Option<" (spelled (gf_type f))) eqn:B.
  - apply starts_iff in B. destruct B as (u & B). destruct (W u B) as (o & ->).
    destruct o as [w|]; cbn [option_map]; [rewrite R|]; reflexivity.
  - cbn [option_map]. rewrite R. reflexivity.
Qed.

(** *** Marked [get_option], it returns [Some] of the value; of a field that is itself
    an [Option], [Some(Some(x))] or [None]. *)
Theorem C60_get_option_partial into attrs fs f v m env : standard_conversions into -> derives attrs fs -> In f fs ->
  marked (gf_attrs f) true -> named_for (gf_name f) m -> Forall token (gf_type f) ->
  env (gf_name f) = Some (spelled (gf_type f), v) ->
  ((forall u, spelled (gf_type f) <> txt "Option<" ++ u) ->
   struct_call into attrs (NamedFields fs) m env = Some (VOpt (Some v))) /\
  (forall u o, spelled (gf_type f) = txt "Option<" ++ u ++ txt ">" -> v = VOpt o ->
   struct_call into attrs (NamedFields fs) m env = Some (VOpt (option_map (fun x => VOpt (Some x)) o))).
Proof.
  intros (R & R') D I M N T E. destruct (marked_call into attrs fs f true m env D I M N) as (a & Ha & ->).
  unfold run_getter. pose proof (plain_step f a true T) as S. rewrite (plain_ret f a true T), wrapped.
  unfold plain_getter, code in S |- *. cbn [g_path g_some g_step g_ret] in *.
  rewrite (field_path _ (proj1 N)), E, no_spaces_type, S, Ha. cbn [orb]. split.
  - intros H. destruct (begins "Option<" (spelled (gf_type f))) eqn:B.
    + apply starts_iff in B. destruct B as (u & B). elim (H u B).
    + cbn [option_map]. rewrite R. reflexivity.
  - intros u o H ->. rewrite H. unfold begins. rewrite starts_app. rewrite wrapped.
    destruct o as [w|]; cbn [option_map]; [rewrite R'|]; reflexivity.
Qed.

(** ** Getters asked for by name and type *)
Lemma subject_path f n m e : called n m -> Forall ident_char f -> subject f n e ->
  get_field_name (if has "."%byte n then n else f) = e.
Proof.
  intros (u & (Sm & _) & C) Sf S. assert (Hn : ~ In "#"%byte n).
  { apply ident_parts in Sm. destruct C as [-> | (p & Hp & [-> | ->])]; [tauto|..]; rewrite !in_app_iff; cbn;
      intuition discriminate. }
  unfold has. destruct S as [(I & ->)|(I & ->)].
  - replace (existsb _ n) with true; [apply remove_r, Hn|]. symmetry. apply existsb_exists.
    exists "."%byte. split; [exact I|reflexivity].
  - replace (existsb _ n) with false; [apply field_path, Sf|]. symmetry. apply not_true_iff_false.
    intros H. apply existsb_exists in H. destruct H as (c & J & E). apply eqb_iff in E. subst c. tauto.
Qed.
Lemma not_vector t : ~ vector_like t ->
  begins "Vec<u" t || begins "Vec<i" t = false /\ begins "Option<Vec<u" t || begins "Option<Vec<i" t = false.
Proof.
  intros H. assert (G : forall p, In p ["Vec<u"; "Vec<i"; "Option<Vec<u"; "Option<Vec<i"]%string -> begins p t = false).
  { intros p I. destruct (begins p t) eqn:E; [|reflexivity]. apply starts_iff in E. destruct E as (r & E).
    elim H. exists p, r. split; assumption. }
  rewrite !G by (cbn; tauto). split; reflexivity.
Qed.
Lemma wrapped_vector2 t c : c <> ">"%byte ->
  starts_with (txt "Option<Vec<" ++ [c]) (txt "Option<" ++ t ++ txt ">") = starts_with (txt "Vec<" ++ [c]) t.
Proof.
  intros H. transitivity (starts_with (txt "Vec<" ++ [c]) (t ++ ">"%byte :: [])); [reflexivity|].
  apply starts_before. cbn. intuition congruence.
Qed.

(** *** [get = "n: t"] and [get_option = "n: t"] on a field that is not an [Option]: the
    value of the field, or of the path, converted to [t]. *)
Theorem C60_convert_partial into attrs fs f o n t m e te v env : derives attrs fs -> In f fs ->
  asks (gf_attrs f) o n t -> called n m -> Forall ident_char (gf_name f) -> subject (gf_name f) n e ->
  Forall token (gf_type f) -> (forall u, spelled (gf_type f) <> txt "Option<" ++ u) ->
  (forall u, t <> txt "Option<" ++ u) -> (~ vector_like t \/ t = spelled (gf_type f)) ->
  env e = Some (te, v) ->
  struct_call into attrs (NamedFields fs) m env = Some (optional o (into te (spelled [t]) v)).
Proof.
  intros D I A C N S T HO HT HV E. destruct (asks_call into attrs fs f o n t m env D I A C) as (a & Ha & ->).
  unfold run_getter, named_getter, code. cbn [g_path g_some g_step g_ret fst snd].
  rewrite (subject_path _ _ _ _ C N S), E, no_spaces_type, Ha, spelled_one. cbn [orb].
  assert (B : forall s, (forall u, s <> txt "Option<" ++ u) -> begins "Option<" s = false).
  { intros s H. destruct (begins "Option<" s) eqn:F; [|reflexivity]. apply starts_iff in F. destruct F as (u & F). elim (H u F). }
  unfold get_return_type.
  assert (O : begins "Option<" (type_text (gf_type f)) = false).
  { unfold begins. apply (begins_type "Option" []); [exact T|reflexivity|discriminate]. }
  rewrite (B _ HO), (B _ HT), O, orb_false_r. cbn [negb andb].
  assert (ST : code_step (if o then txt "Option<" ++ t ++ txt ">" else t) (spelled (gf_type f)) = Into).
  { unfold code_step. rewrite (B _ HO). destruct o.
    - destruct (wrapped_vector t) as (-> & ->). cbn [orb andb].
      destruct HV as [HV|HV].
      + destruct (not_vector _ HV) as (V & _). apply orb_false_iff in V. destruct V as (V1 & V2).
        pose proof (wrapped_vector2 t "u"%byte ltac:(discriminate) : begins "Option<Vec<u" _ = begins "Vec<u" _) as ->.
        pose proof (wrapped_vector2 t "i"%byte ltac:(discriminate) : begins "Option<Vec<i" _ = begins "Vec<i" _) as ->.
        rewrite V1, V2. reflexivity.
      + rewrite <- HV, bytes_eqb_refl. cbn [negb]. rewrite andb_false_r. reflexivity.
    - destruct HV as [HV|HV].
      + destruct (not_vector _ HV) as (V & V'). rewrite V, V'. reflexivity.
      + rewrite <- HV, bytes_eqb_refl. cbn [negb]. rewrite andb_false_r.
        assert (Z : forall c, starts_with (txt "Option<" ++ txt "Vec<" ++ [c]) t = false).
        { intros c. destruct (starts_with _ t) eqn:F; [|reflexivity]. apply starts_iff in F. destruct F as (r & F).
          elim (HT (txt "Vec<" ++ [c] ++ r)). rewrite F, <- !app_assoc. reflexivity. }
        pose proof (Z "u"%byte : begins "Option<Vec<u" _ = _) as ->. pose proof (Z "i"%byte : begins "Option<Vec<i" _ = _) as ->.
        reflexivity. }
  rewrite ST. destruct o; cbn [optional option_map]; [|reflexivity].
  rewrite !no_spaces_app. change (no_spaces (txt "Option<")) with (txt "Option<"). change (no_spaces (txt ">")) with (txt ">").
  rewrite wrapped. reflexivity.
Qed.

(** *** [get_option = "n: t"] on an [Option]: the value inside is converted. *)
Theorem C60_convert_option_partial into attrs fs f n t m e te u o env : derives attrs fs -> In f fs ->
  asks (gf_attrs f) true n t -> called n m -> Forall ident_char (gf_name f) -> subject (gf_name f) n e ->
  spelled (gf_type f) = txt "Option<" ++ u ->
  (forall u, t <> txt "Option<" ++ u) -> (~ vector_like t \/ spelled (gf_type f) = txt "Option<" ++ t ++ txt ">") ->
  env e = Some (txt "Option<" ++ te ++ txt ">", VOpt o) ->
  struct_call into attrs (NamedFields fs) m env = Some (VOpt (option_map (into te (spelled [t])) o)).
Proof.
  intros D I A C N S HO HT HV E. destruct (asks_call into attrs fs f true n t m env D I A C) as (a & Ha & ->).
  unfold run_getter, named_getter, code. cbn [g_path g_some g_step g_ret fst snd].
  rewrite (subject_path _ _ _ _ C N S), E, no_spaces_type, spelled_one.
  assert (B : begins "Option<" t = false).
  { destruct (begins "Option<" t) eqn:F; [|reflexivity]. apply starts_iff in F. destruct F as (x & F). elim (HT x F). }
  unfold get_return_type. rewrite B. cbn [negb andb orb].
  assert (B' : begins "Option<" (spelled (gf_type f)) = true) by (rewrite HO; apply starts_app).
  assert (ST : code_step (txt "Option<" ++ t ++ txt ">") (spelled (gf_type f)) = IntoOption).
  { unfold code_step. rewrite B'. destruct (wrapped_vector t) as (-> & ->). cbn [orb andb]. destruct HV as [HV|HV].
    - destruct (not_vector _ HV) as (V & _). apply orb_false_iff in V. destruct V as (V1 & V2).
      pose proof (wrapped_vector2 t "u"%byte ltac:(discriminate) : begins "Option<Vec<u" _ = begins "Vec<u" _) as ->.
      pose proof (wrapped_vector2 t "i"%byte ltac:(discriminate) : begins "Option<Vec<i" _ = begins "Vec<i" _) as ->.
      rewrite V1, V2. reflexivity.
    - rewrite <- HV, bytes_eqb_refl. cbn [negb]. rewrite andb_false_r. reflexivity. }
  rewrite ST, B'. rewrite !no_spaces_app. change (no_spaces (txt "Option<")) with (txt "Option<").
  change (no_spaces (txt ">")) with (txt ">"). rewrite !wrapped. destruct o; reflexivity.
Qed.

(** ** Vectors of integers *)
Definition int_names : list string :=
  ["u8"; "u16"; "u32"; "u64"; "usize"; "u128"; "i8"; "i16"; "i32"; "i64"; "isize"; "i128"]%string.
Lemma int_cases T it : int_of_text T = Some it -> exists s, In s int_names /\ T = txt s.
Proof.
  assert (G : forall l, assoc T l = Some it -> exists s, In s (map fst l) /\ T = txt s).
  { induction l as [|(s, i) l IH]; cbn; [discriminate|]. destruct (bytes_eqb T (txt s)) eqn:E.
    - intros _. apply bytes_eqb_eq in E. exists s. split; [left; reflexivity|exact E].
    - intros H. destruct (IH H) as (s' & I & E'). exists s'. split; [right; exact I|exact E']. }
  intros H. apply G in H. exact H.
Qed.
Lemma vec_steps s : In s int_names ->
  let V := txt "Vec<" ++ txt s ++ txt ">" in
  begins "Vec<u" V || begins "Vec<i" V = true /\
  remove_all ">" (remove_all "Vec<" V) = txt s /\
  begins "Option<" V = false /\
  (let O := txt "Option<" ++ V ++ txt ">" in
   begins "Vec<u" O || begins "Vec<i" O = false /\
   begins "Option<Vec<u" O || begins "Option<Vec<i" O = true /\
   remove_all ">>" (remove_all "Option<Vec<" O) = txt s) /\
  no_spaces (txt s) = txt s.
Proof.
  intros I. unfold int_names in I. cbn in I.
  repeat (destruct I as [<-|I]; [vm_compute; intuition reflexivity|]). destruct I.
Qed.
Lemma elementwise_ints s it zs : In s int_names -> int_of_text (txt s) = Some it ->
  elementwise (txt s) (VList (map VInt zs)) = Some (VList (map (fun z => VInt (cast it z)) zs)).
Proof.
  intros I H. cbn [elementwise]. unfold as_int. destruct (vec_steps s I) as (_ & _ & _ & _ & ->). rewrite H.
  assert (G : forall zs, all_some (map (fun v => match v with VInt z => Some (VInt (cast it z)) | _ => None end) (map VInt zs))
              = Some (map (fun z => VInt (cast it z)) zs)).
  { clear. induction zs as [|z zs IH]; [reflexivity|]. cbn [map all_some]. rewrite IH. reflexivity. }
  rewrite G. reflexivity.
Qed.

(** *** A vector of integers asked for with other elements: each element is cast. *)
Theorem C60_vector_partial into attrs fs f o n T it s m e te zs env : derives attrs fs -> In f fs ->
  asks (gf_attrs f) o n (txt "Vec<" ++ T ++ txt ">") -> int_of_text T = Some it ->
  called n m -> Forall ident_char (gf_name f) -> subject (gf_name f) n e -> Forall token (gf_type f) ->
  spelled (gf_type f) = txt "Vec<" ++ s ++ txt ">" -> s <> T ->
  env e = Some (te, VList (map VInt zs)) ->
  struct_call into attrs (NamedFields fs) m env = Some (optional o (VList (map (fun z => VInt (cast it z)) zs))).
Proof.
  intros D I A HT C N S TK HS NE E. destruct (asks_call into attrs fs f o n _ m env D I A C) as (a & Ha & ->).
  destruct (int_cases T it HT) as (T' & IT & ->).
  unfold run_getter, named_getter, code. cbn [g_path g_some g_step g_ret fst snd].
  rewrite (subject_path _ _ _ _ C N S), E, no_spaces_type, HS, Ha. unfold get_return_type.
  destruct (vec_steps T' IT) as (V1 & V2 & V3 & (V4 & V5 & V6) & V7). rewrite V3.
  assert (O : begins "Option<" (type_text (gf_type f)) = false).
  { unfold begins. apply (begins_type "Option" []); [exact TK|reflexivity|discriminate]. }
  rewrite O, orb_false_r. cbn [negb andb orb].
  replace (begins "Option<" (txt "Vec<" ++ s ++ txt ">")) with false by reflexivity.
  assert (Q : bytes_eqb (txt "Vec<" ++ txt T' ++ txt ">") (txt "Vec<" ++ s ++ txt ">") = false).
  { apply not_true_iff_false. intros Q. apply bytes_eqb_eq in Q. apply app_inv_head, app_inv_tail in Q. congruence. }
  assert (Q' : bytes_eqb (txt "Option<" ++ (txt "Vec<" ++ txt T' ++ txt ">") ++ txt ">")
                 (txt "Option<" ++ (txt "Vec<" ++ s ++ txt ">") ++ txt ">") = false).
  { apply not_true_iff_false. intros X. apply bytes_eqb_eq in X. apply app_inv_head, app_inv_tail in X.
    rewrite X, bytes_eqb_refl in Q. discriminate. }
  destruct o; cbn [optional]; unfold code_step.
  - rewrite V4, V5. cbn [andb]. replace (begins "Option<" (txt "Vec<" ++ s ++ txt ">")) with false by reflexivity.
    rewrite Q'. cbn [negb]. replace (begins "Option<Vec<" (txt "Vec<" ++ s ++ txt ">")) with false by reflexivity.
    unfold begins at 1. rewrite starts_app. rewrite V6, (elementwise_ints T' it zs IT HT). reflexivity.
  - rewrite V1, Q. cbn [negb andb]. replace (begins "Option<Vec<" (txt "Vec<" ++ s ++ txt ">")) with false by reflexivity.
    unfold begins at 1. rewrite starts_app. rewrite V2, (elementwise_ints T' it zs IT HT). reflexivity.
Qed.
(** *** The same inside an [Option]. *)
Theorem C60_vector_option_partial into attrs fs f n T it s m e te zs env : derives attrs fs -> In f fs ->
  asks (gf_attrs f) true n (txt "Vec<" ++ T ++ txt ">") -> int_of_text T = Some it ->
  called n m -> Forall ident_char (gf_name f) -> subject (gf_name f) n e ->
  spelled (gf_type f) = txt "Option<" ++ (txt "Vec<" ++ s ++ txt ">") ++ txt ">" -> s <> T ->
  env e = Some (te, VOpt (option_map (fun l => VList (map VInt l)) zs)) ->
  struct_call into attrs (NamedFields fs) m env =
    Some (VOpt (option_map (fun l => VList (map (fun z => VInt (cast it z)) l)) zs)).
Proof.
  intros D I A HT C N S HS NE E. destruct (asks_call into attrs fs f true n _ m env D I A C) as (a & Ha & ->).
  destruct (int_cases T it HT) as (T' & IT & ->).
  unfold run_getter, named_getter, code. cbn [g_path g_some g_step g_ret fst snd].
  rewrite (subject_path _ _ _ _ C N S), E, no_spaces_type, HS. unfold get_return_type.
  destruct (vec_steps T' IT) as (V1 & V2 & V3 & (V4 & V5 & V6) & V7). rewrite V3. cbn [negb andb orb].
  unfold begins at 1. rewrite starts_app. unfold code_step.
  rewrite V4, V5. cbn [andb]. unfold begins at 1. rewrite starts_app.
  assert (Q' : bytes_eqb (txt "Option<" ++ (txt "Vec<" ++ txt T' ++ txt ">") ++ txt ">")
                 (txt "Option<" ++ (txt "Vec<" ++ s ++ txt ">") ++ txt ">") = false).
  { apply not_true_iff_false. intros X. apply bytes_eqb_eq in X.
    apply app_inv_head, app_inv_tail, app_inv_head, app_inv_tail in X. congruence. }
  rewrite Q'. cbn [negb].
  replace (begins "Option<Vec<" (txt "Option<" ++ (txt "Vec<" ++ s ++ txt ">") ++ txt ">")) with true by reflexivity.
  rewrite V6. destruct zs as [zs|]; cbn [option_map]; [|reflexivity].
  rewrite (elementwise_ints T' it zs IT HT). reflexivity.
Qed.
(** *** A single integer asked for as a vector: one element. *)
Theorem C60_single_partial into attrs fs f o n T it m e te z env : derives attrs fs -> In f fs ->
  asks (gf_attrs f) o n (txt "Vec<" ++ T ++ txt ">") -> int_of_text T = Some it ->
  called n m -> Forall ident_char (gf_name f) -> subject (gf_name f) n e -> Forall token (gf_type f) ->
  (forall u, spelled (gf_type f) <> txt "Vec<" ++ u) -> (forall u, spelled (gf_type f) <> txt "Option<" ++ u) ->
  env e = Some (te, VInt z) ->
  struct_call into attrs (NamedFields fs) m env = Some (optional o (VList [VInt (cast it z)])).
Proof.
  intros D I A HT C N S TK HS HS' E. destruct (asks_call into attrs fs f o n _ m env D I A C) as (a & Ha & ->).
  destruct (int_cases T it HT) as (T' & IT & ->).
  unfold run_getter, named_getter, code. cbn [g_path g_some g_step g_ret fst snd].
  rewrite (subject_path _ _ _ _ C N S), E, no_spaces_type, Ha. unfold get_return_type.
  destruct (vec_steps T' IT) as (V1 & V2 & V3 & (V4 & V5 & V6) & V7). rewrite V3.
  assert (O : begins "Option<" (type_text (gf_type f)) = false).
  { unfold begins. apply (begins_type "Option" []); [exact TK|reflexivity|discriminate]. }
  rewrite O, orb_false_r. cbn [negb andb orb].
  assert (B : forall p r, (forall u, spelled (gf_type f) <> txt p ++ u) -> starts_with (txt p ++ r) (spelled (gf_type f)) = false).
  { intros p r H. destruct (starts_with _ _) eqn:X; [|reflexivity]. apply starts_iff in X. destruct X as (y & X).
    elim (H (r ++ y)). rewrite X, <- app_assoc. reflexivity. }
  assert (B1 : begins "Option<" (spelled (gf_type f)) = false) by apply (B "Option<"%string [] HS').
  assert (B2 : begins "Option<Vec<" (spelled (gf_type f)) = false) by apply (B "Option<"%string (txt "Vec<") HS').
  assert (B3 : begins "Vec<" (spelled (gf_type f)) = false) by apply (B "Vec<"%string [] HS).
  assert (Q : forall s x, (forall u, x <> txt "Vec<" ++ u) -> bytes_eqb (txt "Vec<" ++ s) x = false).
  { intros s x H. apply not_true_iff_false. intros X. apply bytes_eqb_eq in X. symmetry in X. elim (H _ X). }
  assert (Q' : bytes_eqb (txt "Option<" ++ (txt "Vec<" ++ txt T' ++ txt ">") ++ txt ">")
                 (txt "Option<" ++ spelled (gf_type f) ++ txt ">") = false).
  { apply not_true_iff_false. intros X. apply bytes_eqb_eq in X. apply app_inv_head, app_inv_tail in X.
    symmetry in X. elim (HS _ X). }
  assert (AI : as_int (txt T') (VInt z) = Some (VInt (cast it z))) by (unfold as_int; rewrite V7, HT; reflexivity).
  rewrite B1. destruct o; cbn [optional]; unfold code_step.
  - rewrite V4, V5. cbn [andb]. rewrite B1, Q', B2, B3. cbn [negb]. rewrite V6, AI. reflexivity.
  - rewrite V1. rewrite Q by exact HS. cbn [negb andb]. rewrite B2, B3, V2, AI. reflexivity.
Qed.

(** ** Functions that always return [None] *)
Lemma container_jget al es : jget al es -> get_container_attributes al = get_default_entries [] es.
Proof.
  intros (pre & post & -> & H). unfold get_container_attributes. induction pre as [|a pre IH]; cbn [app get_attribute].
  - unfold parse_get_container at 1. cbn [t_name t_entries]. rewrite bytes_eqb_refl.
    destruct (get_default_entries [] es); reflexivity.
  - inversion_clear H as [|? ? Ha Hr]. unfold parse_get_container at 1.
    destruct (bytes_eqb (t_name a) (txt "jget")) eqn:E; [apply bytes_eqb_eq in E; congruence|]. apply IH, Hr.
Qed.
Lemma container_none al : no_jget al -> get_container_attributes al = Some [].
Proof.
  intros H. unfold get_container_attributes. induction al as [|a al IH]; [reflexivity|]. inversion_clear H as [|? ? Ha Hr].
  cbn [get_attribute]. unfold parse_get_container at 1.
  destruct (bytes_eqb (t_name a) (txt "jget")) eqn:E; [apply bytes_eqb_eq in E; congruence|]. apply IH, Hr.
Qed.
Lemma default_entries_in es : forall r d, get_default_entries r es = Some d ->
  forall x, In x d <-> In x r \/ exists lit, In (Property (txt "get_default") lit) es /\ In x (get_value_string_list lit).
Proof.
  induction es as [|e es IH]; intros r d E x; cbn [get_default_entries] in E.
  - injection E as <-. split; [tauto|]. intros [H|(lit & [] & _)]. exact H.
  - destruct e as [i|k lit]; [discriminate|]. destruct (bytes_eqb k (txt "get_default")) eqn:K; [|discriminate].
    apply bytes_eqb_eq in K. subst k. rewrite (IH _ _ E x), in_app_iff. cbn [In]. split.
    + intros [[H|H]|(l & H & H')]; [tauto| |]; right; [exists lit|exists l]; tauto.
    + intros [H|(l & [H|H] & H')]; [tauto| |]; [injection H as <-; tauto|]. right. exists l. tauto.
Qed.
(** *** [get_default = "n: t"] gives a function that returns [None]. *)
Theorem C60_default_partial into attrs fs n t env : derives attrs fs -> asks_default attrs n t -> Forall ident_char n ->
  struct_call into attrs (NamedFields fs) n env = Some (VOpt None).
Proof.
  intros (l & H & D) (es & ls & J & I & L & M) N. unfold struct_call. rewrite H.
  assert (X : In (n, None) l).
  { unfold struct_functions in H. destruct (get_container_attributes attrs) as [ds|] eqn:C; [|discriminate].
    destruct (body_getters (NamedFields fs)) as [gs|]; [|discriminate]. injection H as <-.
    apply in_app_iff. left. apply in_map_iff. exists n. split; [reflexivity|].
    unfold default_names. apply in_map_iff. exists (n, t). cbn [fst]. split; [apply field_path, N|].
    rewrite (container_jget _ _ J) in C. apply (default_entries_in _ _ _ C). right.
    exists (literal_of ls). split; [exact I|]. rewrite literal_list by exact L. exact M. }
  rewrite (the_one_filter l n None D X). reflexivity.
Qed.

(** *** No function is generated that was not asked for. *)
Theorem C60_only attrs fs l m g : struct_functions attrs (NamedFields fs) = Some l -> In (m, Some g) l ->
  exists f es, In f fs /\ jget (gf_attrs f) es /\
    ((m = get_function_name (gf_name f) /\ (In (Tag (txt "get")) es \/ In (Tag (txt "get_option")) es)) \/
     exists k lit n t, In (Property k lit) es /\ (k = txt "get" \/ k = txt "get_option") /\
       In (n, t) (get_value_string_list lit) /\ m = get_function_name n).
Proof.
  unfold struct_functions. destruct (get_container_attributes attrs) as [ds|]; [|discriminate]. cbn [body_getters].
  destruct (all_some _) as [gs|] eqn:E; [|discriminate]. cbn [option_map]. intros H I. injection H as <-.
  apply in_app_iff in I. destruct I as [I|I]; apply in_map_iff in I; destruct I as (x & X & I); [discriminate|].
  injection X as <- <-. apply in_concat in I. destruct I as (gl & G1 & G2).
  destruct (all_some_from _ _ _ _ E G1) as (f & F1 & F2). unfold field_getters in F2.
  destruct (get_attributes (gf_attrs f)) as [a|] eqn:A; [|discriminate]. cbn [option_map] in F2. injection F2 as <-.
  apply in_map_iff in G2. destruct G2 as (g & <- & G2). cbn [fst].
  assert (J : (exists es, jget (gf_attrs f) es) \/ no_jget (gf_attrs f)).
  { clear. induction (gf_attrs f) as [|b al IH]; [right; constructor|].
    destruct (bytes_eqb (t_name b) (txt "jget")) eqn:B.
    - apply bytes_eqb_eq in B. left. destruct b as [nm es]. cbn in B. subst nm. exists es, [], al. split; [reflexivity|constructor].
    - assert (t_name b <> txt "jget") by (intros X; apply bytes_eqb_eq in X; congruence).
      destruct IH as [(es & pre & post & -> & F)|F]; [|right; constructor; assumption].
      left. exists es, (b :: pre), post. split; [reflexivity|constructor; assumption]. }
  destruct J as [(es & J)|J].
  2:{ rewrite (attributes_none _ J) in A. injection A as <-. destruct G2. }
  exists f, es. split; [exact F1|]. split; [exact J|].
  rewrite (attributes_jget _ _ J) in A. apply entries_spec in A. cbn in A. destruct A as (A1 & A2 & _ & A4 & A5).
  rewrite !in_app_iff in G2. destruct G2 as [G|[G|[G|G]]].
  - destruct (a_get a); [|destruct G]. destruct G as [<-|[]]. left. split; [reflexivity|].
    left. destruct (proj1 A1 eq_refl) as [X|X]; [discriminate|exact X].
  - destruct (a_get_option a); [|destruct G]. destruct G as [<-|[]]. left. split; [reflexivity|].
    right. destruct (proj1 A2 eq_refl) as [X|X]; [discriminate|exact X].
  - apply in_map_iff in G. destruct G as ((n, t) & <- & G). apply A4 in G. destruct G as [[]|(lit & G1' & G2')].
    right. exists (txt "get"), lit, n, t. repeat split; auto.
  - apply in_map_iff in G. destruct G as ((n, t) & <- & G). apply A5 in G. destruct G as [[]|(lit & G1' & G2')].
    right. exists (txt "get_option"), lit, n, t. repeat split; auto.
Qed.
(** *** The literal is read as it is written. *)
Theorem C60_listing l : listing l -> get_value_string_list (literal_of l) = l.
Proof. exact (literal_list l). Qed.

(** ** C61: enums *)
Lemma arms_variant i v l : variant_arms i v = Some l -> Forall (fun a => arm_variant a = i) l.
Proof.
  unfold variant_arms. destruct (get_attributes (gv_attrs v)), (body_getters (gv_fields v)); try discriminate. intros H. injection H as <-.
  rewrite !Forall_app, !Forall_map. repeat split; apply Forall_forall; reflexivity.
Qed.
Lemma enum_arms_spec vs : forall k l, enum_arms k vs = Some l ->
  forall a, In a l <-> exists i v al, nth_error vs i = Some v /\ variant_arms (k + i) v = Some al /\ In a al.
Proof.
  induction vs as [|v vs IH]; intros k l H a; cbn in H.
  - injection H as <-. split; [intros []|]. intros (i & v & al & N & _). destruct i; discriminate.
  - destruct (variant_arms k v) as [al|] eqn:A; [|discriminate].
    destruct (enum_arms (S k) vs) as [r|] eqn:R; [|discriminate]. injection H as <-. rewrite in_app_iff, (IH _ _ R). split.
    + intros [I|(i & w & bl & N & B & I)].
      * exists 0%nat, v, al. rewrite Nat.add_0_r. repeat split; auto.
      * exists (S i), w, bl. rewrite Nat.add_succ_r. repeat split; auto.
    + intros (i & w & bl & N & B & I). destruct i as [|i].
      * injection N as <-. rewrite Nat.add_0_r, A in B. injection B as <-. left. exact I.
      * right. exists i, w, bl. rewrite <- Nat.add_succ_comm in B. repeat split; auto.
Qed.
Lemma enum_arms_one vs : forall k l i v, enum_arms k vs = Some l -> nth_error vs i = Some v ->
  exists al, variant_arms (k + i) v = Some al /\ filter (fun a => Nat.eqb (arm_variant a) (k + i)) l = al.
Proof.
  induction vs as [|v vs IH]; intros k l i w H N; [destruct i; discriminate|]. cbn in H.
  destruct (variant_arms k v) as [al|] eqn:A; [|discriminate].
  destruct (enum_arms (S k) vs) as [r|] eqn:R; [|discriminate]. injection H as <-. rewrite filter_app.
  assert (F0 : forall (m : nat) (x : list arm), Forall (fun a => arm_variant a <> m) x -> filter (fun a => Nat.eqb (arm_variant a) m) x = []).
  { clear. intros m x H. induction H as [|a x Ha _ IH]; [reflexivity|]. cbn. destruct (Nat.eqb_spec (arm_variant a) m); [congruence|exact IH]. }
  assert (F1 : forall (m : nat) (x : list arm), Forall (fun a => arm_variant a = m) x -> filter (fun a => Nat.eqb (arm_variant a) m) x = x).
  { clear. intros m x H. induction H as [|a x Ha _ IH]; [reflexivity|]. cbn. destruct (Nat.eqb_spec (arm_variant a) m); [rewrite IH; reflexivity|congruence]. }
  destruct i as [|i].
  - injection N as <-. rewrite Nat.add_0_r. exists al. split; [exact A|].
    rewrite F1 by exact (arms_variant _ _ _ A). rewrite F0; [apply app_nil_r|].
    apply Forall_forall. intros a I. apply (enum_arms_spec _ _ _ R) in I. destruct I as (j & u & bl & _ & B & I).
    apply arms_variant in B. rewrite Forall_forall in B. rewrite (B _ I). lia.
  - destruct (IH (S k) r i w R N) as (bl & B & <-). replace (S k + i)%nat with (k + S i)%nat in B by lia. eexists. split; [exact B|].
    replace (k + S i)%nat with (S k + i)%nat by lia. rewrite F0; [reflexivity|].
    eapply Forall_impl; [|exact (arms_variant _ _ _ A)]. intros a ->. lia.
Qed.
Lemma find_filter {A} (p : A -> bool) l : find p l = hd_error (filter p l).
Proof. induction l as [|a l IH]; [reflexivity|]. cbn. destruct (p a); [reflexivity|exact IH]. Qed.
Lemma filter_comm {A} (p q : A -> bool) l : filter p (filter q l) = filter q (filter p l).
Proof.
  induction l as [|a l IH]; [reflexivity|]. cbn. destruct (p a) eqn:P, (q a) eqn:Q; cbn; rewrite ?P, ?Q, IH; reflexivity.
Qed.
(** A call, from the arms of the variant at hand and one arm of the function. *)
Lemma enum_value into attrs vs m i v env l : no_jget attrs -> enum_arms 0 vs = Some l -> nth_error vs i = Some v ->
  (exists a, In a l /\ arm_name a = m) ->
  exists al z, variant_arms i v = Some al /\ In z l /\ arm_name z = m /\
    enum_call into attrs vs m i env =
      match hd_error (filter (fun a => bytes_eqb (arm_name a) m) al) with
      | Some a =>
          match arm_body_of a with
          | OfTuple p some => option_map (fun tv => if some then VOpt (Some (snd tv)) else snd tv) (env p)
          | OfNamed g => run_getter into (arm_ret z) env g
          end
      | None => if arm_else z then Some (VOpt None) else None
      end.
Proof.
  intros N E V (a & Ia & Na). destruct (enum_arms_one _ _ _ _ _ E V) as (al & A & F). cbn [Nat.add] in A, F.
  set (here := filter (fun a => bytes_eqb (arm_name a) m) l).
  assert (Ha : In a here) by (apply filter_In; rewrite Na, bytes_eqb_refl; split; [exact Ia|reflexivity]).
  destruct (rev here) as [|z zs] eqn:R.
  { apply (f_equal (@rev _)) in R. rewrite rev_involutive in R. rewrite R in Ha. destruct Ha. }
  assert (Hz : In z here) by (apply in_rev; rewrite R; left; reflexivity).
  apply filter_In in Hz. destruct Hz as (Hz & Hz'). apply bytes_eqb_eq in Hz'.
  exists al, z. split; [exact A|]. split; [exact Hz|]. split; [exact Hz'|].
  unfold enum_call. rewrite (container_none _ N), E. cbn [default_names map filter]. fold here.
  assert (X : run_arms into here i env = _) by (unfold run_arms; rewrite R, find_filter; unfold here; rewrite filter_comm, F; reflexivity).
  destruct here as [|h here']; [destruct Ha|]. exact X.
Qed.
