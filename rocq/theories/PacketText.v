(** Proofs about the text, socket and command messages of the examples. *)
From Coq Require Import Lia.
From Verif Require Import Base Ints Reader Writer Spec SpecOps RunSpec BaseLemmas WriterLemmas Schema Utf8 Utf8Spec Utf8Lemmas Decode Encode Sugar WireSpec CodecBase FieldLemmas RoundTrip EncLemmas DecWire Packets PacketSpec PacketLemmas.

(** ** Delimiters *)
Lemma ends_first_one a l : ~ contains [a] l -> ends_first [a] l = true.
Proof.
  intros H. unfold ends_first. apply forallb_forall. intros j Hj. apply in_seq in Hj as [_ Hj]. cbn [plus] in Hj.
  destruct (starts_with [a] (skipn j (l ++ [a]))) eqn:E; [|reflexivity]. exfalso. apply H.
  apply starts_with_iff in E as [r E]. rewrite skipn_app in E.
  destruct (skipn j l) as [|c l2] eqn:El.
  - apply (f_equal (@length _)) in El. rewrite skipn_length in El. cbn [length] in El. lia.
  - cbn [app] in E. injection E as -> _. exists (firstn j l), l2. rewrite <- (firstn_skipn j l) at 1. rewrite El. reflexivity.
Qed.
Lemma ends_first_two a b l : a <> b -> ~ contains [a; b] l -> ends_first [a; b] l = true.
Proof.
  intros Hab H. unfold ends_first. apply forallb_forall. intros j Hj. apply in_seq in Hj as [_ Hj]. cbn [plus] in Hj.
  destruct (starts_with [a; b] (skipn j (l ++ [a; b]))) eqn:E; [|reflexivity]. exfalso.
  apply starts_with_iff in E as [r E]. rewrite skipn_app in E.
  destruct (skipn j l) as [|c l2] eqn:El.
  - apply (f_equal (@length _)) in El. rewrite skipn_length in El. cbn [length] in El. lia.
  - replace (j - length l)%nat with 0%nat in E by lia. cbn [skipn app] in E. injection E as -> E.
    destruct l2 as [|d l2]; cbn [app] in E.
    + injection E as E _. congruence.
    + injection E as -> _. apply H. exists (firstn j l), l2. rewrite <- (firstn_skipn j l) at 1. rewrite El. reflexivity.
Qed.
Definition separator (s : bytes) : Prop := s = space \/ s = line_end \/ s = colon_space.
Lemma ends_first_token s l : separator s -> token s l -> ends_first s l = true.
Proof.
  intros Hs [_ H]. destruct Hs as [->|[->| ->]]; [apply ends_first_one|apply ends_first_two|apply ends_first_two]; try exact H; discriminate.
Qed.
Lemma carries_token ca s l fa rest : separator s -> token s l -> a_length fa = None -> a_byte_count fa = None -> a_linend fa = false ->
  a_linend_value fa = Some s -> a_key fa = None -> a_split fa = None ->
  carries TString ca fa (VBytes l) (l ++ s) rest.
Proof.
  intros Hs Ht H1 H2 H3 H4 H5 H6. split.
  - cbn [wire]. unfold WireSpec.frame. rewrite H1, H2, H3, H4, H5, H6. reflexivity.
  - cbn [fits]. rewrite (proj2 (utf8_ok_text l) (proj1 Ht)). unfold fits_frame. rewrite H1, H2, H3, H4. apply ends_first_token; assumption.
Qed.
Ltac sep := first [left; reflexivity | right; left; reflexivity | right; right; reflexivity].

Lemma carries_header ca fa k v rest : token colon_space k -> token line_end v ->
  carries Header ca fa (VList [VBytes k; VBytes v]) (header_layout (k, v)) rest.
Proof.
  intros Hk Hv. apply carries_struct. unfold header_layout. cbn [fst snd]. rewrite app_assoc.
  eapply seg_simple; [simple_now|reflexivity|eapply carries_token; try reflexivity; [sep|exact Hk]|].
  eapply seg_final; [simple_now|reflexivity|eapply carries_token; try reflexivity; [sep|exact Hv]].
Qed.
Lemma all_carry {A} (w : A -> option bytes) fit (g : A -> bytes) (l : list A) rest :
  (forall x r, In x l -> w x = Some (g x) /\ fit x r = true) ->
  all_of (map w l) = Some (concat (map g l)) /\ all_fit w fit l rest = true.
Proof.
  induction l as [|x l IH]; intros H; [split; reflexivity|]. destruct IH as [IH1 IH2]; [intros; apply H; right; assumption|].
  cbn [map all_of concat all_fit]. rewrite IH1, IH2. destruct (H x (concat (map g l) ++ rest) (or_introl eq_refl)) as [-> Hf].
  cbn [optional]. rewrite Hf. split; reflexivity.
Qed.
(** At most so many: a further element cannot be read at the end of the input. *)
Lemma tried n c (starved : bool) : n <= c -> starved = true -> (c =? n) || ((n <? c) && starved) = true.
Proof.
  intros H ->. destruct (N.eqb_spec c n); [reflexivity|]. rewrite (proj2 (N.ltb_lt n c)) by lia. reflexivity.
Qed.
Lemma carries_headers ca l fa : a_loop fa = None -> a_count fa = None -> a_try_count fa = Some 20 -> a_byte_count_outside fa = None ->
  Forall (fun h : bytes * bytes => token colon_space (fst h) /\ token line_end (snd h)) l -> (length l <= 20)%nat ->
  carries (TVec Header) ca fa (header_list l) (concat (map header_layout l)) [].
Proof.
  intros H1 H2 H3 H4 Hl Hn. unfold header_list.
  destruct (all_carry (fun h : bytes * bytes => wire Header ca fa (VList [VBytes (fst h); VBytes (snd h)]))
    (fun h r => fits Header ca fa (VList [VBytes (fst h); VBytes (snd h)]) r) header_layout l []) as [Hw Hf].
  { intros [k v] r Hin. destruct (proj1 (Forall_forall _ _) Hl _ Hin) as [Hk Hv]. exact (carries_header ca fa k v r Hk Hv). }
  assert (Hf' : all_fit (wire Header ca fa) (fits Header ca fa) (map (fun h : bytes * bytes => VList [VBytes (fst h); VBytes (snd h)]) l) [] = true).
  { clear -Hf. induction l as [|h l IH]; [reflexivity|]. cbn [map all_fit] in *. rewrite map_map. apply andb_true_iff in Hf as [A B].
    rewrite A. apply IH, B. }
  split.
  - cbn [wire]. rewrite H1. unfold count_prefix. rewrite H2, H3, H4. unfold and_then. cbn [all_of]. rewrite map_map, Hw, app_nil_r. reflexivity.
  - cbn [fits]. rewrite H1, Hf'. unfold fits_count. rewrite H2, H3, map_length, tried; [reflexivity|lia|reflexivity].
Qed.
Lemma carries_request_line ca fa hv r t f w fa' : token space (rq_method r) -> token space (rq_uri r) -> token line_end (rq_version r) ->
  simple f -> (forall done, modifiers f (mkenv done (k_vars ca)) = Some fa') -> carries t (inner no_cspec) fa' (hv (rq_headers r)) w [] ->
  carries (a_struct [(at_linend SP plain, TString); (at_linend SP plain, TString); (at_linend CRLF plain, TString); (f, t)]) ca fa
    (request_value hv r) (rq_method r ++ space ++ rq_uri r ++ space ++ rq_version r ++ line_end ++ w) [].
Proof.
  intros Hm Hu Hv Hs Hmod Hc. apply carries_struct. 
  replace (rq_method r ++ space ++ rq_uri r ++ space ++ rq_version r ++ line_end ++ w)
    with ((rq_method r ++ space) ++ (rq_uri r ++ space) ++ (rq_version r ++ line_end) ++ w) by (rewrite <- !app_assoc; reflexivity).
  eapply seg_simple; [simple_now|reflexivity|eapply carries_token; try reflexivity; [sep|exact Hm]|].
  eapply seg_simple; [simple_now|reflexivity|eapply carries_token; try reflexivity; [sep|exact Hu]|].
  eapply seg_simple; [simple_now|reflexivity|eapply carries_token; try reflexivity; [sep|exact Hv]|].
  eapply seg_final; [exact Hs|apply Hmod|exact Hc].
Qed.
Lemma carries_request ca fa r : request_ok r -> (length (rq_headers r) <= 20)%nat ->
  carries Request ca fa (request_value header_list r) (request_layout r) [].
Proof.
  intros (Hm & Hu & Hv & Hh) Hn. eapply carries_request_line; try assumption; [simple_now|intros done; cbv; reflexivity|].
  apply carries_headers; try reflexivity; assumption.
Qed.
Lemma method_carried i m : nth_error methods i = Some m ->
  method_to_string (VVariant i []) = m /\ method_from_str m = Some (VVariant i []) /\
  forall ca fa, a_branch fa = None -> a_byte_count fa = None -> k_byte_count ca = None -> wire HttpMethod ca fa (VVariant i []) = Some [].
Proof.
  intros H. do 9 (destruct i as [|i]; [injection H as <-; split; [reflexivity|split; [vm_compute; reflexivity|]];
    intros ca fa H1 H2 H3; cbn -[numbering]; unfold wire; rewrite ?H1, ?H2, ?H3; vm_compute; rewrite ?H1, ?H2, ?H3; reflexivity|]).
  destruct i; discriminate.
Qed.
Lemma carries_request_method ca fa i r : nth_error methods i = Some (rq_method r) -> request_ok r -> (length (rq_headers r) <= 20)%nat ->
  carries RequestMethod ca fa (method_value i r) (request_layout r) [].
Proof.
  intros Hi (Hm & Hu & Hv & Hh) Hn. destruct (method_carried i _ Hi) as (A & B & C). apply carries_struct.
  unfold request_layout.
  replace (rq_method r ++ space ++ rq_uri r ++ space ++ rq_version r ++ line_end ++ concat (map header_layout (rq_headers r)))
    with ((rq_method r ++ space) ++ (rq_uri r ++ space) ++ (rq_version r ++ line_end) ++ concat (map header_layout (rq_headers r)))
    by (rewrite <- !app_assoc; reflexivity).
  eapply seg_field; [reflexivity|reflexivity|reflexivity| | |].
  - unfold field_wire. cbn [at_linend at_from_str plain f_format f_skip_encode f_from_str fst snd]. rewrite C by reflexivity.
    rewrite A. unfold and_then, WireSpec.frame, padding.
    cbn [at_linend at_from_str plain f_offset f_length f_byte_count f_linend f_key f_split eval_opt a_length a_byte_count a_linend a_linend_value a_key a_split all_of app].
    unfold eval_opt. cbn [option_map optional all_of app]. rewrite !app_nil_r. reflexivity.
  - unfold field_fits. cbn [at_linend at_from_str plain f_format f_skip_encode f_skip_decode f_from_str negb andb]. rewrite A, B.
    rewrite (proj2 (val_eqb_eq _ _) eq_refl), (proj2 (utf8_ok_text _) (proj1 Hm)). cbn [andb].
    unfold fits_frame. cbn [a_length a_byte_count a_linend a_linend_value]. apply ends_first_token; [sep|exact Hm].
  - eapply seg_simple; [simple_now|reflexivity|eapply carries_token; try reflexivity; [sep|exact Hu]|].
    eapply seg_simple; [simple_now|reflexivity|eapply carries_token; try reflexivity; [sep|exact Hv]|].
    eapply seg_final; [simple_now|reflexivity|]. apply carries_headers; try reflexivity; assumption.
Qed.
(** What is not the name of a method is not read. *)
Lemma place_in i s l v : place_of i s l = Some v -> In s l.
Proof.
  revert i; induction l as [|x l IH]; intros i H; [discriminate|]. cbn [place_of] in H.
  destruct (bytes_eqb x s) eqn:E; [left; apply bytes_eqb_eq, E|right; eapply IH, H].
Qed.
Lemma distinct_keys l : NoDup (map fst l) -> distinct (map fst (map (fun h : bytes * bytes => (VBytes (fst h), VBytes (snd h))) l)) = true.
Proof.
  rewrite map_map. cbn [fst]. induction l as [|h l IH]; intros H; [reflexivity|]. cbn [map] in H |- *. apply NoDup_cons_iff in H as [Hn H].
  cbn [distinct]. rewrite (IH H), andb_true_r. apply forallb_forall. intros y Hy. apply in_map_iff in Hy as (g & <- & Hg).
  destruct (val_eqb (VBytes (fst h)) (VBytes (fst g))) eqn:E; [|reflexivity]. apply val_eqb_eq in E. injection E as E. exfalso. apply Hn.
  rewrite E. apply in_map, Hg.
Qed.
Lemma carries_request_map ca fa r : request_ok r -> (length (rq_headers r) <= 10)%nat -> NoDup (map fst (rq_headers r)) ->
  carries RequestMap ca fa (request_value header_map r) (request_layout r) [].
Proof.
  intros (Hm & Hu & Hv & Hh) Hn Hd. eapply carries_request_line; try assumption; [simple_now|intros done; cbv; reflexivity|].
  set (l := rq_headers r) in *. clearbody l. unfold header_map.
  match goal with |- carries _ ?ca0 ?fa0 _ _ _ => set (c0 := ca0); set (f0 := fa0) end.
  destruct (all_carry (fun kv : bytes * bytes => and_then (wire TString c0 (for_key f0) (VBytes (fst kv))) (wire TString c0 (for_value f0) (VBytes (snd kv))))
    (fun kv r => fits TString c0 (for_key f0) (VBytes (fst kv)) (optional (wire TString c0 (for_value f0) (VBytes (snd kv))) ++ r)
                 && fits TString c0 (for_value f0) (VBytes (snd kv)) r) header_layout l []) as [Hw Hf].
  { intros [k v] q Hin. destruct (proj1 (Forall_forall _ _) Hh _ Hin) as [Hk Hv']. cbn [fst snd] in *.
    assert (A : forall q, carries TString c0 (for_key f0) (VBytes k) (k ++ colon_space) q) by (intros; apply carries_token; try reflexivity; [sep|exact Hk]).
    assert (B : forall q, carries TString c0 (for_value f0) (VBytes v) (v ++ line_end) q) by (intros; apply carries_token; try reflexivity; [sep|exact Hv']).
    destruct (B q) as [B1 B2]. rewrite B1. destruct (A (optional (Some (v ++ line_end)) ++ q)) as [A1 A2]. rewrite A1.
    split; [|apply andb_true_intro; split; [exact A2|exact B2]].
    unfold and_then, header_layout. cbn [all_of fst snd]. rewrite app_nil_r, <- !app_assoc. reflexivity. }
  split.
  - match goal with |- wire _ _ _ (VMap ?L) = _ => transitivity (and_then (count_prefix c0 f0 (N.of_nat (length L)))
      (all_of (map (fun kv => and_then (wire TString c0 (for_key f0) (fst kv)) (wire TString c0 (for_value f0) (snd kv))) L))); [reflexivity|] end.
    unfold count_prefix. cbn [f0 a_count a_try_count a_byte_count_outside]. rewrite map_map. cbn [fst snd].
    rewrite Hw. unfold and_then. cbn [all_of app]. rewrite app_nil_r. reflexivity.
  - match goal with |- fits _ _ _ (VMap ?L) _ = _ => transitivity (fits_count f0 (N.of_nat (length L)) true && distinct (map fst L)
      && all_fit (fun kv => and_then (wire TString c0 (for_key f0) (fst kv)) (wire TString c0 (for_value f0) (snd kv)))
                 (fun kv r => fits TString c0 (for_key f0) (fst kv) (optional (wire TString c0 (for_value f0) (snd kv)) ++ r)
                              && fits TString c0 (for_value f0) (snd kv) r) L []); [reflexivity|] end.
    rewrite distinct_keys by exact Hd. unfold fits_count. cbn [f0 a_count a_try_count a_byte_count_outside].
    rewrite map_length, andb_true_r, tried; [|lia|reflexivity]. rewrite andb_true_l.
    clear -Hf. induction l as [|h l IH]; [reflexivity|]. cbn [map all_fit] in Hf |- *. rewrite map_map. cbn [fst snd]. apply andb_true_iff in Hf as [A B].
    rewrite (IH B), andb_true_r. exact A.
Qed.

(** ** Socket messages *)
Lemma tag_one it ca x rest : k_order ca = None -> is_signed it = false -> x < 256 ^ width_bytes it ->
  carries (TInt it) ca no_fattr (num x) (be (N.to_nat (width_bytes it)) x) rest.
Proof. apply carries_num. Qed.
Ltac socket_tag := eapply carries_tag; [reflexivity|reflexivity|reflexivity|reflexivity|reflexivity|reflexivity|reflexivity|reflexivity|reflexivity|reflexivity|].
Lemma field_number i en x : nth_error (ev_fields en) i = Some (num x) -> field_ref i en = Z.of_N x.
Proof. intros H. unfold field_ref. rewrite H. reflexivity. Qed.
Ltac seg_end_num := eapply seg_final; [simple_now|reflexivity|apply carries_num; [reflexivity|reflexivity|assumption]].
Ltac seg_data := apply seg_last; apply seg_bytes; [reflexivity| |apply seg_nil];
  erewrite field_number by reflexivity; apply as_usize_small; cbn in *; lia.
Lemma carries_socket ca fa v m rest : socket_ok v m -> carries SocketMessage ca fa (socket_value v m) (socket_layout v m) rest.
Proof.
  intros [Hv Hm]. apply carries_struct. unfold socket_layout. seg_num. cbn [app].
  eapply seg_final; [simple_now|reflexivity|].
  destruct m as [a l|a data|a data|a l|]; [destruct Hm as [H1 H2]..|].
  - socket_tag. seg_num. seg_end_num.
  - socket_tag. do 2 seg_num. seg_data.
  - socket_tag. do 2 seg_num. seg_data.
  - socket_tag. seg_num. seg_end_num.
  - rewrite <- (app_nil_r (be 1 5)). socket_tag. apply seg_nil.
Qed.

(** ** Commands *)
Lemma byte_wire ca fa x : k_order ca = None -> a_order fa = None -> a_bits fa = None -> a_length fa = None ->
  wire (TInt U8) ca fa (num (b2n x)) = Some [x] /\ forall rest, fits (TInt U8) ca fa (num (b2n x)) rest = true.
Proof.
  intros Hc Ho Hb Hl. pose proof (b2n_lt x) as L. split; [|intros; cbn [fits num]; unfold num, fits_int; rewrite Hl; reflexivity].
  cbn [wire num]. unfold num, wire_int. rewrite num_in by (reflexivity || exact L). cbn [negb]. rewrite Hb, Hl. unfold order_for. rewrite Hc, Ho.
  destruct x; reflexivity.
Qed.
Lemma carries_u8s ca fa data rest : k_order ca = None -> a_order fa = None -> a_bits fa = None -> a_length fa = None -> a_loop fa = None ->
  a_byte_count_outside fa = None -> a_count fa = Some (size data) ->
  carries (TVec a_u8) ca fa (VList (map (fun x => num (b2n x)) data)) data rest.
Proof.
  intros Hc Ho Hb Hl Hlo Hbo HC.
  assert (HL : forall x, wire a_u8 ca fa (num (b2n x)) = Some [x] /\ forall r, fits a_u8 ca fa (num (b2n x)) r = true)
    by (intros x; apply byte_wire; assumption).
  split.
  - cbn [wire]. rewrite Hlo. unfold count_prefix. rewrite HC, Hbo. unfold and_then. cbn [all_of]. rewrite map_map.
    replace (all_of (map (fun x => wire a_u8 ca fa (num (b2n x))) data)) with (Some data); [cbn [app]; rewrite app_nil_r; reflexivity|].
    clear -HL. induction data as [|x l IH]; [reflexivity|]. cbn [map all_of]. rewrite <- IH, (proj1 (HL x)). reflexivity.
  - cbn [fits]. rewrite Hlo. unfold fits_count. rewrite HC, map_length. change (N.of_nat (length data)) with (size data). rewrite N.eqb_refl.
    cbn [andb]. clear -HL. induction data as [|x l IH]; [reflexivity|]. cbn [map all_fit]. rewrite (proj2 (HL x)). apply IH.
Qed.
Lemma carries_command ca fa v c b rest : command_ok v c b -> carries Command ca fa (command_value v c b) (command_layout v c b) rest.
Proof.
  intros (Hv & Hc & Hb). apply carries_struct. unfold command_layout. do 2 seg_num. cbn [app].
  assert (HB : as_usize (field_ref 1 (mkenv [num v; num c] (k_vars ca))) = c).
  { erewrite field_number by reflexivity. apply as_usize_small. cbn in *. lia. }
  eapply seg_final; [simple_now|reflexivity|].
  destruct b as [| |a l|a data|a].
  - eapply carries_branch; [reflexivity|reflexivity|reflexivity|reflexivity| |apply seg_nil]. rewrite HB, Hb. reflexivity.
  - eapply carries_branch; [reflexivity|reflexivity|reflexivity|reflexivity| |apply seg_nil]. rewrite HB, Hb. reflexivity.
  - destruct Hb as (Hr & H1 & H2). eapply carries_branch; [reflexivity|reflexivity|reflexivity|reflexivity| |].
    + rewrite HB. cbn -[N.eqb N.leb]. change (1 + 1) with 2. change (7 + 1) with 8. rewrite (proj2 (N.eqb_neq c 1)), (proj2 (N.eqb_neq c 2)), (proj2 (N.leb_le 4 c)), (proj2 (N.leb_le c 7)) by lia. reflexivity.
    + seg_num. seg_end_num.
  - destruct Hb as (Hr & H1 & H2). eapply carries_branch; [reflexivity|reflexivity|reflexivity|reflexivity| |].
    + rewrite HB, Hr. reflexivity.
    + do 2 seg_num. cbn [app]. eapply seg_final; [simple_now|reflexivity|].
      apply carries_u8s; try reflexivity.
      match goal with |- a_count ?fa = _ => change (a_count fa) with (Some (as_usize (field_ref 1 (mkenv [num a; num (size data)] (k_vars ca))))) end.
      f_equal. erewrite field_number by reflexivity. apply as_usize_small. cbn in *. lia.
  - destruct Hb as (Hr & H1). eapply carries_branch; [reflexivity|reflexivity|reflexivity|reflexivity| |].
    + rewrite HB. cbn -[N.eqb N.leb]. change (1 + 1) with 2. change (7 + 1) with 8. rewrite (proj2 (N.eqb_neq c 1)), (proj2 (N.eqb_neq c 2)), (proj2 (N.eqb_neq c 8)) by lia.
      destruct ((4 <=? c) && (c <=? 7)) eqn:E; [|reflexivity]. apply andb_true_iff in E as [E1 E2]. apply N.leb_le in E1, E2. lia.
    + seg_end_num.
Qed.
