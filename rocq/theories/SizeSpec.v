(** The number of collection elements in a value, and the schemas for which the
    input bounds it. Nothing here mentions the decoder, except for hand-written
    ones, whose values are not looked into. *)
From Verif Require Import Base Ints Reader Writer Spec SpecOps RunSpec Schema Utf8 WireSpec SafetySpec.

Definition total (l : list N) : N := fold_right N.add 0 l.
Definition largest (l : list N) : N := fold_right N.max 0 l.
Fixpoint zip_total {A} (fs : list (A -> N)) (l : list A) : N :=
  match fs, l with f :: fs', x :: l' => f x + zip_total fs' l' | _, _ => 0 end.

(** The elements of all vectors, sets and maps inside a value of type [t], and the
    bytes of all its byte strings and texts. *)
Fixpoint elements (t : ty) (v : val) {struct t} : N :=
  match t, v with
  | (TBytes | TString), VBytes l => size l
  | TVec t1, VList l | TSet t1, VSet l => N.of_nat (length l) + total (map (elements t1) l)
  | TMap tk tv, VMap l => N.of_nat (length l) + total (map (fun kv => elements tk (fst kv) + elements tv (snd kv)) l)
  | TArray _ t1, VList l => total (map (elements t1) l)
  | TTuple ts, VList l => zip_total (map elements ts) l
  | TOption t1, VOpt (Some x) => elements t1 x
  | TStruct _ _ fs, VList l => zip_total (map (fun ft => elements (snd ft)) fs) l
  | TEnum _ vs, VVariant i xs =>
      match nth_error (map (fun vf => map (fun ft => elements (snd ft)) (snd vf)) vs) i with
      | Some es => zip_total es xs
      | None => 0
      end
  | _, _ => 0
  end.

(** How deeply collections are nested; a byte string is a collection of bytes. *)
Fixpoint depth (t : ty) : N :=
  match t with
  | TBytes | TString => 1
  | TVec t1 | TSet t1 => 1 + depth t1
  | TMap tk tv => 1 + N.max (depth tk) (depth tv)
  | TArray _ t1 | TOption t1 => depth t1
  | TTuple ts => largest (map depth ts)
  | TStruct _ _ fs => largest (map (fun ft => depth (snd ft)) fs)
  | TEnum _ vs => largest (map (fun vf => largest (map (fun ft => depth (snd ft)) (snd vf))) vs)
  | _ => 0
  end.

(** ** Types that take at least one byte *)
Definition positive (o : option N) : Prop := o <> Some 0.
Definition some_text (o : option bytes) : bool := match o with Some s => non_empty s | None => false end.
Definition takes_frame (fa : fattr) : Prop :=
  some_text (a_key fa) = true \/ some_text (a_split fa) = true \/
  match a_length fa, a_byte_count fa with
  | Some n, _ | None, Some n => n <> 0
  | None, None =>
      a_linend fa = true \/
      match a_linend_value fa with Some s => non_empty s = true | None => a_remaining fa = false end
  end.
Definition takes_count (fa : fattr) : Prop :=
  a_count fa = None /\ a_try_count fa = None /\ positive (a_byte_count_outside fa).
(** A field that is there, is not looked at twice and is not converted. *)
Definition plain_field (f : fspec) : Prop :=
  f_untake f = false /\ f_skip_decode f = None /\ f_from_str f = None /\ f_value_decode f = None
  /\ f_with_decode f = None.
Definition some_field (ok : ty -> fattr -> Prop) :=
  fix go (fs : list (fspec * ty)) : Prop :=
    match fs with
    | [] => False
    | (f, t) :: r =>
        (plain_field f /\ f_if f = None /\ forall en fa, modifiers f en = Some fa -> ok t fa) \/ go r
    end.
Definition some_variant_field (ok : ty -> fattr -> Prop) (vf : vspec * list (fspec * ty)) : Prop :=
  bare (v_attr (fst vf)) = true /\ nothing_left_over true (map fst (snd vf)) = true /\ some_field ok (snd vf).
Fixpoint takes_a_byte (t : ty) (fa : fattr) {struct t} : Prop :=
  match t with
  | TInt _ => positive (a_length fa)
  | TBool | TChar | TF32 | TF64 | TMac | TIpv4 | TIpv6 | TIpAddr | TNetAddr => True
  | TBytes | TString => takes_frame fa
  | TUnit | TOption _ => False
  | TUser x _ => forall ca fa, consumes_a_byte (x_decode x ca fa)
  | TArray n t1 => n <> O /\ takes_a_byte t1 fa
  | TTuple ts => fold_right or False (map (fun t1 => takes_a_byte t1 fa) ts)
  | TVec _ => a_loop fa = None /\ takes_count fa
  | TSet _ | TMap _ _ => takes_count fa
  | TStruct named _ fs =>
      (named = false -> nothing_left_over true (map fst fs) = true) /\ some_field takes_a_byte fs
  | TEnum e vs =>
      vs <> [] /\
      match e_branching e with
      | ByTag => (a_branch fa = None /\ positive (a_byte_count fa) /\ positive (c_byte_count (e_c e)))
                 \/ every (fun vf : vspec * list (fspec * ty) => some_variant_field takes_a_byte vf) vs
      | ByBytes n => n <> 0
      | ByPrefix =>
          every (fun vf : vspec * list (fspec * ty) =>
                   (v_default (fst vf) = false /\ literal (fst vf) <> []) \/ some_variant_field takes_a_byte vf) vs
      | ByPrefixUntake =>
          every (fun vf : vspec * list (fspec * ty) => some_variant_field takes_a_byte vf) vs
      end
  end.

(** ** Schemas whose elements all take a byte *)
Definition bounded_fields (ok : ty -> fattr -> Prop) (tuple : bool) (fs : list (fspec * ty)) : Prop :=
  (tuple = true -> nothing_left_over true (map fst fs) = true) /\
  every (fun ft : fspec * ty => let (f, t) := ft in
    depth t = 0 \/ (plain_field f /\ forall en fa, modifiers f en = Some fa -> ok t fa)) fs.
Fixpoint bounded (t : ty) (fa : fattr) {struct t} : Prop :=
  match t with
  | TArray _ t1 | TOption t1 => bounded t1 fa
  | TTuple ts => every (fun p : Prop => p) (map (fun t1 => bounded t1 fa) ts)
  | TVec t1 => bounded t1 fa /\ (some_text (a_loop fa) = true \/ takes_a_byte t1 fa)
  | TSet t1 => bounded t1 fa /\ takes_a_byte t1 fa
  | TMap tk tv => bounded tk (for_key fa) /\ bounded tv (for_value fa)
                  /\ (takes_a_byte tk (for_key fa) \/ takes_a_byte tv (for_value fa))
  | TStruct named _ fs => bounded_fields bounded (negb named) fs
  | TEnum _ vs =>
      every (fun vf : vspec * list (fspec * ty) =>
               bare (v_attr (fst vf)) = true /\ bounded_fields bounded true (snd vf)) vs
  | _ => True
  end.
