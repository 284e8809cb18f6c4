(** The Rust values of each type of the schema language. Nothing here mentions
    encoders or decoders, except to say that hand-written ones are typed. *)
From Verif Require Import Base Ints Reader Writer Spec SpecOps Schema Utf8Spec.

(** Each element satisfies its own condition. *)
Fixpoint each (ps : list (val -> Prop)) (l : list val) : Prop :=
  match ps, l with
  | [], [] => True
  | p :: ps', x :: l' => p x /\ each ps' l'
  | _, _ => False
  end.
Definition of_size (n : N) (v : val) : Prop := match v with VBytes l => size l = n | _ => False end.
Definition of_int (it : ity) (v : val) : Prop := match v with VInt z => value_in it z | _ => False end.
Fixpoint value_of (t : ty) (v : val) {struct t} : Prop :=
  match t, v with
  | TInt it, VInt z => value_in it z
  | TBool, VBool _ => True
  | TChar, VChar c => scalar c
  | TF32, VFloat x => x < 2 ^ 32
  | TF64, VFloat x => x < 2 ^ 64
  | TBytes, VBytes _ => True
  | TString, VBytes l => text l
  | TMac, VBytes l => size l = 6
  | TIpv4, VBytes l => size l = 4
  | TIpv6, VBytes l => size l = 16
  | TIpAddr, VVariant i xs =>
      match nth_error [of_size 4; of_size 16] i with Some p => each [p] xs | None => False end
  | TNetAddr, VVariant i xs =>
      match nth_error [of_size 4; of_size 16; of_size 6; of_int Usize] i with Some p => each [p] xs | None => False end
  | TUnit, VUnit => True
  | TUser _ doc, _ => d_value doc v = true
  | TArray n t1, VList l => length l = n /\ Forall (value_of t1) l
  | TTuple ts, VList l => each (map value_of ts) l
  | TVec t1, VList l => Forall (value_of t1) l
  | TSet t1, VSet l => NoDup l /\ Forall (value_of t1) l
  | TMap tk tv, VMap l =>
      NoDup (map fst l) /\ Forall (fun kv => value_of tk (fst kv) /\ value_of tv (snd kv)) l
  | TOption t1, VOpt o => match o with Some x => value_of t1 x | None => True end
  | TStruct _ _ fs, VList l => each (map (fun ft => value_of (snd ft)) fs) l
  | TEnum _ vs, VVariant i xs =>
      match nth_error (map (fun vf => map (fun ft => value_of (snd ft)) (snd vf)) vs) i with
      | Some ps => each ps xs
      | None => False
      end
  | _, _ => False
  end.

(** What the Rust compiler guarantees of the functions written in attributes: they
    produce values of the field's type; [if_expr] is on [Option] fields only. *)
Definition is_option (t : ty) : Prop := match t with TOption _ => True | _ => False end.
Definition returns {A} (d : rd A) (ok : A -> Prop) : Prop := forall dt p v q, d dt p = Ok v q -> ok v.
Definition typed_field (f : fspec) (t : ty) : Prop :=
  (forall d en ca fa, f_with_decode f = Some d -> returns (d en ca fa) (value_of t)) /\
  (forall v, f_skip_decode f = Some v -> value_of t v) /\
  (forall parse show s v, f_from_str f = Some (parse, show) -> parse s = Some v -> value_of t v) /\
  (f_if f <> None -> is_option t) /\
  (forall g en v, f_value_decode f = Some g -> value_of t v -> value_of t (g en v)) /\
  (forall g en v, f_value_encode f = Some g -> value_of t v -> value_of t (g en v)).
Definition all_of_them {A} (p : A -> Prop) :=
  fix go (l : list A) : Prop := match l with [] => True | x :: r => p x /\ go r end.
Fixpoint typed (t : ty) : Prop :=
  match t with
  | TUser x _ => forall ca fa, returns (x_decode x ca fa) (value_of t)
  | TArray _ t1 | TVec t1 | TSet t1 | TOption t1 => typed t1
  | TTuple ts => all_of_them typed ts
  | TMap tk tv => typed tk /\ typed tv
  | TStruct _ _ fs => all_of_them (fun ft : fspec * ty => let (f, t1) := ft in typed_field f t1 /\ typed t1) fs
  | TEnum _ vs => vs <> [] /\   (* the code derived for an empty enum does not compile *)
      all_of_them (fun vf : vspec * list (fspec * ty) => let (v, fs) := vf in
        all_of_them (fun ft : fspec * ty => let (f, t1) := ft in typed_field f t1 /\ typed t1) fs) vs
  | _ => True
  end.
