(** Canonical schemas: every value they decode has only one representation. A
    condition on the schema alone; nothing here mentions the decoder or encoder,
    except for hand-written ones. *)
From Verif Require Import Base Ints Reader Writer Spec SpecOps RunSpec Schema Utf8 WireSpec.

(** A byte string is found where it begins ([key] and [split] skip bytes) and its
    end is written in one way only ([linend] accepts three line ends). *)
Definition canonical_frame (fa : fattr) : Prop :=
  a_key fa = None /\ a_split fa = None /\
  match a_length fa, a_byte_count fa with
  | None, None => a_linend fa = false
  | _, _ => True
  end.
(** The number of elements is given, or written in front, but not both. *)
Definition canonical_count (fa : fattr) : Prop :=
  a_try_count fa = None /\ (a_count fa = None \/ a_byte_count_outside fa = None).

(** A hand-written decoder consumes the documented bytes of what it returns. *)
Definition reads_what_is_documented (doc : format) (d : cattr -> fattr -> rd val) : Prop :=
  forall ca fa pre w rest v q, allocatable (pre ++ w ++ rest) -> d ca fa (pre ++ w ++ rest) (size pre) = Ok v q ->
  q = size pre + size w -> d_wire doc ca fa v = Some w.
(** A field that is not a bit field: left out on both sides, or looked at without
    consuming it, or a canonical type whose value conversions undo each other. *)
Definition canonical_field (ok : fattr -> Prop) (f : fspec) : Prop :=
  f_offset f = None /\
  match f_format f, f_with_decode f with
  | Some doc, Some d =>
      forall en, reads_what_is_documented (doc en) (d en) /\ (forall ca fa, stays_inside (d en ca fa))
  | _, _ =>
  match f_skip_decode f with
  | Some _ => f_skip_encode f = true
  | None =>
      f_skip_encode f = false /\ f_from_str f = None /\
      (f_untake f = true \/
       (f_if f = None
        /\ (forall en v, stored f en (restored f en v) = v)
        /\ (forall en fa, modifiers f en = Some fa -> ok fa)))
  end
  end.
(** The bit fields of a word are unsigned, in one byte order, their masks
    cover every bit of the word and their value conversions undo each other. [group]: type, order and masks so far. *)
Definition canonical_fields (ok : ty -> fattr -> Prop) (ca : cattr) :=
  fix go (group : option (ity * byteorder * N)) (fs : list (fspec * ty)) : Prop :=
    match fs with
    | [] => group = None
    | (f, t) :: r =>
        match f_bits f with
        | None => group = None /\ canonical_field (ok t) f /\ go None r
        | Some _ =>
            exists it bo mask,
              t = TInt it /\ bits_only f = true /\ mask_ok it mask = true
              /\ (forall en fa, modifiers f en = Some fa -> a_bits fa = Some mask /\ order_for ca fa = bo)
              /\ (forall en word, let v := VInt (Z.of_N (under mask word)) in stored f en (restored f en v) = v)
              /\ let next masks := if f_untake f then go (Some (it, bo, masks)) r
                                   else masks = 256 ^ width_bytes it - 1 /\ go None r in
                 match group with
                 | None => f_bits_start f = true /\ next mask
                 | Some (it0, bo0, masks) =>
                     f_bits_start f = false /\ it0 = it /\ bo0 = bo /\ width_bytes it <= 8
                     /\ next (N.lor masks mask)
                 end
        end
    end.

(** How a variant is announced determines it, and conversely. *)
Definition canonical_tag (e : espec) (fa : fattr) (v : vspec) (n : N) : Prop :=
  match e_branching e with
  | ByTag =>
      match a_branch fa, a_byte_count fa, c_byte_count (e_c e) with
      | Some _, _, _ => True
      | None, Some _, Some _ => False
      | None, Some _, None | None, None, Some _ => forall tag, accepts v n tag = true -> tag = n
      | None, None, None => e_no_tag e = false /\ forall tag, accepts v n tag = true -> tag = n
      end
  | ByPrefix => v_default v = true -> literal v = []
  | ByPrefixUntake => True
  | ByBytes _ => v_default v = false
  end.

Fixpoint canonical (t : ty) (fa : fattr) {struct t} : Prop :=
  match t with
  | TInt _ | TNetAddr => a_bits fa = None
  | TBool => False  (* every non-zero byte is [true] *)
  | TChar | TF32 | TF64 | TMac | TIpv4 | TIpv6 | TIpAddr | TUnit => True
  | TUser x doc => reads_what_is_documented doc (x_decode x) /\ (forall ca fa, stays_inside (x_decode x ca fa))
  | TBytes | TString => canonical_frame fa
  | TArray _ t1 => canonical t1 fa
  | TTuple ts => every (fun p : Prop => p) (map (fun t1 => canonical t1 fa) ts)
  | TVec t1 => (a_loop fa = None -> canonical_count fa) /\ canonical t1 fa
  | TSet _ | TMap _ _ => False  (* the order of the elements is lost *)
  | TOption _ => False  (* [None] also stands for undecodable bytes *)
  | TStruct _ c fs => canonical_fields canonical (inner c) None fs
  | TEnum e vs =>
      vs <> [] /\
      (fix all (vs : list (vspec * list (fspec * ty))) (ns : list N) : Prop :=
         match vs, ns with
         | (v, fs) :: vs', n :: ns' =>
             canonical_tag e fa v n /\ f_offset (v_attr v) = None
             /\ canonical_fields canonical (inner (e_c e)) None fs /\ all vs' ns'
         | _, _ => True
         end) vs (numbering 0 (map fst vs))
  end.
