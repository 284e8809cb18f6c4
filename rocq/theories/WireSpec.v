(** The wire format of the schema language, as an independent specification.

    [wire t ca fa v] is the byte string that represents the value [v] of type [t]
    (with the field modifiers [fa], inside a container with attributes [ca]);
    [None] when the value does not have the type or the format is not defined
    (contradictory modifiers).  [fits t ca fa v rest] says that the
    representation of [v], when the bytes [rest] follow it, can be told apart: the
    value has the size the modifiers announce, counts fit their prefixes, no
    terminator occurs early, and so on.

    Nothing in the format mentions buffers, readers, positions or pushes, and it
    is described field by field: every field has exactly the modifiers written on
    it. The format of hand-written codecs is what their documentation says; that
    they keep to it is part of [well_formed]. From the model only the schema language
    (Schema.v) and the UTF-8 test (Utf8.v) are used. *)
From Verif Require Import Base Ints Reader Writer Spec SpecOps RunSpec Schema Utf8.

(** ** Byte order *)

(** The field's own, else the enclosing container's, else big-endian. *)
Definition order_for (ca : cattr) (fa : fattr) : byteorder :=
  match a_order fa, k_order ca with
  | Some bo, _ => bo
  | None, Some bo => bo
  | None, None => Be
  end.

(** Octets in network order, turned round for little-endian. *)
Definition octets (bo : byteorder) (l : bytes) : bytes :=
  match bo with Be => l | Le => rev l end.

(** ** Integers *)

Definition value_inb (t : ity) (z : Z) : bool :=
  if is_signed t
  then ((- 2 ^ (8 * Z.of_N (width_bytes t) - 1) <=? z) && (z <? 2 ^ (8 * Z.of_N (width_bytes t) - 1)))%Z
  else ((0 <=? z) && (z <? 2 ^ (8 * Z.of_N (width_bytes t))))%Z.

Definition same_ity (a b : ity) : bool :=
  match a, b with
  | U8, U8 | I8, I8 | U16, U16 | I16, I16 | U32, U32 | I32, I32 | U64, U64 | I64, I64
  | Usize, Usize | Isize, Isize | U128, U128 | I128, I128 => true
  | _, _ => false
  end.
Definition same_order (a b : byteorder) : bool :=
  match a, b with Be, Be | Le, Le => true | _, _ => false end.

(** All the bytes of the type, or the [length] low ones. *)
Definition wire_int (t : ity) (ca : cattr) (fa : fattr) (z : Z) : option bytes :=
  if negb (value_inb t z) then None
  else match a_bits fa, a_length fa with
       | Some _, _ => None  (* bit fields are described with the fields of a container *)
       | None, None => Some (digits (order_for ca fa) (N.to_nat (width_bytes t)) (unsigned t z))
       | None, Some l =>
           if (l <=? width_bytes t) && (l <=? 8)
           then Some (digits (order_for ca fa) (N.to_nat l) (unsigned U64 z))
           else None
       end.
(** With a [length] the number is stored unsigned. *)
Definition fits_int (fa : fattr) (z : Z) : bool :=
  match a_length fa with
  | None => true
  | Some l => (0 <=? z)%Z && (Z.to_N z <? 256 ^ l)
  end.

(** ** Bit fields *)

(** The number of zero bits below the lowest one. *)
Fixpoint low_zeros (p : positive) : N :=
  match p with xO q => 1 + low_zeros q | _ => 0 end.
Definition lowest (mask : N) : N := match mask with 0 => 0 | Npos p => low_zeros p end.
(** The word of type [t] that holds [z] under the mask. *)
Definition placed (t : ity) (mask : N) (z : Z) : N :=
  (Z.to_N z * 2 ^ lowest mask) mod 256 ^ width_bytes t.
(** What a word holds under the mask. *)
Definition under (mask word : N) : N := N.land word mask / 2 ^ lowest mask.
(** Masks are non-zero and inside the word; words are unsigned. *)
Definition mask_ok (t : ity) (mask : N) : bool :=
  negb (is_signed t) && (0 <? mask) && (mask <? 256 ^ width_bytes t).

(** ** Byte strings *)

Definition optional (l : option bytes) : bytes := match l with Some s => s | None => [] end.
Definition line_feed : byte := x0a.
Definition nul : byte := x00.

(** [key] and [split] come first, then the string in one of the six framings. *)
Definition frame (ca : cattr) (fa : fattr) (l : bytes) : option bytes :=
  option_map (fun framed => optional (a_key fa) ++ optional (a_split fa) ++ framed)
    (match a_length fa, a_byte_count fa with
     | Some _, _ => Some l
     | None, Some n =>
         if n <=? 8 then Some (digits (order_for ca fa) (N.to_nat n) (size l) ++ l) else None
     | None, None =>
         if a_linend fa then Some (l ++ [x0d; x0a])
         else match a_linend_value fa with
              | Some s => Some (l ++ s)
              | None => if a_remaining fa then Some l else Some (byte_of (size l) :: l)
              end
     end).

(** [s] does not begin inside [l] when [l ++ s] is searched. *)
Definition ends_first (s l : bytes) : bool :=
  forallb (fun j => negb (starts_with s (skipn j (l ++ s)))) (seq 0 (length l)).

Definition is_nil (l : bytes) : bool := match l with [] => true | _ => false end.

Definition fits_frame (fa : fattr) (l rest : bytes) : bool :=
  match a_length fa, a_byte_count fa with
  | Some n, _ => n =? size l
  | None, Some n => size l <? 256 ^ n
  | None, None =>
      if a_linend fa then forallb (fun b => negb (byte_eqb b line_feed) && negb (byte_eqb b nul)) l
      else match a_linend_value fa with
           | Some s => ends_first s l
           | None => if a_remaining fa then is_nil rest else size l <? 256
           end
  end.

(** ** Collections *)

(** The number of elements is written in front unless [count] or [try_count] says
    it is known. *)
Definition count_prefix (ca : cattr) (fa : fattr) (n : N) : option bytes :=
  match a_count fa, a_try_count fa, a_byte_count_outside fa with
  | None, None, None => Some [byte_of n]
  | None, None, Some k => if k <=? 8 then Some (digits (order_for ca fa) (N.to_nat k) n) else None
  | _, _, None => Some []
  | _, _, Some _ => None
  end.

(** [starved]: one more element certainly cannot be decoded after the last one. *)
Definition fits_count (fa : fattr) (n : N) (starved : bool) : bool :=
  match a_count fa, a_try_count fa, a_byte_count_outside fa with
  | Some c, _, _ => c =? n
  | None, Some c, _ => (c =? n) || ((n <? c) && starved)
  | None, None, None => n <? 256
  | None, None, Some k => n <? 256 ^ k
  end.

(** Concatenation of parts that are all defined. *)
Fixpoint all_of (l : list (option bytes)) : option bytes :=
  match l with
  | [] => Some []
  | x :: r =>
      match x, all_of r with Some a, Some b => Some (a ++ b) | _, _ => None end
  end.
Definition and_then (a b : option bytes) : option bytes := all_of [a; b].

(** Part by part, each followed by the ones after it and by [rest]. *)
Fixpoint all_fit {A} (w : A -> option bytes) (fit : A -> bytes -> bool) (l : list A) (rest : bytes) : bool :=
  match l with
  | [] => true
  | x :: r => fit x (optional (all_of (map w r)) ++ rest) && all_fit w fit r rest
  end.
(** The same for sequences whose parts have different types. *)
Fixpoint zip_wire {A B} (w : A -> B -> option bytes) (la : list A) (lb : list B) : option bytes :=
  match la, lb with
  | [], [] => Some []
  | a :: la', b :: lb' => and_then (w a b) (zip_wire w la' lb')
  | _, _ => None
  end.
Fixpoint zip_fit {A B} (w : A -> B -> option bytes) (fit : A -> B -> bytes -> bool)
                 (la : list A) (lb : list B) (rest : bytes) : bool :=
  match la, lb with
  | [], [] => true
  | a :: la', b :: lb' =>
      fit a b (optional (zip_wire w la' lb') ++ rest) && zip_fit w fit la' lb' rest
  | _, _ => false
  end.

Fixpoint distinct (l : list val) : bool :=
  match l with
  | [] => true
  | x :: r => forallb (fun y => negb (val_eqb x y)) r && distinct r
  end.

(** Keys and values of a map: [split] terminates a key, [linend] a value; other
    modifiers then do not apply to that side. *)
Definition terminated (s : bytes) : fattr :=
  mkfattr None None false (Some s) None false None false None None None None None None None.
Definition line_terminated : fattr :=
  mkfattr None None true None None false None false None None None None None None None.
Definition for_key (fa : fattr) : fattr :=
  match a_split fa with Some s => terminated s | None => fa end.
Definition for_value (fa : fattr) : fattr :=
  match a_linend_value fa, a_linend fa with
  | Some s, _ => terminated s
  | None, true => line_terminated
  | None, false => fa
  end.

(** ** Enums *)

(** The number of each variant: its discriminant, else the upper end of its
    range, else its numeric [branch_value], else one more than the one before. *)
Fixpoint numbering (next : N) (vs : list vspec) : list N :=
  match vs with
  | [] => []
  | v :: r =>
      let n := match v_disc v, v_range v, v_value v with
               | Some n, _, _ => n
               | None, Some (_, hi, _), _ => hi
               | None, None, Some n => n
               | None, None, None => next
               end in
      n :: numbering (n + 1) r
  end.
(** The tags a variant with number [n] accepts. *)
Definition accepts (v : vspec) (n tag : N) : bool :=
  match v_default v, v_bits v, v_value v, v_range v with
  | true, _, _, _ => true
  | false, Some (mask, want), _, _ => N.land tag mask =? want
  | false, None, Some x, _ => tag =? x
  | false, None, None, Some (lo, hi, true) => (lo <=? tag) && (tag <=? hi)
  | false, None, None, Some (lo, hi, false) => (lo <=? tag) && (tag <? hi)
  | false, None, None, None => tag =? n
  end.
(** The byte string of a variant: the [branch_value] literal, else its name. *)
Definition literal (v : vspec) : bytes := match v_bytes v with Some s => s | None => v_name v end.

Fixpoint first_such {A} (p : A -> bool) (l : list A) : option nat :=
  match l with
  | [] => None
  | x :: r => if p x then Some O else option_map S (first_such p r)
  end.
Definition is_index (o : option nat) (i : nat) : bool :=
  match o with Some j => Nat.eqb i j | None => false end.

(** The bytes announcing the [i]-th variant. The enum's own byte order is for its
    fields; the tag belongs to the place where the enum is used. *)
Definition tag_wire (e : espec) (ca : cattr) (fa : fattr) (v : vspec) (n : N) : option bytes :=
  match e_branching e with
  | ByPrefix | ByBytes _ => Some (literal v)
  | ByPrefixUntake => Some []
  | ByTag =>
      match a_branch fa, a_byte_count fa, c_byte_count (e_c e) with
      | Some _, _, _ => Some []
      | None, Some _, Some _ => None
      | None, Some k, None | None, None, Some k =>
          if k <=? 8 then Some (digits (order_for ca fa) (N.to_nat k) n) else None
      | None, None, None => if e_no_tag e then Some [] else Some [byte_of n]
      end
  end.
(** The tag number that is read back; [None] if there is none to read. *)
Definition tag_read (e : espec) (fa : fattr) (n : N) : option N :=
  match a_branch fa, a_byte_count fa, c_byte_count (e_c e) with
  | Some b, _, _ => Some b
  | None, Some k, _ | None, None, Some k => Some (n mod 256 ^ k)
  | None, None, None => if e_no_tag e then None else Some (n mod 256)
  end.
(** Reading tag and contents [whole] leads to variant [i], which is [v] with
    number [n]. *)
Definition tag_fits (e : espec) (fa : fattr) (vs : list vspec) (i : nat) (v : vspec) (n : N)
                    (whole : bytes) : bool :=
  match e_branching e with
  | ByTag =>
      match tag_read e fa n with
      | Some tag => is_index (first_such (fun vn => accepts (fst vn) (snd vn) tag)
                                         (combine vs (numbering 0 vs))) i
      | None => false
      end
  | ByPrefix =>
      (negb (v_default v) || is_nil (literal v))
      && is_index (first_such (fun v => v_default v || starts_with (literal v) whole) vs) i
  | ByPrefixUntake =>
      is_index (first_such (fun v => v_default v || starts_with (literal v) whole) vs) i
  | ByBytes n =>
      (size (literal v) =? n)
      && is_index (first_such (fun w => v_default w || bytes_eqb (literal v) (literal w)) vs) i
  end.

(** ** Fields *)

(** Variables published by a field, with what its expressions see afterwards. *)
Definition published (f : fspec) (en : env) (ca : cattr) : cattr :=
  mkcattr (k_order ca) (k_byte_count ca)
          (rev (map (fun nx => (fst nx, as_usize (snd nx en))) (f_vars f)) ++ k_vars ca).
(** The attributes a container gives to its fields. *)
Definition inner (c : cspec) : cattr := mkcattr (c_order c) (c_byte_count c) [].

Definition padding (f : fspec) (en : env) : bytes :=
  match f_offset f with
  | Some e => repeat (byte_of (f_full f)) (N.to_nat (as_usize (e en)))
  | None => []
  end.
Definition stored (f : fspec) (en : env) (v : val) : val :=
  match f_value_encode f with Some g => g en v | None => v end.
Definition restored (f : fspec) (en : env) (v : val) : val :=
  match f_value_decode f with Some g => g en v | None => v end.
Definition checked (f : fspec) (en : env) (v : val) : bool :=
  match f_check f with Some c => val_eqb v (c en) | None => true end.
Definition no_offset (f : fspec) : bool := match f_offset f with None => true | Some _ => false end.

(** A field that is not a bit field. [w]: the wire format of its type. *)
Definition field_wire (w : cattr -> fattr -> val -> option bytes) (f : fspec)
                      (ca : cattr) (fa : fattr) (en : env) (v : val) : option bytes :=
  match f_format f with
  | Some doc => d_wire (doc en) ca fa v
  | None =>
  if f_skip_encode f then Some []
  else match f_from_str f with
       | Some (_, show) =>
           match w ca fa v with  (* the value has the field's type *)
           | Some _ => and_then (Some (padding f en)) (frame ca fa (show v))
           | None => None
           end
       | None =>
           if f_untake f then Some []
           else and_then (Some (padding f en)) (w ca fa (stored f en v))
       end
  end.
Definition field_fits (w : cattr -> fattr -> val -> option bytes)
                      (fit : cattr -> fattr -> val -> bytes -> bool) (f : fspec)
                      (ca : cattr) (fa : fattr) (en : env) (v : val) (rest : bytes) : bool :=
  match f_format f with
  | Some doc => d_fits (doc en) ca fa v rest
  | None =>
  match f_skip_decode f with
  | Some d => f_skip_encode f && no_offset f && val_eqb v d
  | None =>
      negb (f_skip_encode f) &&
      match f_from_str f with
      | Some (parse, show) =>
          (match parse (show v) with Some v' => val_eqb v' v | None => false end)
          && utf8_ok (show v) && fits_frame fa (show v) rest
      | None =>
          val_eqb (restored f en (stored f en v)) v && checked f en v &&
          (if match f_if f with Some c => c en | None => true end
           then
             if f_untake f then
               (* the bytes that follow begin with the representation of the value *)
               no_offset f &&
               match w ca fa (stored f en v) with
               | Some l => starts_with l rest && fit ca fa (stored f en v) (skipn (length l) rest)
               | None => false
               end
             else fit ca fa (stored f en v) rest
           else negb (f_untake f && negb (no_offset f)) && val_eqb (stored f en v) (VOpt None)
                && is_nil (optional (w ca fa (VOpt None))))
      end
  end
  end.

(** No function of the user's replaces the codec of the field's type. *)
Definition no_with (f : fspec) : bool :=
  match f_with_decode f, f_with_encode f, f_format f with None, None, None => true | _, _, _ => false end.

(** A bit field has no other modifiers than its mask, [untake], a byte order,
    value conversions and [check_value]. *)
Definition bits_only (f : fspec) : bool :=
  match f_offset f, f_skip_decode f, f_from_str f, f_if f, f_length f with
  | None, None, None, None, None => negb (f_skip_encode f) && no_with f
  | _, _, _, _, _ => false
  end.

(** The fields of a container, one after the other. [group]: the word of the bit
    group that is being collected. A group begins with a [bits_start] field; all
    but its last field carry [untake]; its word is written once. *)
Definition fields_wire (w : ty -> cattr -> fattr -> val -> option bytes) (vars : list (nat * N)) :=
  fix go (group : option (ity * byteorder * N)) (fs : list (fspec * ty)) (ca : cattr)
         (done vs : list val) : option bytes :=
    match fs, vs with
    | [], [] => match group with None => Some [] | Some _ => None end
    | (f, t) :: r, v :: vs' =>
        let en := mkenv done vars in
        let next g := go g r (published f (mkenv (done ++ [v]) vars) ca) (done ++ [v]) vs' in
        match modifiers f en with
        | None => None
        | Some fa =>
            match f_bits f with
            | None =>
                match group with
                | None => and_then (field_wire (w t) f ca fa en v) (next None)
                | Some _ => None
                end
            | Some _ =>
                match t, stored f en v, a_bits fa with
                | TInt it, VInt z, Some mask =>
                    let bo := order_for ca fa in
                    let emit word :=
                      if f_untake f then next (Some (it, bo, word))
                      else and_then (Some (digits bo (N.to_nat (width_bytes it)) word)) (next None) in
                    if bits_only f && mask_ok it mask && value_inb it z then
                      match group, f_bits_start f with
                      | None, true => emit (placed it mask z)
                      | Some (it0, bo0, word), false =>
                          if same_ity it0 it && same_order bo0 bo && (width_bytes it <=? 8)
                          then emit (N.lor word (placed it mask z))
                          else None
                      | _, _ => None
                      end
                    else None
                | _, _, _ => None
                end
            end
        end
    | _, _ => None
    end.

(** [word]: the finished word of the bit group we are in. *)
Definition fields_fit (w : ty -> cattr -> fattr -> val -> option bytes)
                      (fit : ty -> cattr -> fattr -> val -> bytes -> bool) (vars : list (nat * N)) :=
  fix go (word : option N) (fs : list (fspec * ty)) (ca : cattr)
         (done vs : list val) (rest : bytes) : bool :=
    match fs, vs with
    | [], [] => true
    | (f, t) :: r, v :: vs' =>
        let en := mkenv done vars in
        let ca' := published f (mkenv (done ++ [v]) vars) ca in
        match modifiers f en with
        | None => false
        | Some fa =>
            match f_bits f with
            | None =>
                let later := optional (fields_wire w vars None r ca' (done ++ [v]) vs') in
                field_fits (w t) (fit t) f ca fa en v (later ++ rest)
                && go None r ca' (done ++ [v]) vs' rest
            | Some _ =>
                match t, stored f en v, a_bits fa with
                | TInt it, VInt z, Some mask =>
                    let whole := optional (fields_wire w vars None fs ca done vs) in
                    let word' :=
                      match word with
                      | Some x => x
                      | None => number (order_for ca fa) (firstn (N.to_nat (width_bytes it)) whole)
                      end in
                    (under mask word' =? Z.to_N z) && val_eqb (restored f en (VInt z)) v && checked f en v
                    && go (if f_untake f then Some word' else None) r ca' (done ++ [v]) vs' rest
                | _, _, _ => false
                end
            end
        end
    | _, _ => false
    end.

(** ** All types *)
Fixpoint wire (t : ty) (ca : cattr) (fa : fattr) (v : val) {struct t} : option bytes :=
  let bo := order_for ca fa in
  match t, v with
  | TInt it, VInt z => wire_int it ca fa z
  | TBool, VBool b => Some [if b then x01 else x00]
  | TChar, VChar c => Some [byte_of c]
  | TF32, VFloat x => Some (digits bo 4 x)
  | TF64, VFloat x => Some (digits bo 8 x)
  | TBytes, VBytes l | TString, VBytes l => frame ca fa l
  | TMac, VBytes l | TNetAddr, VVariant 2 [VBytes l] =>
      if size l =? 6 then Some (octets bo l) else None
  | TIpv4, VBytes l | TIpAddr, VVariant 0 [VBytes l] | TNetAddr, VVariant 0 [VBytes l] =>
      if size l =? 4 then Some (octets bo l) else None
  | TIpv6, VBytes l | TIpAddr, VVariant 1 [VBytes l] | TNetAddr, VVariant 1 [VBytes l] =>
      if size l =? 16 then Some (octets bo l) else None
  | TNetAddr, VVariant 3 [VInt z] => wire_int Usize ca fa z
  | TUnit, VUnit => Some []
  | TUser _ doc, _ => d_wire doc ca fa v
  | TArray n t1, VList l =>
      if Nat.eqb (length l) n then all_of (map (wire t1 ca fa) l) else None
  | TTuple ts, VList l => zip_wire (fun w x => w x) (map (fun t1 => wire t1 ca fa) ts) l
  | TVec t1, VList l =>
      match a_loop fa with
      | Some m => all_of (map (fun x => and_then (Some m) (wire t1 ca fa x)) l)
      | None => and_then (count_prefix ca fa (N.of_nat (length l))) (all_of (map (wire t1 ca fa) l))
      end
  | TMap tk tv, VMap l =>
      and_then (count_prefix ca fa (N.of_nat (length l)))
               (all_of (map (fun kv => and_then (wire tk ca (for_key fa) (fst kv))
                                                (wire tv ca (for_value fa) (snd kv))) l))
  | TOption t1, VOpt None => Some []
  | TOption t1, VOpt (Some x) => wire t1 ca fa x
  | TStruct _ c fs, VList l => fields_wire wire (k_vars ca) None fs (inner c) [] l
  | TEnum e vs, VVariant i xs =>
      (fix pick (vs : list (vspec * list (fspec * ty))) (ns : list N) (i : nat) : option bytes :=
         match vs, ns, i with
         | (v, fs) :: _, n :: _, O =>
             and_then (tag_wire e ca fa v n)
               (and_then (Some (padding (v_attr v) (mkenv [] (k_vars ca))))
                         (fields_wire wire (k_vars ca) None fs (inner (e_c e)) [] xs))
         | _ :: vs', _ :: ns', S i' => pick vs' ns' i'
         | _, _, _ => None
         end) vs (numbering 0 (map fst vs)) i
  | _, _ => None
  end.

(** Decoding a value of this type needs at least one byte. *)
Definition positive_length (l : option N) : bool :=
  match l with None => true | Some n => (1 <=? n) && (n <=? 8) end.
Definition non_empty (l : bytes) : bool := negb (is_nil l).
Definition hungry_frame (fa : fattr) : bool :=
  match a_key fa, a_split fa with
  | Some s, _ | None, Some s => non_empty s
  | None, None =>
      match a_length fa, a_byte_count fa with
      | Some n, _ => 1 <=? n
      | None, Some n => positive_length (Some n)
      | None, None =>
          if a_linend fa then true
          else match a_linend_value fa with
               | Some s => non_empty s
               | None => negb (a_remaining fa)
               end
      end
  end.
Definition hungry_count (fa : fattr) (element : bool) : bool :=
  match a_count fa, a_try_count fa with
  | Some c, _ => (1 <=? c) && element
  | None, Some _ => false
  | None, None => positive_length (a_byte_count_outside fa)
  end.
Fixpoint hungry (t : ty) (ca : cattr) (fa : fattr) {struct t} : bool :=
  match t with
  | TInt _ => positive_length (a_length fa)
  | TBool | TChar | TF32 | TF64 | TMac | TIpv4 | TIpv6 | TIpAddr | TNetAddr => true
  | TBytes | TString => hungry_frame fa
  | TUnit => false
  | TUser _ doc => d_hungry doc ca fa
  | TArray n t1 => match n with O => false | S _ => hungry t1 ca fa end
  | TTuple ts => match map (fun t1 => hungry t1 ca fa) ts with h :: _ => h | [] => false end
  | TVec t1 => match a_loop fa with Some _ => false | None => hungry_count fa (hungry t1 ca fa) end
  | TSet t1 => hungry_count fa (hungry t1 ca fa)
  | TMap tk tv => hungry_count fa (hungry tk ca (for_key fa))
  | TOption _ => false
  | TStruct _ c fs =>
      match fs with
      | (f, t1) :: _ =>
          match modifiers f (mkenv [] (k_vars ca)), f_format f with
          | Some fa', Some doc => d_hungry (doc (mkenv [] (k_vars ca))) (inner c) fa'
          | Some fa', None =>
              match f_skip_decode f, f_if f with
              | None, None =>
                  no_offset f &&
                  match f_from_str f with
                  | Some _ => hungry_frame fa'
                  | None => hungry t1 (inner c) fa'
                  end
              | _, _ => false
              end
          | None, _ => false
          end
      | [] => false
      end
  | TEnum e vs =>
      match vs, e_branching e with
      | _ :: _, ByTag =>
          match a_branch fa, a_byte_count fa, c_byte_count (e_c e) with
          | Some _, _, _ => false
          | None, Some k, _ | None, None, Some k => positive_length (Some k)
          | None, None, None => true
          end
      | _ :: _, ByBytes n => 1 <=? n
      | _, _ => false
      end
  end.

Fixpoint fits (t : ty) (ca : cattr) (fa : fattr) (v : val) (rest : bytes) {struct t} : bool :=
  match t, v with
  | TInt _, VInt z => fits_int fa z
  | TBool, VBool _ => true
  | TChar, VChar c => c <? 256
  | TF32, VFloat x => x <? 2 ^ 32
  | TF64, VFloat x => x <? 2 ^ 64
  | TBytes, VBytes l => fits_frame fa l rest
  | TString, VBytes l => utf8_ok l && fits_frame fa l rest
  | TMac, VBytes _ | TIpv4, VBytes _ | TIpv6, VBytes _ => true
  | TIpAddr, VVariant i _ | TNetAddr, VVariant i _ =>
      match a_length fa, i with
      | Some l, O => l =? 4
      | Some l, 1%nat => l =? 16
      | Some l, 2%nat => l =? 6
      | Some l, _ => negb ((l =? 0) || (l =? 4) || (l =? 6) || (l =? 16))
                     && match v with VVariant _ [VInt z] => fits_int fa z | _ => false end
      | None, _ => false
      end
  | TUnit, VUnit => true
  | TUser _ doc, _ => d_fits doc ca fa v rest
  | TArray _ t1, VList l => all_fit (wire t1 ca fa) (fits t1 ca fa) l rest
  | TTuple ts, VList l =>
      zip_fit (fun wf x => fst wf x) (fun wf x => snd wf x)
              (map (fun t1 => (wire t1 ca fa, fits t1 ca fa)) ts) l rest
  | TVec t1, VList l =>
      match a_loop fa with
      | Some m =>
          non_empty m && negb (starts_with m rest)
          && all_fit (fun x => and_then (Some m) (wire t1 ca fa x)) (fits t1 ca fa) l rest
      | None => fits_count fa (N.of_nat (length l)) (is_nil rest && hungry t1 ca fa)
                && all_fit (wire t1 ca fa) (fits t1 ca fa) l rest
      end
  | TMap tk tv, VMap l =>
      fits_count fa (N.of_nat (length l)) (is_nil rest && hungry tk ca (for_key fa))
      && distinct (map fst l)
      && all_fit (fun kv => and_then (wire tk ca (for_key fa) (fst kv)) (wire tv ca (for_value fa) (snd kv)))
                 (fun kv r => fits tk ca (for_key fa) (fst kv)
                                   (optional (wire tv ca (for_value fa) (snd kv)) ++ r)
                              && fits tv ca (for_value fa) (snd kv) r) l rest
  | TOption t1, VOpt o =>
      match o, a_length fa with
      | None, Some 0 => true
      | None, _ => is_nil rest && hungry t1 ca fa
      | Some _, Some 0 => false
      | Some x, _ => fits t1 ca fa x rest
      end
  | TStruct _ c fs, VList l => fields_fit wire fits (k_vars ca) None fs (inner c) [] l rest
  | TEnum e vs, VVariant i xs =>
      (fix pick (later : list (vspec * list (fspec * ty))) (ns : list N) (j : nat) : bool :=
         match later, ns, j with
         | (v, fs) :: _, n :: _, O =>
             let body := optional (wire t ca fa (VVariant i xs)) in
             tag_fits e fa (map fst vs) i v n (body ++ rest)
             && fields_fit wire fits (k_vars ca) None fs (inner (e_c e)) [] xs rest
         | _ :: later', _ :: ns', S j' => pick later' ns' j'
         | _, _, _ => false
         end) vs (numbering 0 (map fst vs)) i
  | _, _ => false
  end.

(** ** Well-formed schemas

    Conditions on a schema alone, none of them on values. The first excludes that
    modifiers are seen by a field they are not written on; the second that the
    encoder would need a variable, which it is not given; the third that a
    [from_str] field is written a second time in its binary form; the fourth that
    hand-written functions do not do what is said of them. *)

(** The attributes leave no modifier for other fields. *)
Definition bare (f : fspec) : bool :=
  match f_order f, f_length f, f_count f, f_try_count f, f_branch f, f_bits f, f_byte_count f,
        f_byte_count_outside f, f_key f, f_split f, f_linend f, f_loop f with
  | None, None, None, None, None, None, None, None, None, None, None, None =>
      negb (f_bits_start f) && negb (f_remaining f)
  | _, _, _, _, _, _, _, _, _, _, _, _ => false
  end.
(** A field without attributes comes after fields that left nothing behind. *)
Fixpoint nothing_left_over (clear : bool) (fs : list fspec) : bool :=
  match fs with
  | [] => true
  | f :: r => if f_use f then nothing_left_over (bare f) r else clear && nothing_left_over clear r
  end.

(** Types for whose encoding the value of [length] does not matter, only that one
    is given. *)
Fixpoint ignores_length (t : ty) : bool :=
  match t with
  | TInt _ | TNetAddr | TUser _ _ => false
  | TArray _ t1 | TVec t1 | TSet t1 | TOption t1 => ignores_length t1
  | TTuple ts => forallb (fun b => b) (map ignores_length ts)
  | TMap tk tv => ignores_length tk && ignores_length tv
  | _ => true
  end.
Definition given (o : option N) : option N := option_map (fun _ => 0) o.
(** What the encoding of a field depends on: counts and branches only have to be
    given. *)
Definition encoding_part_of (ignore : bool) (fa : fattr) : fattr :=
  mkfattr (if ignore then given (a_length fa) else a_length fa)
          (a_order fa) (a_linend fa) (a_linend_value fa) (a_bits fa) (a_bits_start fa)
          (a_byte_count fa) (a_remaining fa) (given (a_count fa)) (given (a_try_count fa))
          (a_byte_count_outside fa) (a_key fa) (a_split fa) (given (a_branch fa)) (a_loop fa).
Definition encoding_part (t : ty) (fa : fattr) : fattr := encoding_part_of (ignores_length t) fa.
Definition encodes_without_variables (f : fspec) (t : ty) : Prop :=
  forall done vars vars',
    option_map (encoding_part t) (modifiers f (mkenv done vars))
    = option_map (encoding_part t) (modifiers f (mkenv done vars'))
    /\ padding f (mkenv done vars) = padding f (mkenv done vars')
    /\ (forall v, stored f (mkenv done vars) v = stored f (mkenv done vars') v).

(** Types whose values are written as nothing. *)
Definition writes_nothing (f : fspec) (t : ty) : bool :=
  match t with
  | TUnit => true
  | TEnum e vs =>
      match e_branching e, c_byte_count (e_c e), f_byte_count f with
      | ByTag, None, None =>
          e_no_tag e && forallb (fun vf => match snd vf with [] => no_offset (v_attr (fst vf)) | _ => false end) vs
      | _, _, _ => false
      end
  | _ => false
  end.
Definition from_str_ok (f : fspec) (t : ty) : Prop :=
  f_from_str f = None \/
  (f_offset f = None /\ f_bits f = None /\ f_value_encode f = None /\ writes_nothing f t = true).

(** The contract of hand-written functions: they keep to what is documented. The
    encoder is not given the variables, and of the modifiers only their
    [encoding_part] is certain to be what the decoder sees. *)
Record keeps_format (doc : format) (d : cattr -> fattr -> rd val) (e : cattr -> fattr -> val -> wr N) : Prop := {
  kf_write : forall ca cb fa fb v w, k_order ca = k_order cb -> encoding_part_of false fa = encoding_part_of false fb ->
    d_wire doc ca fa v = Some w -> writes_as (e cb fb v) w;
  kf_read : forall ca fa v w rest, d_wire doc ca fa v = Some w -> d_fits doc ca fa v rest = true ->
    reads_as (d ca fa) w rest v;
  kf_hungry : forall ca fa, d_hungry doc ca fa = true -> fails_at_end (d ca fa)
}.
(** A field with [with]: functions for both directions, which keep to one format and
    do not need variables to encode; and no offset, which only the decoder would
    heed. *)
Definition with_ok (f : fspec) : Prop :=
  match f_with_decode f, f_with_encode f, f_format f with
  | None, None, None => True
  | Some d, Some e, Some doc =>
      f_offset f = None /\
      (forall done vars vars', modifiers f (mkenv done vars) = modifiers f (mkenv done vars')) /\
      (forall done vars vars', keeps_format (doc (mkenv done vars)) (d (mkenv done vars)) (e (mkenv done vars')))
  | _, _, _ => False
  end.

Definition every {A} (p : A -> Prop) :=
  fix go (l : list A) : Prop := match l with [] => True | x :: r => p x /\ go r end.

Definition fields_ok (ok : ty -> Prop) (tuple : bool) (fs : list (fspec * ty)) : Prop :=
  (tuple = true -> nothing_left_over true (map fst fs) = true) /\
  every (fun ft : fspec * ty => let (f, t) := ft in
                   ok t /\ encodes_without_variables f t /\ from_str_ok f t /\ with_ok f) fs.

Fixpoint well_formed (t : ty) : Prop :=
  match t with
  | TUser x doc => keeps_format doc (x_decode x) (x_encode x)
  | TArray _ t1 | TVec t1 | TSet t1 | TOption t1 => well_formed t1
  | TTuple ts => every (fun p : Prop => p) (map well_formed ts)
  | TMap tk tv => well_formed tk /\ well_formed tv
  | TStruct named _ fs => fields_ok well_formed (negb named) fs
  | TEnum _ vs =>
      every (fun vf : vspec * list (fspec * ty) => let (v, fs) := vf in
                       bare (v_attr v) = true
                       /\ (forall vars, padding (v_attr v) (mkenv [] vars) = padding (v_attr v) (mkenv [] []))
                       /\ fields_ok well_formed true fs) vs
  | _ => True
  end.
