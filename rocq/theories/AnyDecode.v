(** Decoding from any type that implements [BufRead]: the functions of Decode.v with the
    text they have there, over ReadAny.v. Functions given by the user ([with_decode],
    hand-written implementations) are the parameter [U]: what each of them does with
    this source. *)
From Verif Require Import Base Ints Reader Schema Utf8 Decode ReadMut ReadAny.

Section AnyDecode.
Context {S : Type}.
Variable X : source S.
Variable U : rd val -> @mrd S val.
Local Notation I := (impl_of X).
Local Notation mrdS := (@mrd S).
Local Notation "x <- m ;; k" := (mbind m (fun x => k)) (at level 61, m at next level, right associativity).

(** [for _ in 0..n { push(d()?) }] *)
Fixpoint any_dec_n {A} (n : nat) (d : mrdS A) : mrdS (list A) :=
  match n with
  | O => mret []
  | Datatypes.S n' => x <- d ;; xs <- any_dec_n n' d ;; mret (x :: xs)
  end.

(** [for _ in 0..n { match d() { Ok(v) => push(v), Err(_) => break } }] *)
Fixpoint any_dec_try {A} (n : nat) (d : mrdS A) : mrdS (list A) :=
  match n with
  | O => mret []
  | Datatypes.S n' => fun s =>
      match d s with
      | Ok x s' => (xs <- any_dec_try n' d ;; mret (x :: xs)) s'
      | Err _ s' => Ok [] s'
      | Panic => Panic
      | Hang => Hang
      end
  end.

(** [while let Ok(_) = take_bytes_starts(m) { push(d()?) }]
    (src/decode/impls_vec.rs:22-28). [Hang] when the loop has gone round more often
    than the input has bytes: a simplification for inputs whose answers change from call
    to call, which may stop later. For a plain buffer see Decode.v. *)
Fixpoint any_dec_loop {A} (fuel : nat) (m : bytes) (d : mrdS A) : mrdS (list A) :=
  match fuel with
  | O => fun _ => Hang
  | Datatypes.S fuel' => fun s =>
      match m_take_bytes_starts I m s with
      | Ok _ s' => (x <- d ;; xs <- any_dec_loop fuel' m d ;; mret (x :: xs)) s'
      | Err _ s' => Ok [] s'
      | Panic => Panic
      | Hang => Hang
      end
  end.

(** Elements one after the other (src/decode/impls_tuple.rs:8-27). *)
Fixpoint any_dec_seq (ds : list (mrdS val)) : mrdS (list val) :=
  match ds with
  | [] => mret []
  | d :: r => x <- d ;; xs <- any_dec_seq r ;; mret (x :: xs)
  end.

(** src/decode/mod.rs:107-132 *)
Definition any_get_count_and_try_count (ca : cattr) (fa : fattr) : mrdS (N * option N) :=
  match a_count fa with
  | Some c => mret (c, None)
  | None =>
      match a_try_count fa with
      | Some c => mret (0, Some c)
      | None =>
          match a_byte_count_outside fa with
          | Some n => v <- s_take_uint X (ko ca fa) n ;; mret (v, None)
          | None => v <- m_take_u8 I ;; mret (v, None)
          end
      end
  end.

(** The two counted loops of src/decode/impls_vec.rs:32-44 and its siblings. *)
Definition any_dec_counted {A} (ca : cattr) (fa : fattr) (d : mrdS A) : mrdS (list A) :=
  ct <- any_get_count_and_try_count ca fa ;;
  match snd ct with
  | Some n => any_dec_try (N.to_nat n) d
  | None => any_dec_n (N.to_nat (fst ct)) d
  end.

(** src/decode/impls_int.rs:11-52 *)
Definition any_dec_int (t : ity) (ca : cattr) (fa : fattr) : mrdS Z :=
  v <- (match a_length fa with
        | Some l => if sizeN t <? l then mfail I InvalidByteLength
                    else u <- s_take_uint X (ko ca fa) l ;; mret (cast t (Z.of_N u))
        | None => m_take_int I (ko ca fa) t
        end) ;;
  mret (match a_bits fa with Some mask => bits_extract t mask v | None => v end).

(** [if let Some(k) = .. { find_subsequence_needle(k, true)? }] *)
Definition any_skip_to (k : option bytes) : mrdS unit :=
  match k with Some s => _ <- m_find_subsequence_needle I s true ;; mret tt | None => mret tt end.

(** src/decode/impls_bytes.rs:10-48 *)
Definition any_dec_raw (ca : cattr) (fa : fattr) : mrdS bytes :=
  _ <- any_skip_to (a_key fa) ;;
  _ <- any_skip_to (a_split fa) ;;
  match a_length fa with
  | Some l => m_take_bytes I l
  | None =>
      match a_byte_count fa with
      | Some n => l <- s_take_uint X (ko ca fa) n ;; m_take_bytes I l
      | None =>
          if a_linend fa then m_find_subsequences I line_ends
          else match a_linend_value fa with
               | Some s => m_find_subsequence I s
               | None =>
                   if a_remaining fa then fun s => m_take_bytes I (lenN (im_remaining I s)) s
                   else l <- m_take_u8 I ;; m_take_bytes I l
               end
      end
  end.

(** src/decode/impls_string.rs:11-57 *)
Definition any_dec_string (ca : cattr) (fa : fattr) : mrdS bytes :=
  l <- any_dec_raw ca fa ;; if utf8_ok l then mret l else mfail I Fail.

(** src/decode/impls_macaddress.rs:11-19 with [from_bits], src/types/mac_address.rs:50-56 *)
Definition any_dec_mac (ca : cattr) (fa : fattr) : mrdS bytes :=
  v <- s_take_uint X (ko ca fa) 6 ;; mret (skipn 2 (to_be 8 v)).

(** src/decode/impls_ipaddress.rs:11-20 *)
Definition any_dec_ipv4 (ca : cattr) (fa : fattr) : mrdS bytes :=
  v <- m_take_int I (ko ca fa) U32 ;; mret (to_be 4 (Z.to_N v)).

(** src/decode/impls_ipaddress.rs:33-42 *)
Definition any_dec_ipv6 (ca : cattr) (fa : fattr) : mrdS bytes :=
  v <- m_take_int I (ko ca fa) U128 ;; mret (to_be 16 (Z.to_N v)).

(** src/decode/impls_ipaddress.rs:55-75 *)
Definition any_dec_ipaddr (ca : cattr) (fa : fattr) : mrdS val :=
  match a_length fa with
  | Some l => if l =? 16 then x <- any_dec_ipv6 ca fa ;; mret (VVariant 1 [VBytes x])
              else if l =? 4 then x <- any_dec_ipv4 ca fa ;; mret (VVariant 0 [VBytes x])
              else mfail I Fail
  | None => mfail I Fail
  end.

(** src/decode/impls_netaddress.rs:11-39 *)
Definition any_dec_netaddr (ca : cattr) (fa : fattr) : mrdS val :=
  match a_length fa with
  | Some l => if l =? 0 then mfail I Fail
              else if l =? 4 then x <- any_dec_ipv4 ca fa ;; mret (VVariant 0 [VBytes x])
              else if l =? 6 then x <- any_dec_mac ca fa ;; mret (VVariant 2 [VBytes x])
              else if l =? 16 then x <- any_dec_ipv6 ca fa ;; mret (VVariant 1 [VBytes x])
              else z <- any_dec_int Usize ca fa ;; mret (VVariant 3 [VInt z])
  | None => mfail I Fail
  end.

(** derive/src/jbytes/decode.rs:8-15: [offset] *)
Definition any_dec_offset (o : option expr) (en : env) : mrdS unit :=
  match eval_opt o en with Some n => s_advance X n | None => mret tt end.

(** derive/src/jbytes/decode.rs:18-81: one field, given its decoder, its modifiers
    and what its expressions can see. [with_decode] and [with] (lines 25-32) replace
    everything but the offset. *)
Definition any_dec_field (d : cattr -> fattr -> mrdS val) (f : fspec)
                     (ca : cattr) (fa : fattr) (en : env) : mrdS val :=
  _ <- any_dec_offset (f_offset f) en ;;
  match f_with_decode f with
  | Some g => U (g en ca fa)
  | None =>
  match f_skip_decode f with
  | Some v => mret v
  | None =>
      match f_from_str f with
      | Some (parse, _) =>
          s <- any_dec_string ca fa ;;
          match parse s with Some v => mret v | None => mfail I Fail end
      | None =>
          p0 <- s_get_position X ;;
          v <- (match f_if f with
                | Some c => if c en then d ca fa else mret (VOpt None)
                | None => d ca fa
                end) ;;
          _ <- (if f_untake f then s_set_position X p0 else mret tt) ;;
          let v := match f_value_decode f with Some g => g en v | None => v end in
          match f_check f with
          | Some c => if val_eqb v (c en) then mret v else mfail I InvalidValue
          | None => mret v
          end
      end
  end
  end.

(** The fields of a struct or variant, in order (derive_struct.rs:80-103).
    [inherit]: fields without attributes of tuple structs and tuple variants see the
    modifiers of the field before them ([fattr_new] is not rebound, lines 92-96).
    [prev]: those modifiers. [done]: the values of the fields already decoded. *)
Definition any_dec_fields (dty : ty -> cattr -> fattr -> mrdS val) (inherit : bool)
                      (vars : list (nat * N)) :=
  fix go (fs : list (fspec * ty)) (ca : cattr) (prev : fattr) (done : list val)
    : mrdS (list val) :=
    match fs with
    | [] => mret done
    | (f, t) :: r =>
        match modifiers f (mkenv done vars) with
        | None => mpanic
        | Some own =>
            let fa := if inherit && negb (f_use f) then prev else own in
            v <- any_dec_field (dty t) f ca fa (mkenv done vars) ;;
            go r (publish f (mkenv (done ++ [v]) vars) ca) fa (done ++ [v])
        end
    end.

(** derive_enum.rs:273-297: the integer tag. The byte order is that of the
    enclosing container and of the field, not the enum's own. *)
Definition any_enum_tag (e : espec) (ca : cattr) (fa : fattr) : mrdS N :=
  match a_branch fa with
  | Some n => mret n
  | None =>
      match a_byte_count fa with
      | Some n => s_take_uint X (ko ca fa) n
      | None =>
          match c_byte_count (e_c e) with
          | Some n => s_take_uint X (ko ca fa) n
          | None => m_take_u8 I
          end
      end
  end.

(** The [match] over the variants (derive_enum.rs:163-212, 302-352): the first arm
    that [hit]s is taken, [eat] bytes are skipped, and its fields are decoded.
    Without a matching arm the error is [nomatch]. *)
Definition any_dec_arms (dty : ty -> cattr -> fattr -> mrdS val) (hit : vspec -> N -> bool)
                    (eat : vspec -> N) (nomatch : ekind) (ca : cattr) (vars : list (nat * N)) :=
  fix go (vs : list (vspec * list (fspec * ty))) (i : nat) (next : N) : mrdS val :=
    match vs with
    | [] => mfail I nomatch
    | (v, fs) :: r =>
        let index := variant_index v next in
        if hit v index then
          _ <- s_advance X (eat v) ;;
          match modifiers (v_attr v) (mkenv [] vars) with
          | None => mpanic
          | Some prev =>
              _ <- any_dec_offset (f_offset (v_attr v)) (mkenv [] vars) ;;
              xs <- any_dec_fields dty (negb (v_named v)) vars fs ca prev [] ;;
              mret (VVariant i xs)
          end
        else go r (Datatypes.S i) (index + 1)
    end.

Fixpoint any_dec (t : ty) (ca : cattr) (fa : fattr) {struct t} : mrdS val :=
  match t with
  | TInt it => z <- any_dec_int it ca fa ;; mret (VInt z)
  (* src/decode/impls_bool.rs:8-17 *)
  | TBool => b <- m_take_bool I ;; mret (VBool b)
  (* src/decode/impls_char.rs:8-17 *)
  | TChar => c <- m_take_u8 I ;; mret (VChar c)
  (* src/decode/impls_float.rs:9-21, 36-48 *)
  | TF32 => v <- m_take_fixed I (order_of (ko ca fa)) 4 ;; mret (VFloat v)
  | TF64 => v <- m_take_fixed I (order_of (ko ca fa)) 8 ;; mret (VFloat v)
  (* src/decode/impls_bytes.rs:51-59, impls_hex.rs:9-39 *)
  | TBytes => l <- any_dec_raw ca fa ;; mret (VBytes l)
  | TString => l <- any_dec_string ca fa ;; mret (VBytes l)
  | TMac => l <- any_dec_mac ca fa ;; mret (VBytes l)
  | TIpv4 => l <- any_dec_ipv4 ca fa ;; mret (VBytes l)
  | TIpv6 => l <- any_dec_ipv6 ca fa ;; mret (VBytes l)
  | TIpAddr => any_dec_ipaddr ca fa
  | TNetAddr => any_dec_netaddr ca fa
  (* src/decode/impls_other.rs:9-30, impls_mark.rs:9-30 *)
  | TUnit => mret VUnit
  | TUser x _ => U (x_decode x ca fa)
  (* src/decode/impls_array.rs:9-26 *)
  | TArray n t1 => l <- any_dec_n n (any_dec t1 ca fa) ;; mret (VList l)
  (* src/decode/impls_tuple.rs:8-27 *)
  | TTuple ts => l <- any_dec_seq (map (fun t1 => any_dec t1 ca fa) ts) ;; mret (VList l)
  (* src/decode/impls_vec.rs:11-48 *)
  | TVec t1 =>
      match a_loop fa with
      | Some m => l <- (fun s => any_dec_loop (Datatypes.S (length (im_data I s))) m (any_dec t1 ca fa) s) ;; mret (VList l)
      | None => l <- any_dec_counted ca fa (any_dec t1 ca fa) ;; mret (VList l)
      end
  (* src/decode/impls_hashset.rs:14-41 *)
  | TSet t1 =>
      l <- any_dec_counted ca fa (any_dec t1 ca fa) ;;
      mret (VSet (fold_left (fun s x => set_insert x s) l []))
  (* src/decode/impls_hashmap.rs:14-74 *)
  | TMap tk tv =>
      l <- any_dec_counted ca fa (k <- any_dec tk ca (key_fattr fa) ;;
                              v <- any_dec tv ca (value_fattr fa) ;; mret (k, v)) ;;
      mret (VMap (fold_left (fun m kv => map_insert (fst kv) (snd kv) m) l []))
  (* src/decode/impls_option.rs:8-31 *)
  | TOption t1 => fun s =>
      match a_length fa with
      | Some 0 => Ok (VOpt None) s
      | _ => match any_dec t1 ca fa s with
             | Ok v s' => Ok (VOpt (Some v)) s'
             | Err _ s' => Ok (VOpt None) s'
             | Panic => Panic
             | Hang => Hang
             end
      end
  (* derive/src/jbytes/derive_struct.rs:164-195 *)
  | TStruct named c fs =>
      l <- any_dec_fields any_dec (negb named) (k_vars ca) fs (own_cattr c) no_fattr [] ;;
      mret (VList l)
  (* derive/src/jbytes/derive_enum.rs:85-121 *)
  | TEnum e vs =>
      match vs with
      | [] => mret VUnit
      | _ :: _ =>
          match e_branching e with
          | ByTag =>
              tag <- any_enum_tag e ca fa ;;
              any_dec_arms any_dec (fun v index => arm_matches v index tag) (fun _ => 0)
                       InvalidByteLength (own_cattr (e_c e)) (k_vars ca) vs 0 0
          | ByPrefix => fun s =>
              any_dec_arms any_dec (fun v _ => v_default v || starts_with (variant_bytes v) (im_remaining I s))
                       (fun v => if v_default v then 0 else lenN (variant_bytes v))
                       Fail (own_cattr (e_c e)) (k_vars ca) vs 0 0 s
          | ByPrefixUntake => fun s =>
              any_dec_arms any_dec (fun v _ => v_default v || starts_with (variant_bytes v) (im_remaining I s))
                       (fun _ => 0)
                       Fail (own_cattr (e_c e)) (k_vars ca) vs 0 0 s
          | ByBytes n =>
              s <- m_take_bytes I n ;;
              any_dec_arms any_dec (fun v _ => v_default v || bytes_eqb s (variant_bytes v)) (fun _ => 0)
                       InvalidByteLength (own_cattr (e_c e)) (k_vars ca) vs 0 0
          end
      end
  end.

(** src/lib.rs:154-156: [jbytes::decode]; src/decode/mod.rs:97-103: [T::decode],
    which starts at the reader's position. *)
Definition any_decode (t : ty) : mrdS val := any_dec t no_cattr no_fattr.

End AnyDecode.
