(** Decoding in a program for a big-endian target: the functions of Decode.v that read
    more than single bytes, with the text they have there, over BigReader.v. Functions given by the user
    ([with_decode], hand-written implementations) are taken to be the same on both
    targets. *)
From Verif Require Import Base Ints Reader Schema Utf8 Decode BigReader.

(** src/decode/mod.rs:107-132 *)
Definition get_count_and_try_count (ca : cattr) (fa : fattr) : rd (N * option N) :=
  match a_count fa with
  | Some c => ret (c, None)
  | None =>
      match a_try_count fa with
      | Some c => ret (0, Some c)
      | None =>
          match a_byte_count_outside fa with
          | Some n => v <- take_uint (ko ca fa) n ;; ret (v, None)
          | None => v <- take_u8 ;; ret (v, None)
          end
      end
  end.

(** The two counted loops of src/decode/impls_vec.rs:32-44 and its siblings. *)
Definition dec_counted {A} (ca : cattr) (fa : fattr) (d : rd A) : rd (list A) :=
  ct <- get_count_and_try_count ca fa ;;
  match snd ct with
  | Some n => dec_try (N.to_nat n) d
  | None => dec_n (N.to_nat (fst ct)) d
  end.

(** src/decode/impls_int.rs:11-52 *)
Definition dec_int (t : ity) (ca : cattr) (fa : fattr) : rd Z :=
  v <- (match a_length fa with
        | Some l => if sizeN t <? l then fail InvalidByteLength
                    else u <- take_uint (ko ca fa) l ;; ret (cast t (Z.of_N u))
        | None => take_int (ko ca fa) t
        end) ;;
  ret (match a_bits fa with Some mask => bits_extract t mask v | None => v end).

(** src/decode/impls_bytes.rs:10-48 *)
Definition dec_raw (ca : cattr) (fa : fattr) : rd bytes :=
  _ <- skip_to (a_key fa) ;;
  _ <- skip_to (a_split fa) ;;
  match a_length fa with
  | Some l => take_bytes l
  | None =>
      match a_byte_count fa with
      | Some n => l <- take_uint (ko ca fa) n ;; take_bytes l
      | None =>
          if a_linend fa then find_subsequences line_ends
          else match a_linend_value fa with
               | Some s => find_subsequence s
               | None =>
                   if a_remaining fa then fun d p => take_bytes (remaining_len d p) d p
                   else l <- take_u8 ;; take_bytes l
               end
      end
  end.

(** src/decode/impls_string.rs:11-57 *)
Definition dec_string (ca : cattr) (fa : fattr) : rd bytes :=
  l <- dec_raw ca fa ;; if utf8_ok l then ret l else fail Fail.

(** src/decode/impls_macaddress.rs:11-19 with [from_bits], src/types/mac_address.rs:50-56 *)
Definition dec_mac (ca : cattr) (fa : fattr) : rd bytes :=
  v <- take_uint (ko ca fa) 6 ;; ret (skipn 2 (to_be 8 v)).

(** src/decode/impls_ipaddress.rs:11-20 *)
Definition dec_ipv4 (ca : cattr) (fa : fattr) : rd bytes :=
  v <- take_int (ko ca fa) U32 ;; ret (to_be 4 (Z.to_N v)).

(** src/decode/impls_ipaddress.rs:33-42 *)
Definition dec_ipv6 (ca : cattr) (fa : fattr) : rd bytes :=
  v <- take_int (ko ca fa) U128 ;; ret (to_be 16 (Z.to_N v)).

(** src/decode/impls_ipaddress.rs:55-75 *)
Definition dec_ipaddr (ca : cattr) (fa : fattr) : rd val :=
  match a_length fa with
  | Some l => if l =? 16 then x <- dec_ipv6 ca fa ;; ret (VVariant 1 [VBytes x])
              else if l =? 4 then x <- dec_ipv4 ca fa ;; ret (VVariant 0 [VBytes x])
              else fail Fail
  | None => fail Fail
  end.

(** src/decode/impls_netaddress.rs:11-39 *)
Definition dec_netaddr (ca : cattr) (fa : fattr) : rd val :=
  match a_length fa with
  | Some l => if l =? 0 then fail Fail
              else if l =? 4 then x <- dec_ipv4 ca fa ;; ret (VVariant 0 [VBytes x])
              else if l =? 6 then x <- dec_mac ca fa ;; ret (VVariant 2 [VBytes x])
              else if l =? 16 then x <- dec_ipv6 ca fa ;; ret (VVariant 1 [VBytes x])
              else z <- dec_int Usize ca fa ;; ret (VVariant 3 [VInt z])
  | None => fail Fail
  end.

(** derive/src/jbytes/decode.rs:18-81: one field, given its decoder, its modifiers
    and what its expressions can see. [with_decode] and [with] (lines 25-32) replace
    everything but the offset. *)
Definition dec_field (d : cattr -> fattr -> rd val) (f : fspec)
                     (ca : cattr) (fa : fattr) (en : env) : rd val :=
  _ <- dec_offset (f_offset f) en ;;
  match f_with_decode f with
  | Some g => g en ca fa
  | None =>
  match f_skip_decode f with
  | Some v => ret v
  | None =>
      match f_from_str f with
      | Some (parse, _) =>
          s <- dec_string ca fa ;;
          match parse s with Some v => ret v | None => fail Fail end
      | None =>
          p0 <- get_position ;;
          v <- (match f_if f with
                | Some c => if c en then d ca fa else ret (VOpt None)
                | None => d ca fa
                end) ;;
          _ <- (if f_untake f then set_position p0 else ret tt) ;;
          let v := match f_value_decode f with Some g => g en v | None => v end in
          match f_check f with
          | Some c => if val_eqb v (c en) then ret v else fail InvalidValue
          | None => ret v
          end
      end
  end
  end.

(** The fields of a struct or variant, in order (derive_struct.rs:80-103).
    [inherit]: fields without attributes of tuple structs and tuple variants see the
    modifiers of the field before them ([fattr_new] is not rebound, lines 92-96).
    [prev]: those modifiers. [done]: the values of the fields already decoded. *)
Definition dec_fields (dty : ty -> cattr -> fattr -> rd val) (inherit : bool)
                      (vars : list (nat * N)) :=
  fix go (fs : list (fspec * ty)) (ca : cattr) (prev : fattr) (done : list val)
    : rd (list val) :=
    match fs with
    | [] => ret done
    | (f, t) :: r =>
        match modifiers f (mkenv done vars) with
        | None => panic
        | Some own =>
            let fa := if inherit && negb (f_use f) then prev else own in
            v <- dec_field (dty t) f ca fa (mkenv done vars) ;;
            go r (publish f (mkenv (done ++ [v]) vars) ca) fa (done ++ [v])
        end
    end.

(** derive_enum.rs:273-297: the integer tag. The byte order is that of the
    enclosing container and of the field, not the enum's own. *)
Definition enum_tag (e : espec) (ca : cattr) (fa : fattr) : rd N :=
  match a_branch fa with
  | Some n => ret n
  | None =>
      match a_byte_count fa with
      | Some n => take_uint (ko ca fa) n
      | None =>
          match c_byte_count (e_c e) with
          | Some n => take_uint (ko ca fa) n
          | None => take_u8
          end
      end
  end.

(** The [match] over the variants (derive_enum.rs:163-212, 302-352): the first arm
    that [hit]s is taken, [eat] bytes are skipped, and its fields are decoded.
    Without a matching arm the error is [nomatch]. *)
Definition dec_arms (dty : ty -> cattr -> fattr -> rd val) (hit : vspec -> N -> bool)
                    (eat : vspec -> N) (nomatch : ekind) (ca : cattr) (vars : list (nat * N)) :=
  fix go (vs : list (vspec * list (fspec * ty))) (i : nat) (next : N) : rd val :=
    match vs with
    | [] => fail nomatch
    | (v, fs) :: r =>
        let index := variant_index v next in
        if hit v index then
          _ <- advance (eat v) ;;
          match modifiers (v_attr v) (mkenv [] vars) with
          | None => panic
          | Some prev =>
              _ <- dec_offset (f_offset (v_attr v)) (mkenv [] vars) ;;
              xs <- dec_fields dty (negb (v_named v)) vars fs ca prev [] ;;
              ret (VVariant i xs)
          end
        else go r (S i) (index + 1)
    end.

(** ** All types *)
Fixpoint dec (t : ty) (ca : cattr) (fa : fattr) {struct t} : rd val :=
  match t with
  | TInt it => z <- dec_int it ca fa ;; ret (VInt z)
  (* src/decode/impls_bool.rs:8-17 *)
  | TBool => b <- take_bool ;; ret (VBool b)
  (* src/decode/impls_char.rs:8-17 *)
  | TChar => c <- take_char ;; ret (VChar c)
  (* src/decode/impls_float.rs:9-21, 36-48 *)
  | TF32 => v <- take_f32 (ko ca fa) ;; ret (VFloat v)
  | TF64 => v <- take_f64 (ko ca fa) ;; ret (VFloat v)
  (* src/decode/impls_bytes.rs:51-59, impls_hex.rs:9-39 *)
  | TBytes => l <- dec_raw ca fa ;; ret (VBytes l)
  | TString => l <- dec_string ca fa ;; ret (VBytes l)
  | TMac => l <- dec_mac ca fa ;; ret (VBytes l)
  | TIpv4 => l <- dec_ipv4 ca fa ;; ret (VBytes l)
  | TIpv6 => l <- dec_ipv6 ca fa ;; ret (VBytes l)
  | TIpAddr => dec_ipaddr ca fa
  | TNetAddr => dec_netaddr ca fa
  (* src/decode/impls_other.rs:9-30, impls_mark.rs:9-30 *)
  | TUnit => ret VUnit
  | TUser x _ => x_decode x ca fa
  (* src/decode/impls_array.rs:9-26 *)
  | TArray n t1 => l <- dec_n n (dec t1 ca fa) ;; ret (VList l)
  (* src/decode/impls_tuple.rs:8-27 *)
  | TTuple ts => l <- dec_seq (map (fun t1 => dec t1 ca fa) ts) ;; ret (VList l)
  (* src/decode/impls_vec.rs:11-48 *)
  | TVec t1 =>
      match a_loop fa with
      | Some m => l <- (fun dt p => dec_loop (S (length dt)) m (dec t1 ca fa) dt p) ;; ret (VList l)
      | None => l <- dec_counted ca fa (dec t1 ca fa) ;; ret (VList l)
      end
  (* src/decode/impls_hashset.rs:14-41 *)
  | TSet t1 =>
      l <- dec_counted ca fa (dec t1 ca fa) ;;
      ret (VSet (fold_left (fun s x => set_insert x s) l []))
  (* src/decode/impls_hashmap.rs:14-74 *)
  | TMap tk tv =>
      l <- dec_counted ca fa (k <- dec tk ca (key_fattr fa) ;;
                              v <- dec tv ca (value_fattr fa) ;; ret (k, v)) ;;
      ret (VMap (fold_left (fun m kv => map_insert (fst kv) (snd kv) m) l []))
  (* src/decode/impls_option.rs:8-31 *)
  | TOption t1 => fun dt p =>
      match a_length fa with
      | Some 0 => Ok (VOpt None) p
      | _ => match dec t1 ca fa dt p with
             | Ok v p' => Ok (VOpt (Some v)) p'
             | Err _ p' => Ok (VOpt None) p'
             | Panic => Panic
             | Hang => Hang
             end
      end
  (* derive/src/jbytes/derive_struct.rs:164-195 *)
  | TStruct named c fs =>
      l <- dec_fields dec (negb named) (k_vars ca) fs (own_cattr c) no_fattr [] ;;
      ret (VList l)
  (* derive/src/jbytes/derive_enum.rs:85-121 *)
  | TEnum e vs =>
      match vs with
      | [] => ret VUnit
      | _ :: _ =>
          match e_branching e with
          | ByTag =>
              tag <- enum_tag e ca fa ;;
              dec_arms dec (fun v index => arm_matches v index tag) (fun _ => 0)
                       InvalidByteLength (own_cattr (e_c e)) (k_vars ca) vs 0 0
          | ByPrefix => fun dt p =>
              dec_arms dec (fun v _ => v_default v || starts_with (variant_bytes v) (remaining dt p))
                       (fun v => if v_default v then 0 else lenN (variant_bytes v))
                       Fail (own_cattr (e_c e)) (k_vars ca) vs 0 0 dt p
          | ByPrefixUntake => fun dt p =>
              dec_arms dec (fun v _ => v_default v || starts_with (variant_bytes v) (remaining dt p))
                       (fun _ => 0)
                       Fail (own_cattr (e_c e)) (k_vars ca) vs 0 0 dt p
          | ByBytes n =>
              s <- take_bytes n ;;
              dec_arms dec (fun v _ => v_default v || bytes_eqb s (variant_bytes v)) (fun _ => 0)
                       InvalidByteLength (own_cattr (e_c e)) (k_vars ca) vs 0 0
          end
      end
  end.

(** src/lib.rs:154-156: [jbytes::decode]; src/decode/mod.rs:97-103: [T::decode],
    which starts at the reader's position. *)
Definition decode (t : ty) : rd val := dec t no_cattr no_fattr.
