(** Encoding in a program for a big-endian target; see BigDecode.v. *)
From Verif Require Import Base Ints Reader Writer Schema Decode Encode BigReader BigWriter.

(** src/encode/mod.rs:89-109 *)
Definition push_count_and_try_count (ca : cattr) (fa : fattr) (n : N) : wr N :=
  match a_byte_count_outside fa with
  | Some k => push_uint (ko ca fa) n k
  | None =>
      match a_count fa, a_try_count fa with
      | None, None => push_u8 n
      | _, _ => wret 0
      end
  end.

(** src/encode/impls_int.rs:32-38: the word written before is read back *)
Definition bits_merge (t : ity) (bo : byteorder) (v : Z) : wr Z :=
  p <~ on_reader get_position ;;
  _ <~ on_reader (set_position (wsub p (sizeN t))) ;;
  prev <~ on_reader (take_uint (KOrder bo) (sizeN t)) ;;
  p' <~ on_reader get_position ;;
  _ <~ on_reader (set_position (wsub p' (sizeN t))) ;;
  wret (Z.lor v (cast t (Z.of_N prev))).

(** src/encode/impls_int.rs:11-54 *)
Definition enc_int (t : ity) (ca : cattr) (fa : fattr) (z : Z) : wr N :=
  let bo := get_byteorder ca fa in
  z' <~ (match a_bits fa with
         | Some mask =>
             let v := bits_place t mask z in
             if a_bits_start fa then wret v else bits_merge t bo v
         | None => wret z
         end) ;;
  match a_length fa with
  | Some l => if sizeN t <? l then wfail InvalidByteLength
              else push_uint (KOrder bo) (raw_of_int U64 z') l
  | None => push_int (KOrder bo) t z'
  end.

(** src/encode/impls_bytes.rs:10-53; also for [String]/[&str]
    (src/encode/impls_string.rs:10-34) and the hex types (impls_hex.rs:9-33) *)
Definition enc_raw (ca : cattr) (fa : fattr) (l : bytes) : wr N :=
  let '(prefix, suffix) :=
    match a_length fa with
    | Some _ => (wret 0, None)
    | None =>
        match a_byte_count fa with
        | Some n => (push_uint (ko ca fa) (lenN l) n, None)
        | None =>
            if a_linend fa then (wret 0, Some [x0d; x0a])
            else match a_linend_value fa with
                 | Some s => (wret 0, Some s)
                 | None => if a_remaining fa then (wret 0, None) else (push_u8 (lenN l), None)
                 end
        end
    end in
  plus (push_opt (a_key fa))
    (plus (push_opt (a_split fa))
       (plus prefix (plus (push l) (push_opt suffix)))).

(** [u64::from_be_bytes] of the six octets (src/types/mac_address.rs:42-46) and
    src/encode/impls_macaddress.rs:9-24 *)
Definition enc_mac (ca : cattr) (fa : fattr) (l : bytes) : wr N :=
  push_uint (ko ca fa) (be_val (zeros 2 ++ l)) 6.

(** derive/src/jbytes/encode.rs:22-60: one field. [with_encode] and [with] come
    before everything else. *)
Definition enc_field (e : cattr -> fattr -> val -> wr N) (f : fspec)
                     (ca : cattr) (fa : fattr) (en : env) (v : val) : wr N :=
  match f_with_encode f with
  | Some g => g en ca fa v
  | None =>
  if f_skip_encode f then wret 0
  else
    plus (match f_from_str f with
          | Some (_, show) => enc_raw ca fa (show v)
          | None => wret 0
          end)
         (match f_bits f, f_untake f with
          | None, true => wret 0
          | _, _ =>
              _ <~ enc_offset f en ;;
              e ca fa (match f_value_encode f with Some g => g en v | None => v end)
          end)
  end.

(** The fields of a struct (derive_struct.rs:246-253) or variant
    (derive_enum.rs:525-552), in order. [inherit]: in a variant, fields without
    attributes see the modifiers of the field before them ([fattr_new] is not
    rebound, lines 532-534, 544-546). *)
Definition enc_fields (ety : ty -> cattr -> fattr -> val -> wr N) (inherit : bool)
                      (vars : list (nat * N)) (ca : cattr) :=
  fix go (fs : list (fspec * ty)) (prev : fattr) (done vs : list val) : wr N :=
    match fs, vs with
    | [], [] => wret 0
    | (f, t) :: r, v :: vs' =>
        match modifiers f (mkenv done vars) with
        | None => fun _ => Panic
        | Some own =>
            let fa := if inherit && negb (f_use f) then prev else own in
            plus (enc_field (ety t) f ca fa (mkenv done vars) v)
                 (go r fa (done ++ [v]) vs')
        end
    | _, _ => ill_typed
    end.

(** The tag of a variant (derive_enum.rs:472-521) *)
Definition push_tag (e : espec) (v : vspec) (index : N) (ca : cattr) (fa : fattr) : wr N :=
  match e_branching e with
  | ByPrefix | ByBytes _ => push (variant_bytes v)
  | ByPrefixUntake => wret 0
  | ByTag =>
      match a_branch fa with
      | Some _ => wret 0
      | None =>
          match c_byte_count (e_c e) with
          | Some n => push_uint (ko ca fa) index n
          | None =>
              match a_byte_count fa with
              | Some n => push_uint (ko ca fa) index n
              | None => if e_no_tag e then wret 0 else push_u8 index
              end
          end
      end
  end.

(** The [match self] over the variants (derive_enum.rs:435-560) *)
Definition enc_arms (ety : ty -> cattr -> fattr -> val -> wr N) (e : espec)
                    (ca : cattr) (fa : fattr) (xs : list val) :=
  fix go (vs : list (vspec * list (fspec * ty))) (i : nat) (next : N) : wr N :=
    match vs with
    | [] => ill_typed
    | (v, fs) :: r =>
        let index := variant_index v next in
        match i with
        | O =>
            match modifiers (v_attr v) (mkenv [] (k_vars ca)) with
            | None => fun _ => Panic
            | Some prev =>
                plus (push_tag e v index ca fa)
                     (_ <~ enc_offset (v_attr v) (mkenv [] (k_vars ca)) ;;
                      enc_fields ety true (k_vars ca) (own_cattr (e_c e)) fs prev [] xs)
            end
        | S i' => go r i' (index + 1)
        end
    end.

Fixpoint enc (t : ty) (ca : cattr) (fa : fattr) (v : val) {struct t} : wr N :=
  match t, v with
  | TInt it, VInt z => enc_int it ca fa z
  (* src/encode/impls_bool.rs, impls_char.rs, impls_float.rs *)
  | TBool, VBool b => push_bool b
  | TChar, VChar c => push_char c
  | TF32, VFloat x => push_f32 (ko ca fa) x
  | TF64, VFloat x => push_f64 (ko ca fa) x
  | TBytes, VBytes l => enc_raw ca fa l
  | TString, VBytes l => enc_raw ca fa l
  | TMac, VBytes l => enc_mac ca fa l
  | TIpv4, VBytes l => enc_ip ca fa l
  | TIpv6, VBytes l => enc_ip ca fa l
  (* src/encode/impls_ipaddress.rs:45-66 *)
  | TIpAddr, VVariant 0 [VBytes l] => enc_ip ca fa l
  | TIpAddr, VVariant 1 [VBytes l] => enc_ip ca fa l
  (* src/encode/impls_netaddress.rs:8-33 *)
  | TNetAddr, VVariant 0 [VBytes l] => enc_ip ca fa l
  | TNetAddr, VVariant 1 [VBytes l] => enc_ip ca fa l
  | TNetAddr, VVariant 2 [VBytes l] => enc_mac ca fa l
  | TNetAddr, VVariant 3 [VInt z] => enc_int Usize ca fa z
  (* src/encode/impls_other.rs:9-25, impls_mark.rs:9-25 *)
  | TUnit, VUnit => wret 0
  | TUser x _, _ => x_encode x ca fa v
  (* src/encode/impls_array.rs:8-21 *)
  | TArray n t1, VList l =>
      if Nat.eqb (length l) n then enc_list (fun x => enc t1 ca fa x) l else ill_typed
  (* src/encode/impls_tuple.rs:9-28 *)
  | TTuple ts, VList l => enc_seq (map (fun t1 => enc t1 ca fa) ts) l
  (* src/encode/impls_vec.rs:11-34 *)
  | TVec t1, VList l =>
      match a_loop fa with
      | Some m => enc_list (fun x => plus (push m) (enc t1 ca fa x)) l
      | None => plus (push_count_and_try_count ca fa (lenN l)) (enc_list (fun x => enc t1 ca fa x) l)
      end
  (* src/encode/impls_hashmap.rs:11-57 *)
  | TMap tk tv, VMap l =>
      plus (push_count_and_try_count ca fa (lenN l))
           (enc_list (fun kv => plus (enc tk ca (key_fattr fa) (fst kv))
                                     (enc tv ca (value_fattr fa) (snd kv))) l)
  (* src/encode/impls_option.rs:8-31 *)
  | TOption t1, VOpt None => wret 0
  | TOption t1, VOpt (Some x) => enc t1 ca fa x
  (* derive/src/jbytes/derive_struct.rs:207-261 *)
  | TStruct named c fs, VList l =>
      enc_fields enc false (k_vars ca) (own_cattr c) fs no_fattr [] l
  (* derive/src/jbytes/derive_enum.rs:367-567 *)
  | TEnum e vs, VVariant i xs => enc_arms enc e ca fa xs vs i 0
  | _, _ => ill_typed
  end.

(** [value.encode(&mut buffer)] (src/encode/mod.rs:82-85) *)
Definition encode_into (t : ty) (v : val) : wr N := enc t no_cattr no_fattr v.

(** src/lib.rs:255-261: [jbytes::encode] returns the buffer *)
Definition encode (t : ty) (v : val) : res unit bytes :=
  match encode_into t v buf_new with
  | Ok _ b => Ok (b_data b) tt
  | Err e _ => Err e tt
  | Panic => Panic
  | Hang => Hang
  end.
