(** Encoding into any type that implements [BufWrite]: the functions of Encode.v with the
    text they have there, over WriteMut.v and ReadAny.v. Functions given by the user
    ([with_encode], hand-written implementations) are the parameter [U]: what each of
    them does with this writer. *)
From Verif Require Import Base Ints Reader Writer Schema Decode Encode ReadMut ReadAny WriteMut.

(** What an implementor of [BufWrite] supplies: it implements [BufRead]
    (src/buf_traits.rs:13-25), and [remaining_mut] and [resize]
    (src/buf_traits.rs:1354-1357). See WriteMut.v for the last three. *)
Record sink (S : Type) := mksink {
  sk_source : source S;
  sk_remaining_mut : S -> option bytes;
  sk_store : S -> bytes -> S;
  sk_resize : S -> N -> option (N * S)
}.
Arguments mksink {S}.
Arguments sk_source {S}.
Arguments sk_remaining_mut {S}.
Arguments sk_store {S}.
Arguments sk_resize {S}.
Definition wimpl_of {S} (K : sink S) : wimpl S :=
  mkwimpl (impl_of (sk_source K)) (sk_remaining_mut K) (sk_store K) (sk_resize K).

Section AnyEncode.
Context {S : Type}.
Variable K : sink S.
Variable U : wr N -> @mrd S N.
Local Notation X := (sk_source K).
Local Notation W := (wimpl_of K).
Local Notation mrdS := (@mrd S).
Local Notation "x <- m ;; k" := (mbind m (fun x => k)) (at level 61, m at next level, right associativity).

(** src/buf_traits.rs:1413-1415 *)
Definition any_push_u8 (n : N) : mrdS N := mw_push W [n2b n].

(** Rust's type system excludes values of the wrong shape; the model needs some
    outcome for them. *)
Definition any_ill_typed : mrdS N := fun _ => Panic.

(** [r_nbytes += a?; r_nbytes += b?] *)
Definition any_plus (a b : mrdS N) : mrdS N := x <- a ;; y <- b ;; mret (x + y).

(** [for x in l { r_nbytes += e(x)? }] *)
Fixpoint any_enc_list {A} (e : A -> mrdS N) (l : list A) : mrdS N :=
  match l with [] => mret 0 | x :: r => any_plus (e x) (any_enc_list e r) end.

(** src/encode/mod.rs:89-109 *)
Definition any_push_count_and_try_count (ca : cattr) (fa : fattr) (n : N) : mrdS N :=
  match a_byte_count_outside fa with
  | Some k => mw_push_uint W (ko ca fa) n k
  | None =>
      match a_count fa, a_try_count fa with
      | None, None => any_push_u8 n
      | _, _ => mret 0
      end
  end.

(** src/encode/impls_int.rs:32-38: the word written before is read back *)
Definition any_bits_merge (t : ity) (bo : byteorder) (v : Z) : mrdS Z :=
  p <- s_get_position X ;;
  _ <- s_set_position X (wsub p (sizeN t)) ;;
  prev <- s_take_uint X (KOrder bo) (sizeN t) ;;
  p' <- s_get_position X ;;
  _ <- s_set_position X (wsub p' (sizeN t)) ;;
  mret (Z.lor v (cast t (Z.of_N prev))).

(** src/encode/impls_int.rs:11-54 *)
Definition any_enc_int (t : ity) (ca : cattr) (fa : fattr) (z : Z) : mrdS N :=
  let bo := get_byteorder ca fa in
  z' <- (match a_bits fa with
         | Some mask =>
             let v := bits_place t mask z in
             if a_bits_start fa then mret v else any_bits_merge t bo v
         | None => mret z
         end) ;;
  match a_length fa with
  | Some l => if sizeN t <? l then mw_fail W InvalidByteLength
              else mw_push_uint W (KOrder bo) (raw_of_int U64 z') l
  | None => mw_push_int W (KOrder bo) t z'
  end.

(** [if let Some(s) = .. { r_nbytes += push(s)? }] *)
Definition any_push_opt (s : option bytes) : mrdS N :=
  match s with Some l => mw_push W l | None => mret 0 end.

(** src/encode/impls_bytes.rs:10-53; also for [String]/[&str]
    (src/encode/impls_string.rs:10-34) and the hex types (impls_hex.rs:9-33) *)
Definition any_enc_raw (ca : cattr) (fa : fattr) (l : bytes) : mrdS N :=
  let '(prefix, suffix) :=
    match a_length fa with
    | Some _ => (mret 0, None)
    | None =>
        match a_byte_count fa with
        | Some n => (mw_push_uint W (ko ca fa) (lenN l) n, None)
        | None =>
            if a_linend fa then (mret 0, Some [x0d; x0a])
            else match a_linend_value fa with
                 | Some s => (mret 0, Some s)
                 | None => if a_remaining fa then (mret 0, None) else (any_push_u8 (lenN l), None)
                 end
        end
    end in
  any_plus (any_push_opt (a_key fa))
    (any_plus (any_push_opt (a_split fa))
       (any_plus prefix (any_plus (mw_push W l) (any_push_opt suffix)))).

(** [u64::from_be_bytes] of the six octets (src/types/mac_address.rs:42-46) and
    src/encode/impls_macaddress.rs:9-24 *)
Definition any_enc_mac (ca : cattr) (fa : fattr) (l : bytes) : mrdS N :=
  mw_push_uint W (ko ca fa) (be_val (zeros 2 ++ l)) 6.
(** src/encode/impls_ipaddress.rs:9-42 *)
Definition any_enc_ip (ca : cattr) (fa : fattr) (l : bytes) : mrdS N :=
  mw_push_byteorder_array W l (get_byteorder ca fa).

(** derive/src/jbytes/encode.rs:7-18: [offset] and [full]; the bytes written are
    not counted *)
Definition any_enc_offset (f : fspec) (en : env) : mrdS unit :=
  match eval_opt (f_offset f) en with
  | Some n => _ <- any_enc_list any_push_u8 (repeat (f_full f) (N.to_nat n)) ;; mret tt
  | None => mret tt
  end.

(** derive/src/jbytes/encode.rs:22-60: one field. [with_encode] and [with] come
    before everything else. *)
Definition any_enc_field (e : cattr -> fattr -> val -> mrdS N) (f : fspec)
                     (ca : cattr) (fa : fattr) (en : env) (v : val) : mrdS N :=
  match f_with_encode f with
  | Some g => U (g en ca fa v)
  | None =>
  if f_skip_encode f then mret 0
  else
    any_plus (match f_from_str f with
          | Some (_, show) => any_enc_raw ca fa (show v)
          | None => mret 0
          end)
         (match f_bits f, f_untake f with
          | None, true => mret 0
          | _, _ =>
              _ <- any_enc_offset f en ;;
              e ca fa (match f_value_encode f with Some g => g en v | None => v end)
          end)
  end.

(** The fields of a struct (derive_struct.rs:246-253) or variant
    (derive_enum.rs:525-552), in order. [inherit]: in a variant, fields without
    attributes see the modifiers of the field before them ([fattr_new] is not
    rebound, lines 532-534, 544-546). *)
Definition any_enc_fields (ety : ty -> cattr -> fattr -> val -> mrdS N) (inherit : bool)
                      (vars : list (nat * N)) (ca : cattr) :=
  fix go (fs : list (fspec * ty)) (prev : fattr) (done vs : list val) : mrdS N :=
    match fs, vs with
    | [], [] => mret 0
    | (f, t) :: r, v :: vs' =>
        match modifiers f (mkenv done vars) with
        | None => fun _ => Panic
        | Some own =>
            let fa := if inherit && negb (f_use f) then prev else own in
            any_plus (any_enc_field (ety t) f ca fa (mkenv done vars) v)
                 (go r fa (done ++ [v]) vs')
        end
    | _, _ => any_ill_typed
    end.

(** The tag of a variant (derive_enum.rs:472-521) *)
Definition any_push_tag (e : espec) (v : vspec) (index : N) (ca : cattr) (fa : fattr) : mrdS N :=
  match e_branching e with
  | ByPrefix | ByBytes _ => mw_push W (variant_bytes v)
  | ByPrefixUntake => mret 0
  | ByTag =>
      match a_branch fa with
      | Some _ => mret 0
      | None =>
          match c_byte_count (e_c e) with
          | Some n => mw_push_uint W (ko ca fa) index n
          | None =>
              match a_byte_count fa with
              | Some n => mw_push_uint W (ko ca fa) index n
              | None => if e_no_tag e then mret 0 else any_push_u8 index
              end
          end
      end
  end.

(** The [match self] over the variants (derive_enum.rs:435-560) *)
Definition any_enc_arms (ety : ty -> cattr -> fattr -> val -> mrdS N) (e : espec)
                    (ca : cattr) (fa : fattr) (xs : list val) :=
  fix go (vs : list (vspec * list (fspec * ty))) (i : nat) (next : N) : mrdS N :=
    match vs with
    | [] => any_ill_typed
    | (v, fs) :: r =>
        let index := variant_index v next in
        match i with
        | O =>
            match modifiers (v_attr v) (mkenv [] (k_vars ca)) with
            | None => fun _ => Panic
            | Some prev =>
                any_plus (any_push_tag e v index ca fa)
                     (_ <- any_enc_offset (v_attr v) (mkenv [] (k_vars ca)) ;;
                      any_enc_fields ety true (k_vars ca) (own_cattr (e_c e)) fs prev [] xs)
            end
        | Datatypes.S i' => go r i' (index + 1)
        end
    end.

(** Elements one after the other (src/encode/impls_tuple.rs:9-28) *)
Fixpoint any_enc_seq (es : list (val -> mrdS N)) (vs : list val) : mrdS N :=
  match es, vs with
  | [], [] => mret 0
  | e :: es', v :: vs' => any_plus (e v) (any_enc_seq es' vs')
  | _, _ => any_ill_typed
  end.

Fixpoint any_enc (t : ty) (ca : cattr) (fa : fattr) (v : val) {struct t} : mrdS N :=
  match t, v with
  | TInt it, VInt z => any_enc_int it ca fa z
  (* src/encode/impls_bool.rs, impls_char.rs, impls_float.rs *)
  | TBool, VBool b => mw_push_bool W b
  | TChar, VChar c => mw_push_char W c
  | TF32, VFloat x => mw_push_f32 W (ko ca fa) x
  | TF64, VFloat x => mw_push_f64 W (ko ca fa) x
  | TBytes, VBytes l => any_enc_raw ca fa l
  | TString, VBytes l => any_enc_raw ca fa l
  | TMac, VBytes l => any_enc_mac ca fa l
  | TIpv4, VBytes l => any_enc_ip ca fa l
  | TIpv6, VBytes l => any_enc_ip ca fa l
  (* src/encode/impls_ipaddress.rs:45-66 *)
  | TIpAddr, VVariant 0 [VBytes l] => any_enc_ip ca fa l
  | TIpAddr, VVariant 1 [VBytes l] => any_enc_ip ca fa l
  (* src/encode/impls_netaddress.rs:8-33 *)
  | TNetAddr, VVariant 0 [VBytes l] => any_enc_ip ca fa l
  | TNetAddr, VVariant 1 [VBytes l] => any_enc_ip ca fa l
  | TNetAddr, VVariant 2 [VBytes l] => any_enc_mac ca fa l
  | TNetAddr, VVariant 3 [VInt z] => any_enc_int Usize ca fa z
  (* src/encode/impls_other.rs:9-25, impls_mark.rs:9-25 *)
  | TUnit, VUnit => mret 0
  | TUser x _, _ => U (x_encode x ca fa v)
  (* src/encode/impls_array.rs:8-21 *)
  | TArray n t1, VList l =>
      if Nat.eqb (length l) n then any_enc_list (fun x => any_enc t1 ca fa x) l else any_ill_typed
  (* src/encode/impls_tuple.rs:9-28 *)
  | TTuple ts, VList l => any_enc_seq (map (fun t1 => any_enc t1 ca fa) ts) l
  (* src/encode/impls_vec.rs:11-34 *)
  | TVec t1, VList l =>
      match a_loop fa with
      | Some m => any_enc_list (fun x => any_plus (mw_push W m) (any_enc t1 ca fa x)) l
      | None => any_plus (any_push_count_and_try_count ca fa (lenN l)) (any_enc_list (fun x => any_enc t1 ca fa x) l)
      end
  (* src/encode/impls_hashmap.rs:11-57 *)
  | TMap tk tv, VMap l =>
      any_plus (any_push_count_and_try_count ca fa (lenN l))
           (any_enc_list (fun kv => any_plus (any_enc tk ca (key_fattr fa) (fst kv))
                                     (any_enc tv ca (value_fattr fa) (snd kv))) l)
  (* src/encode/impls_option.rs:8-31 *)
  | TOption t1, VOpt None => mret 0
  | TOption t1, VOpt (Some x) => any_enc t1 ca fa x
  (* derive/src/jbytes/derive_struct.rs:207-261 *)
  | TStruct named c fs, VList l =>
      any_enc_fields any_enc false (k_vars ca) (own_cattr c) fs no_fattr [] l
  (* derive/src/jbytes/derive_enum.rs:367-567 *)
  | TEnum e vs, VVariant i xs => any_enc_arms any_enc e ca fa xs vs i 0
  | _, _ => any_ill_typed
  end.

(** [value.encode(&mut buffer)] (src/encode/mod.rs:82-85) *)
Definition any_encode_into (t : ty) (v : val) : mrdS N := any_enc t no_cattr no_fattr v.
End AnyEncode.

(** [Buffer] as such a type (src/buffer.rs:53-94, 96-139) *)
Definition buffer_source : source buf :=
  mksource b_pos b_data (fun b n => Some (mkbuf (b_data b) n)) (fun b => Some (mkbuf (b_data b) 0)) bf_advance.
Definition buffer_sink : sink buf :=
  mksink buffer_source (wi_remaining_mut buffer_writer) (wi_store buffer_writer) (wi_resize buffer_writer).
