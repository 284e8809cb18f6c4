(** Conditions, checks and changes of values given as text ([if_expr], [check_value],
    [value_decode], [value_encode]): what the derive macros write for them
    (derive/src/jbytes/decode.rs:57-80, encode.rs:46-57), and what rustc makes of it
    (GenExpr.v). [None]: refused. *)
From Coq Require Import Ascii String.
From Verif Require Import Base Ints Text AttrParse GenExpr Source Schema.
Close Scope string_scope.

Definition truth (v : option val) : option bool := match v with Some (VBool b) => Some b | _ => None end.

(** ** Decoder

    [before]: the fields before this one, as variables. *)

(** decode.rs:57-61: [if {if_expr} {]. Whether the field is read. *)
Definition condition (A : arithmetic val) (others : bytes -> option val) (before : list (bytes * val)) (text : bytes) : option bool :=
  truth (code_value A (decoder_scope before others) text).
(** decode.rs:71-73: [let x = {value_decode};], where [x] is what was read. *)
Definition new_value (A : arithmetic val) (others : bytes -> option val) (before : list (bytes * val)) (x : bytes) (w : val)
                     (text : bytes) : option val :=
  code_value A (decoder_scope ((x, w) :: before) others) text.
(** decode.rs:76-80: [if x != {check_value} {]. Whether the value [v] is turned down. *)
Definition check_code (x text : bytes) : bytes := x ++ txt " != " ++ text.
Definition check_fails (A : arithmetic val) (others : bytes -> option val) (before : list (bytes * val)) (x : bytes) (v : val)
                       (text : bytes) : option bool :=
  truth (code_value A (decoder_scope ((x, v) :: before) others) (check_code x text)).

(** ** Encoder of a struct *)

(** encode.rs:50: the variable a field with [value_encode] is given,
    [let x = &self.x;]. [locals]: the variables of the fields before it. *)
Definition locals := list (bytes * place thing).
Definition struct_scope (self : list (bytes * val)) (others : bytes -> option val) (l : locals) (x : bytes) : option (place thing) :=
  match find (fun xp : bytes * place thing => bytes_eqb x (fst xp)) l with
  | Some (_, p) => Some p
  | None => if bytes_eqb x (txt "self") then Some (Reference (Self_ self)) else option_map Value (held_all others x)
  end.
Definition held_value (p : option (place thing)) : option val :=
  match p with Some p => match target p with Held v => Some v | Self_ _ => None end | None => None end.
(** encode.rs:49-52: [let x = &self.x; let x = {value_encode};]. The variable stays. *)
Definition rewrite_field (A : arithmetic val) (scope : locals -> bytes -> option (place thing)) (l : locals) (x : bytes) (v : val)
                         (text : bytes) : option (place thing) :=
  code_value (with_references (with_self A)) (scope ((x, Reference (Held v)) :: l)) text.
(** What is written for the fields, one after the other: each by its name and its
    [value_encode]. Fields with [with_encode], [skip] and so on, for which no variable is
    made (encode.rs:26-46), are as those without [value_encode]. *)
Fixpoint written (A : arithmetic val) (scope : locals -> bytes -> option (place thing)) (l : locals)
                 (fs : list (bytes * option bytes)) (vs : list val) : option (list val) :=
  match fs, vs with
  | (x, None) :: fs', v :: vs' => option_map (cons v) (written A scope l fs' vs')
  | (x, Some text) :: fs', v :: vs' =>
      match rewrite_field A scope l x v text with
      | Some p =>
          match held_value (Some p), written A scope ((x, p) :: l) fs' vs' with
          | Some w, Some ws => Some (w :: ws)
          | _, _ => None
          end
      | None => None
      end
  | _, _ => Some []
  end.
Definition struct_written (A : arithmetic val) (others : bytes -> option val) (fs : list (bytes * option bytes)) (vs : list val)
  : option (list val) :=
  written A (struct_scope (combine (map fst fs) vs) others) [] fs vs.

(** ** Encoder of a variant

    derive_enum.rs:441-463: every field is a variable from the start, [let x = x;] changes
    nothing. There is [self], but nothing can be asked of it. *)
Definition bound_scope (fields : list (bytes * val)) (others : bytes -> option val) (l : locals) (x : bytes) : option (place thing) :=
  match find (fun xp : bytes * place thing => bytes_eqb x (fst xp)) l with
  | Some (_, p) => Some p
  | None => variant_scope (held fields) (held_all others) x
  end.
Definition variant_written (A : arithmetic val) (others : bytes -> option val) (fs : list (bytes * option bytes)) (vs : list val)
  : option (list val) :=
  written A (bound_scope (combine (map fst fs) vs) others) [] fs vs.

(** ** Numbers in the attributes of later fields

    The code for [length] and so on (parse.rs:85-112) stands among these variables. *)
Definition later_number (A : arithmetic val) (scope : locals -> bytes -> option (place thing)) (l : locals) (code : bytes) : option val :=
  held_value (code_value (with_references (with_self A)) (scope l) code).

(** ** The meaning of these texts for a field called [x], behind the fields [names]

    Used with AttrParse.v. Texts that do not compile mean anything. [value_encode] sees the
    fields before it through [self], and no variables that were left behind. *)
Definition text_meaning (A : arithmetic val) (others : bytes -> option val) (names : list bytes) (x : bytes) (m : meaning) : meaning :=
  let before (en : env) := combine names (ev_fields en) in
  mkmeaning (m_number m) (m_order m)
    (fun text en => match condition A others (before en) text with Some b => b | None => false end)
    (fun text en w =>
       match new_value A others (before en) x w text with
       | Some v => v
       | None => match held_value (rewrite_field A (struct_scope (before en) others) [] x w text) with Some v => v | None => w end
       end)
    (fun text en => match code_value A (decoder_scope (before en) others) text with Some v => v | None => VUnit end)
    (m_literal m) (m_name m) (m_default m) (m_from_str m) (m_decoder m) (m_encoder m).
