(** The text of an error: [Display] of src/errors.rs. *)
From Coq Require Import String.
From Verif Require Import Base Ints Text.
Close Scope string_scope.

(** src/errors.rs:44-58: [ErrorKind], with the text that [InvalidValue] carries and
    that [ekind] of Base.v leaves out *)
Inductive error_kind :=
| KindByteLength
| KindSubSequence
| KindFail
| KindPosition (p : N)
| KindPushFail
| KindValue (shown : bytes).

(** The [#[error("...")]] attributes of src/errors.rs:46-57; [thiserror] makes
    [Display] out of them *)
Definition show_kind (k : error_kind) : bytes :=
  match k with
  | KindByteLength => list_byte_of_string "invalid byte length"
  | KindSubSequence => list_byte_of_string "find subsequence failure"
  | KindFail => list_byte_of_string "parse byte failure"
  | KindPosition p => list_byte_of_string "invalid position (" ++ show_usize p ++ list_byte_of_string ")"
  | KindPushFail => list_byte_of_string "invalid buffer memory"
  | KindValue s => list_byte_of_string "invalid value (" ++ s ++ list_byte_of_string ")"
  end.
(** src/errors.rs:25-29: [write!(f, "[ERROR]: {}, position: {}", self.code, self.position)] *)
Definition show_error (position : N) (k : error_kind) : bytes :=
  list_byte_of_string "[ERROR]: " ++ show_kind k ++ list_byte_of_string ", position: " ++ show_usize position.
