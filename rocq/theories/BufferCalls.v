(** All that can be done with one [Buffer] (src/buffer.rs): the calls of [BufRead],
    [BufWrite], [io::Read], [io::Write] and [io::Seek], and encoding into it and decoding
    from it. *)
From Verif Require Import Base Ints Reader Writer BufIo ReadAny Schema Decode Encode.

Inductive buffer_call :=
| BRead (c : call)              (* src/buffer.rs:96-121, src/buf_traits.rs:11-1349 *)
| BPush (o : wop)               (* src/buffer.rs:124-138, src/buf_traits.rs:1352-1993 *)
| BIo (o : io_op)               (* src/buffer.rs:141-201 *)
| BEncode (t : ty) (v : val)    (* [v.encode(&mut buffer)], src/encode/mod.rs:82-85 *)
| BDecode (t : ty).             (* [T::decode(&buffer)], src/decode/mod.rs:97-103 *)
Inductive buffer_answer :=
| BAnswer (a : answer)
| BWritten (r : N + error)
| BIoDone (r : io_out)
| BDecoded (r : val + error).

(** [None]: a panic. *)
Definition on_buffer_call (c : buffer_call) (b : buf) : option (buffer_answer * buf) :=
  match c with
  | BRead c => match on_bytes c (b_data b) (b_pos b) with
               | Some (a, q) => Some (BAnswer a, mkbuf (b_data b) q) | None => None end
  | BPush o => match attempt (run_wop o b) with Some (r, b') => Some (BWritten r, b') | None => None end
  | BIo o => match run_io o b with Some (r, b') => Some (BIoDone r, b') | None => None end
  | BEncode t v => match attempt (encode_into t v b) with Some (r, b') => Some (BWritten r, b') | None => None end
  | BDecode t => match attempt (decode t (b_data b) (b_pos b)) with
                 | Some (r, q) => Some (BDecoded r, mkbuf (b_data b) q) | None => None end
  end.

(** Any program that does such things and decides what to do next by the answers. *)
Inductive user (A : Type) :=
| Finish (a : A)
| Use (c : buffer_call) (next : buffer_answer -> user A).
Arguments Finish {A}.
Arguments Use {A}.
Fixpoint run_user {A} (u : user A) (b : buf) : option (A * buf) :=
  match u with
  | Finish a => Some (a, b)
  | Use c k => match on_buffer_call c b with Some (a, b') => run_user (k a) b' | None => None end
  end.
