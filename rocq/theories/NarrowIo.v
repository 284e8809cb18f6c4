(** [std::io::{Read, Write, Seek}] for [Buffer] in a program for a 32-bit target; see
    NarrowReader.v. *)
From Verif Require Import Base Ints Reader Writer BufIo NarrowReader NarrowWriter.

(** src/buffer.rs:143-156; [n] is [buf.len()] of the caller's buffer *)
Definition io_read (n : N) (b : buf) : option (io_out * buf) :=
  let data_len := lenN (b_data b) in
  let position := b_pos b in
  if data_len <=? position then Some (IoRead 0 [], b)
  else
    let nbytes := N.min n (data_len - position) in
    match slice_get (b_data b) position (wadd position nbytes) with
    | Some v => Some (IoRead nbytes v, mkbuf (b_data b) (wadd position nbytes))
    | None => None
    end.

(** src/buffer.rs:162-174 *)
Definition io_write (v : bytes) (b : buf) : option (io_out * buf) :=
  let buf_len := lenN v in
  let position := b_pos b in
  let resized := if lenN (b_data b) <? wadd position buf_len
                 then vec_resize (b_data b) (wadd position buf_len)
                 else Some (b_data b) in
  match resized with
  | None => None
  | Some d =>
      match copy_into d position (wadd position buf_len) v with
      | Some d' => Some (IoWritten buf_len, mkbuf d' (wadd position buf_len))
      | None => None
      end
  end.

(** src/buffer.rs:184-200; [as isize] wraps, the additions wrap; the value
    returned is [position], read before the move *)
Definition io_seek (w : seek_from) (b : buf) : option (io_out * buf) :=
  let position := b_pos b in
  let new_position : Z :=
    match w with
    | SStart off => cast I32 (Z.of_N off)
    | SEnd off => cast I32 (cast I32 (Z.of_N (lenN (b_data b))) + cast I32 off)
    | SCurrent off => cast I32 (cast I32 (Z.of_N position) + cast I32 off)
    end in
  if (new_position <? 0)%Z then Some (IoInvalidInput, b)
  else Some (IoSought position, mkbuf (b_data b) (raw_of_int U32 new_position)).

Definition run_io (o : io_op) (b : buf) : option (io_out * buf) :=
  match o with
  | OpRead n => io_read n b
  | OpWrite v => io_write v b
  | OpFlush => io_flush b
  | OpSeek w => io_seek w b
  end.

(** A history of io calls; [None] if one of them panics. *)
Fixpoint run_ios (ops : list io_op) (b : buf) : option (list io_out * buf) :=
  match ops with
  | [] => Some ([], b)
  | o :: os =>
      match run_io o b with
      | Some (r, b') => match run_ios os b' with
                        | Some (rs, b'') => Some (r :: rs, b'')
                        | None => None
                        end
      | None => None
      end
  end.
