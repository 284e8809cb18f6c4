(** [std::io::{Read, Write, Seek}] for [Buffer] (src/buffer.rs:141-201). *)
From Verif Require Import Base Ints Reader Writer.

(** [std::io::SeekFrom]: [Start(u64)], [End(i64)], [Current(i64)]. *)
Inductive seek_from := SStart (off : N) | SEnd (off : Z) | SCurrent (off : Z).

(** Results of io calls: [Ok n] of read together with the bytes copied into the
    caller's buffer, [Ok n] of write, [Ok n] of seek, [Ok(())] of flush, and
    [Err(InvalidInput)]. *)
Inductive io_out :=
| IoRead (n : N) (copied : bytes)
| IoWritten (n : N)
| IoSought (n : N)
| IoFlushed
| IoInvalidInput.

(** src/buffer.rs:143-156; [n] is [buf.len()] of the caller's buffer *)
Definition io_read (n : N) (b : buf) : option (io_out * buf) :=
  let data_len := lenN (b_data b) in
  let position := b_pos b in
  if data_len <=? position then Some (IoRead 0 [], b)
  else
    let nbytes := N.min n (data_len - position) in
    match slice_get (b_data b) position (wadd position nbytes) with
    | Some v => Some (IoRead nbytes v, mkbuf (b_data b) (wadd position nbytes))
    | None => None
    end.

(** [data[a..b].copy_from_slice(v)]: panics when out of range or when the lengths
    differ *)
Definition copy_into (d : bytes) (a b : N) (v : bytes) : option bytes :=
  match slice_get d a b with
  | Some old => if lenN old =? lenN v
                then Some (firstn (N.to_nat a) d ++ v ++ skipn (N.to_nat b) d)
                else None
  | None => None
  end.

(** src/buffer.rs:162-174 *)
Definition io_write (v : bytes) (b : buf) : option (io_out * buf) :=
  let buf_len := lenN v in
  let position := b_pos b in
  let resized := if lenN (b_data b) <? wadd position buf_len
                 then vec_resize (b_data b) (wadd position buf_len)
                 else Some (b_data b) in
  match resized with
  | None => None
  | Some d =>
      match copy_into d position (wadd position buf_len) v with
      | Some d' => Some (IoWritten buf_len, mkbuf d' (wadd position buf_len))
      | None => None
      end
  end.

(** src/buffer.rs:176-178 *)
Definition io_flush (b : buf) : option (io_out * buf) := Some (IoFlushed, b).

(** src/buffer.rs:184-200; [as isize] wraps, the additions wrap; the value
    returned is [position], read before the move *)
Definition io_seek (w : seek_from) (b : buf) : option (io_out * buf) :=
  let position := b_pos b in
  let new_position : Z :=
    match w with
    | SStart off => cast Isize (Z.of_N off)
    | SEnd off => cast Isize (cast Isize (Z.of_N (lenN (b_data b))) + cast Isize off)
    | SCurrent off => cast Isize (cast Isize (Z.of_N position) + cast Isize off)
    end in
  if (new_position <? 0)%Z then Some (IoInvalidInput, b)
  else Some (IoSought position, mkbuf (b_data b) (raw_of_int Usize new_position)).

Inductive io_op := OpRead (n : N) | OpWrite (v : bytes) | OpFlush | OpSeek (w : seek_from).

Definition run_io (o : io_op) (b : buf) : option (io_out * buf) :=
  match o with
  | OpRead n => io_read n b
  | OpWrite v => io_write v b
  | OpFlush => io_flush b
  | OpSeek w => io_seek w b
  end.

(** A history of io calls; [None] if one of them panics. *)
Fixpoint run_ios (ops : list io_op) (b : buf) : option (list io_out * buf) :=
  match ops with
  | [] => Some ([], b)
  | o :: os =>
      match run_io o b with
      | Some (r, b') => match run_ios os b' with
                        | Some (rs, b'') => Some (r :: rs, b'')
                        | None => None
                        end
      | None => None
      end
  end.
