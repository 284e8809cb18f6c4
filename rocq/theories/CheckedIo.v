(** [std::io::{Read, Write, Seek}] for [Buffer] in a build with overflow checks; see
    CheckedReader.v. [None]: the call panics. *)
From Verif Require Import Base Ints Reader Writer BufIo.

(** [a + b] on [usize] with overflow check. *)
Definition summing {A} (a b : N) (k : N -> option A) : option A :=
  if a + b <? W64 then k (a + b) else None.
(** [a + b] on [isize] with overflow check. *)
Definition summing_signed {A} (a b : Z) (k : Z -> option A) : option A :=
  if (Z.eqb (cast Isize (a + b)) (a + b))%Z then k (a + b)%Z else None.

(** src/buffer.rs:143-156; the subtraction follows the test that makes it safe *)
Definition io_read (n : N) (b : buf) : option (io_out * buf) :=
  let data_len := lenN (b_data b) in
  let position := b_pos b in
  if data_len <=? position then Some (IoRead 0 [], b)
  else
    let nbytes := N.min n (data_len - position) in
    summing position nbytes (fun e =>
    match slice_get (b_data b) position e with
    | Some v => Some (IoRead nbytes v, mkbuf (b_data b) e)
    | None => None
    end).

(** src/buffer.rs:162-174 *)
Definition io_write (v : bytes) (b : buf) : option (io_out * buf) :=
  let buf_len := lenN v in
  let position := b_pos b in
  summing position buf_len (fun e =>
  let resized := if lenN (b_data b) <? e then vec_resize (b_data b) e else Some (b_data b) in
  match resized with
  | None => None
  | Some d =>
      match copy_into d position e v with
      | Some d' => Some (IoWritten buf_len, mkbuf d' e)
      | None => None
      end
  end).

(** src/buffer.rs:184-200 *)
Definition io_seek (w : seek_from) (b : buf) : option (io_out * buf) :=
  let position := b_pos b in
  let go (new_position : Z) :=
    if (new_position <? 0)%Z then Some (IoInvalidInput, b)
    else Some (IoSought position, mkbuf (b_data b) (raw_of_int Usize new_position)) in
  match w with
  | SStart off => go (cast Isize (Z.of_N off))
  | SEnd off => summing_signed (cast Isize (Z.of_N (lenN (b_data b)))) (cast Isize off) go
  | SCurrent off => summing_signed (cast Isize (Z.of_N position)) (cast Isize off) go
  end.

Definition run_io (o : io_op) (b : buf) : option (io_out * buf) :=
  match o with
  | OpRead n => io_read n b
  | OpWrite v => io_write v b
  | OpFlush => io_flush b
  | OpSeek w => io_seek w b
  end.

(** A history of io calls; [None] if one of them panics. *)
Fixpoint run_ios (ops : list io_op) (b : buf) : option (list io_out * buf) :=
  match ops with
  | [] => Some ([], b)
  | o :: os =>
      match run_io o b with
      | Some (r, b') => match run_ios os b' with
                        | Some (rs, b'') => Some (r :: rs, b'')
                        | None => None
                        end
      | None => None
      end
  end.
