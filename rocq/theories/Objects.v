(** Several [Buffer]s and [Bytes] at once, as they lie in memory: each has a vector of
    bytes, its own or borrowed, and a [Cell<usize>] with the position (src/buffer.rs:38-42,
    src/bytes.rs:22-26). *)
From Verif Require Import Base Ints Reader Writer BufIo ReadAny Schema Decode Encode BufferCalls.

(** Where the vector and the cell are; [o_view]: a [Bytes] that borrows the vector of
    another object; [o_live] is false once the compiler no longer lets a view be used. *)
Record object := mkobject { o_vec : nat; o_cell : nat; o_view : bool; o_live : bool }.
Record memory := mkmemory { m_vecs : list bytes; m_cells : list N; m_objects : list object }.
Definition nothing_yet : memory := mkmemory [] [] [].

Definition put {A} (l : list A) (i : nat) (x : A) : list A := firstn i l ++ x :: skipn (S i) l.

Inductive step :=
| New (l : bytes)               (* [Buffer::from(l)], [Bytes::new(l)] for an owned [l]; with [] [Buffer::new()] *)
| Clone (i : nat)               (* [buffer.clone()] *)
| View (i : nat)                (* [buffer.to_bytes()], [Bytes::new(x.get_data())] *)
| Do (i : nat) (c : buffer_call).

(** The calls that need [&mut self]: writing, all of std::io, and [take_byteorder_array]
    (src/buf_traits.rs:65, 1352-1993, src/buffer.rs:141-201). *)
Definition exclusive (c : buffer_call) : bool :=
  match c with
  | BRead (CRead (RTakeOrderArray _ _)) => true
  | BRead _ | BDecode _ => false
  | BPush _ | BIo _ | BEncode _ _ => true
  end.
(** [Bytes] has the calls of [BufRead] only (src/bytes.rs:47-75). *)
Definition for_bytes (c : buffer_call) : bool := match c with BRead _ | BDecode _ => true | _ => false end.

(** An exclusive use of a vector ends the life of the views on it. *)
Definition expire (v : nat) (o : object) : object :=
  mkobject (o_vec o) (o_cell o) (o_view o) (o_live o && negb (o_view o && Nat.eqb (o_vec o) v)).

(** [None]: the compiler refuses it, or it panics. *)
Definition perform (s : step) (m : memory) : option (option buffer_answer * memory) :=
  match s with
  | New l =>          (* src/buffer.rs:48-53, 74-76, src/bytes.rs:31-34 *)
      Some (None, mkmemory (m_vecs m ++ [l]) (m_cells m ++ [0])
                    (m_objects m ++ [mkobject (length (m_vecs m)) (length (m_cells m)) false true]))
  | Clone i =>        (* src/buffer.rs:38, the derived [Clone]: of the [Vec] and of the [Cell] *)
      match nth_error (m_objects m) i with
      | Some o =>
          if o_view o then None else
          match nth_error (m_vecs m) (o_vec o), nth_error (m_cells m) (o_cell o) with
          | Some l, Some p =>
              Some (None, mkmemory (m_vecs m ++ [l]) (m_cells m ++ [p])
                            (m_objects m ++ [mkobject (length (m_vecs m)) (length (m_cells m)) false true]))
          | _, _ => None
          end
      | None => None
      end
  | View i =>         (* src/buffer.rs:57-63 with src/bytes.rs:31-34 *)
      match nth_error (m_objects m) i with
      | Some o =>
          if o_live o then
            Some (None, mkmemory (m_vecs m) (m_cells m ++ [0])
                          (m_objects m ++ [mkobject (o_vec o) (length (m_cells m)) true true]))
          else None
      | None => None
      end
  | Do i c =>         (* BufferCalls.v; what is behind [self] is read, and written back *)
      match nth_error (m_objects m) i with
      | Some o =>
          if o_live o && (negb (o_view o) || for_bytes c) then
            match nth_error (m_vecs m) (o_vec o), nth_error (m_cells m) (o_cell o) with
            | Some l, Some p =>
                match on_buffer_call c (mkbuf l p) with
                | Some (a, b) =>
                    let ends := exclusive c && negb (o_view o) in
                    Some (Some a,
                          mkmemory (if ends then put (m_vecs m) (o_vec o) (b_data b) else m_vecs m)
                                   (put (m_cells m) (o_cell o) (b_pos b))
                                   (if ends then map (expire (o_vec o)) (m_objects m) else m_objects m))
                | None => None
                end
            | _, _ => None
            end
          else None
      | None => None
      end
  end.
(** A program: what it did, with the answers. *)
Fixpoint perform_all (ss : list step) (m : memory) : option (list (option buffer_answer) * memory) :=
  match ss with
  | [] => Some ([], m)
  | s :: r =>
      match perform s m with
      | Some (a, m') => match perform_all r m' with Some (l, m'') => Some (a :: l, m'') | None => None end
      | None => None
      end
  end.

(** The derived [PartialEq] of [Buffer] (src/buffer.rs:38): the vectors, then the cells *)
Definition buffer_eq (b b' : buf) : bool := bytes_eqb (b_data b) (b_data b') && (b_pos b =? b_pos b').
