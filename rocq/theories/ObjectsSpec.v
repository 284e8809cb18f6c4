(** Several buffers and views: what each of them would do if it were alone. *)
From Verif Require Import Base Ints Reader Writer BufIo ReadAny Schema BufferCalls Objects.

(** Calls on one buffer, one after the other; [None] if one of them panics. *)
Fixpoint alone (cs : list buffer_call) (b : buf) : option (list buffer_answer * buf) :=
  match cs with
  | [] => Some ([], b)
  | c :: r =>
      match on_buffer_call c b with
      | Some (a, b') => match alone r b' with Some (l, b'') => Some (a :: l, b'') | None => None end
      | None => None
      end
  end.

(** The calls on one object among the steps of a program, and the answers to them. *)
Fixpoint calls_on (i : nat) (ss : list step) : list buffer_call :=
  match ss with
  | [] => []
  | Do j c :: r => if Nat.eqb i j then c :: calls_on i r else calls_on i r
  | _ :: r => calls_on i r
  end.
Fixpoint answers_to (i : nat) (ss : list step) (l : list (option buffer_answer)) : list buffer_answer :=
  match ss, l with
  | Do j _ :: r, Some a :: l' => if Nat.eqb i j then a :: answers_to i r l' else answers_to i r l'
  | _ :: r, _ :: l' => answers_to i r l'
  | _, _ => []
  end.

(** What the memory holds for an object: its bytes and its position. *)
Definition holds (m : memory) (i : nat) (b : buf) : Prop :=
  exists o, nth_error (m_objects m) i = Some o /\ o_live o = true /\
    nth_error (m_vecs m) (o_vec o) = Some (b_data b) /\ nth_error (m_cells m) (o_cell o) = Some (b_pos b).
(** Memories a program can bring about. *)
Definition arises (m : memory) : Prop := exists ss l, perform_all ss nothing_yet = Some (l, m).
(** The calls whose signatures say [&mut self] (src/buf_traits.rs:65, 1352-1993, src/buffer.rs:141-201). *)
Inductive takes_mut : buffer_call -> Prop :=
| TakesPush w : takes_mut (BPush w)
| TakesIo c : takes_mut (BIo c)
| TakesEncode d v : takes_mut (BEncode d v)
| TakesArray n o : takes_mut (BRead (CRead (RTakeOrderArray n o))).
