(** What an implementor of [BufWrite] or [BufWriteMut] promises: it holds contents and a
    position in them. [limit] is the size up to which it keeps its word. *)
From Verif Require Import Base Ints Reader Writer ReadMut WriteMut Spec SpecOps.

Record writer {S : Type} (W : wimpl S) (contents : S -> bytes) (position : S -> N) (limit : N) : Prop := {
  tells_position : forall s, im_position (wi_reader W) s = position s;
  rest_to_read : forall s, im_remaining (wi_reader W) s = skipn (N.to_nat (position s)) (contents s);
  rest_to_write : forall s, position s <= size (contents s) ->
    wi_remaining_mut W s = Some (skipn (N.to_nat (position s)) (contents s));
  (** Storing into the slice changes the rest of the contents. *)
  stores : forall s l, position s + size l = size (contents s) ->
    position (wi_store W s l) = position s
    /\ contents (wi_store W s l) = firstn (N.to_nat (position s)) (contents s) ++ l;
  moves : forall s n, position s + n <= size (contents s) -> position s + n < limit ->
    exists s', im_advance (wi_reader W) s n = Some s' /\ position s' = position s + n /\ contents s' = contents s;
  (** [resize(n)] makes room for [n] bytes, or changes nothing and returns 0. *)
  grows : forall s n, position s <= size (contents s) -> position s + n < limit -> size (contents s) < position s + n ->
    exists k s' added, wi_resize W s n = Some (k, s') /\ position s' = position s /\ contents s' = contents s ++ added
      /\ (k = 0 -> added = []) /\ (k <> 0 -> position s + n <= size (contents s'))
}.

(** ** Histories *)

(** How the call answered: the number of bytes pushed, or why not. *)
Definition answer (o : wop) (r : N + error) : Prop :=
  match r with
  | inl n => exists l, image o = Some l /\ n = size l
  | inr e => e_kind e = match image o with None => InvalidByteLength | Some _ => PushFail end
  end.
(** The bytes of the calls that were not refused. *)
Definition accepted (r : N + error) : bool := match r with inl _ => true | inr _ => false end.
Definition taken (ops : list wop) (outs : list (N + error)) : bytes :=
  concat (map (fun x => if accepted (snd x) then image_or_nothing (fst x) else []) (combine ops outs)).
