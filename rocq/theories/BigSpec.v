(** What a call does on a machine with a given order of bytes in memory, said without
    the models: a [*_ne_*] call is the call of that order. *)
From Verif Require Import Base Ints Reader Writer.

Definition respell (bo : byteorder) (k : endian) : endian :=
  match k with
  | KNe => match bo with Be => KBe | Le => KLe end
  | _ => k
  end.
Definition read_in (bo : byteorder) (o : rop) : rop :=
  match o with
  | RTakeInt k t => RTakeInt (respell bo k) t
  | RTakeU24 k => RTakeU24 (respell bo k)
  | RTakeUint k n => RTakeUint (respell bo k) n
  | RTakeSint k n => RTakeSint (respell bo k) n
  | RTakeF32 k => RTakeF32 (respell bo k)
  | RTakeF64 k => RTakeF64 (respell bo k)
  | RUntakeInt k t => RUntakeInt (respell bo k) t
  | RUntakeU24 k => RUntakeU24 (respell bo k)
  | RUntakeUint k n => RUntakeUint (respell bo k) n
  | RUntakeSint k n => RUntakeSint (respell bo k) n
  | RUntakeF32 k => RUntakeF32 (respell bo k)
  | RUntakeF64 k => RUntakeF64 (respell bo k)
  | o => o
  end.
Definition write_in (bo : byteorder) (o : wop) : wop :=
  match o with
  | WPushInt k t z => WPushInt (respell bo k) t z
  | WPushU24 k v => WPushU24 (respell bo k) v
  | WPushUint k v n => WPushUint (respell bo k) v n
  | WPushSint k z n => WPushSint (respell bo k) z n
  | WPushF32 k v => WPushF32 (respell bo k) v
  | WPushF64 k v => WPushF64 (respell bo k) v
  | o => o
  end.
(** Calls that say which order they mean, or have one by default. *)
Definition portable_read (o : rop) : Prop := forall bo, read_in bo o = o.
Definition portable_write (o : wop) : Prop := forall bo, write_in bo o = o.
