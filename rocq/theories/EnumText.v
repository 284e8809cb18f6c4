(** From the declaration of an enum to its schema: the parts of
    derive/src/jbytes/derive_enum.rs that work on the text of attributes and
    discriminants, and the code they generate. *)
From Coq Require Import Ascii String.
From Verif Require Import Base Ints Schema Reader Writer Text Sugar AttrParse.
Close Scope string_scope.

(** ** Which bytes announce a variant *)

(** derive_enum.rs:112-117, 189-196, 263-265: what the decoder does *)
Definition decoder_branching (ca : container_attributes) : branching :=
  if ca_starts_with ca || ca_starts_with_untake ca then
    if ca_starts_with_untake ca then ByPrefixUntake else ByPrefix
  else match ca_take_bytes ca with Some (AUsize n) => ByBytes n | _ => ByTag end.
(** derive_enum.rs:473-497: what the encoder does *)
Definition encoder_branching (ca : container_attributes) : branching :=
  if ca_starts_with ca then ByPrefix
  else if ca_starts_with_untake ca then ByPrefixUntake
  else match ca_take_bytes ca with Some (AUsize n) => ByBytes n | _ => ByTag end.

(** ** Numbers of variants *)

(** [s[s.find(p)? + p.len()..]] *)
Fixpoint after_text (p s : bytes) : option bytes :=
  if starts_with p s then Some (skipn (length p) s)
  else match s with [] => None | _ :: r => after_text p r end.
(** [str::parse::<usize>] *)
Definition parse_number_10 (s : bytes) : option N := from_str_radix 10 (2 ^ 64) s.
(** derive_enum.rs:597-613; [None]: the macro panics *)
Definition number_from (s : bytes) (current : N) : option N :=
  if starts_with (txt "0x") s then from_str_radix 16 (2 ^ 64) (skipn 2 s)
  else match after_text (txt "..=") s with
       | Some r => parse_number_10 r
       | None =>
           match after_text (txt "..") s with
           | Some r => parse_number_10 r
           | None => match after_text ["b"%byte; QUOTE] s with
                     | Some _ => Some current
                     | None => parse_number_10 s
                     end
           end
       end.

(** A variant: its attributes, name in lower case, the literal of its discriminant. *)
Record variant_decl := mkvariant {
  d_attrs : list attribute; d_name : bytes; d_disc : option bytes }.
Definition raw (c : option content) : option bytes := match c with Some (Raw s) => Some s | _ => None end.
(** derive_enum.rs:584-595 *)
Definition number_text (fa : field_attributes) (disc : option bytes) : option bytes :=
  match disc with
  | Some s => Some s
  | None => match raw (member fa SBranchRange) with
            | Some s => Some s
            | None => raw (member fa SBranchValue)
            end
  end.
(** derive_enum.rs:579-622, [EnumVariantIterator]; [None]: an attribute is refused or
    the macro panics. The sum is taken as unbounded: past 2^64 the macro panics. *)
Fixpoint variant_numbers (current : N) (ds : list variant_decl) : option (list N) :=
  match ds with
  | [] => Some []
  | d :: r =>
      match attributes_of (d_attrs d) with
      | None => None
      | Some fa =>
          match (match number_text fa (d_disc d) with Some s => number_from s current | None => Some current end) with
          | None => None
          | Some n => option_map (cons n) (variant_numbers (n + 1) r)
          end
      end
  end.

(** ** The arms of the generated [match] *)
Inductive arm :=
| ArmAny                                 (* _ *)
| ArmBits (mask want : bytes)            (* value if (value & mask) == want *)
| ArmPattern (s : bytes)                 (* text pasted as a pattern *)
| ArmNumber (n : N).                     (* the variant's number *)
(** derive_enum.rs:308-335 *)
Definition arm_of (fa : field_attributes) (n : N) : arm :=
  if given_flag (member fa SBranchDefault) then ArmAny
  else match raw (member fa SBranchBits) with
       | Some mask => ArmBits mask (match raw (member fa SBranchBitsValue) with Some w => w | None => mask end)
       | None =>
           match raw (member fa SBranchValue) with
           | Some s => ArmPattern s
           | None => match raw (member fa SBranchRange) with
                     | Some s => ArmPattern s
                     | None => ArmNumber n
                     end
           end
       end.

(** What rustc makes of the pasted text. [p_matches]: as a pattern for a [usize];
    [p_number]: as an expression of type [usize]; [p_bytes]: as a byte string. *)
Record patterns := mkpatterns {
  p_matches : bytes -> N -> bool;
  p_number : bytes -> N;
  p_bytes : bytes -> bytes }.
Definition arm_takes (pm : patterns) (a : arm) (tag : N) : bool :=
  match a with
  | ArmAny => true
  | ArmBits mask want => N.land tag (p_number pm mask) =? p_number pm want
  | ArmPattern s => p_matches pm s tag
  | ArmNumber n => tag =? n
  end.

(** The same for a [match] on bytes ([branch_take_bytes]); [None]: numbers are no
    patterns for bytes, the code does not compile. *)
Definition arm_takes_bytes (pm : patterns) (a : arm) (value : bytes) : option bool :=
  match a with
  | ArmAny => Some true
  | ArmPattern s => match s with "b"%byte :: _ => Some (bytes_eqb value (p_bytes pm s)) | _ => None end
  | _ => None
  end.

(** ** The chain of conditions for [branch_starts_with] *)
Inductive condition :=
| If (s : bytes)                         (* if data.starts_with(s) *)
| ElseIf (s : bytes)                     (* else if data.starts_with(s) *)
| Else.
(** derive_enum.rs:166-187; the name is made a byte string literal *)
Definition condition_of (d : variant_decl) (fa : field_attributes) (n : N) : condition :=
  if given_flag (member fa SBranchDefault) then Else
  else match raw (member fa SBranchValue) with
       | Some s => if n =? 0 then If s else ElseIf s
       | None => ElseIf ("b"%byte :: QUOTE :: d_name d ++ [QUOTE])
       end.
(** derive_enum.rs:163-218; [None]: the macro panics or an attribute is refused *)
Fixpoint conditions (current : N) (ds : list variant_decl) : option (list condition) :=
  match ds with
  | [] => Some []
  | d :: r =>
      match attributes_of (d_attrs d) with
      | None => None
      | Some fa =>
          match (match number_text fa (d_disc d) with Some s => number_from s current | None => Some current end) with
          | None => None
          | Some n => option_map (cons (condition_of d fa n)) (conditions (n + 1) r)
          end
      end
  end.
(** The last [else] is added where no variant is the default one. *)
Definition closed (l : list condition) : list condition :=
  if existsb (fun c => match c with Else => true | _ => false end) l then l else l ++ [Else].
(** Rust's grammar: [if] first, [else if] in between, one [else] last. *)
Fixpoint else_ifs (l : list condition) : bool :=
  match l with
  | [Else] => true
  | ElseIf _ :: r => else_ifs r
  | _ => false
  end.
Definition grammatical (l : list condition) : bool :=
  match l with If _ :: r => else_ifs r | _ => false end.
(** The condition that holds first. *)
Fixpoint chain_takes (pm : patterns) (data : bytes) (l : list condition) : option nat :=
  match l with
  | [] => None
  | Else :: _ => Some O
  | (If s | ElseIf s) :: r => if starts_with (p_bytes pm s) data then Some O else option_map S (chain_takes pm data r)
  end.
