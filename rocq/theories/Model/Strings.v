(** Control-character-free strings.  src/string.rs. *)
Require Import Coq.Lists.List Coq.NArith.NArith Coq.Bool.Bool.
Require Import Verif.Model.Base Verif.Model.Text.
Import ListNotations.

(** `s.chars().find_position(p)` (itertools): position counted in characters.
    src/string.rs L25. *)
Fixpoint find_position (f : N -> bool) (s : str) : option (nat * N) :=
  match s with
  | [] => None
  | c :: t =>
      if f c then Some (0, c)
      else match find_position f t with
           | Some (i, d) => Some (S i, d)
           | None => None
           end
  end.

(** src/string.rs L22-31 (and L33-38, L65-70 which only copy the string first). *)
Definition glif_string (s : str) : res str :=
  match find_position is_ascii_control s with
  | Some (i, c) => Err (EControlChar i c)
  | None => Ok s
  end.

(** src/string.rs L40-50 *)
Definition glif_string_len_one (s : str) : res str :=
  let* gs := glif_string s in
  match gs with [] => Err EStrLenZero | _ => Ok gs end.

(** `String::remove(i)`: i is a byte position; panics if it is not on a character boundary or
    is at the end.
    src/string.rs L59. *)
Fixpoint remove_byte (i : nat) (s : str) : res str :=
  match s with
  | [] => Panic
  | c :: t =>
      match i with
      | 0 => Ok t
      | _ => if Nat.leb (utf8_len c) i
             then let* t' := remove_byte (i - utf8_len c) t in Ok (c :: t')
             else Panic
      end
  end.

(** src/string.rs L57-62: the loop removes one character per round, so the length of the
    string bounds the number of rounds; [None] would mean the bound is exceeded. *)
Fixpoint to_glif_string_loop (fuel : nat) (s : str) : option (res str) :=
  match glif_string s with
  | Err (EControlChar i _) =>
      match remove_byte i s with
      | Ok s' => match fuel with
                 | O => None
                 | S f => to_glif_string_loop f s'
                 end
      | Err e => Some (Err e)
      | Panic => Some Panic
      end
  | r => Some r
  end.
(** src/string.rs L56-63. *)
Definition to_glif_string (s : str) : option (res str) := to_glif_string_loop (length s) s.
