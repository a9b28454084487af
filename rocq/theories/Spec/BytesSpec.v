(** The bytes of files, for C109. *)
Require Import Coq.Lists.List Coq.NArith.NArith.
Require Import Verif.Model.Base Verif.Model.Text.
Import ListNotations.
Local Open Scope N_scope.

(** UTF-8: scalar values in one to four bytes, six bits in each byte but the first, and no more
    bytes than needed. *)
Inductive utf8_bytes : N -> list N -> Prop :=
| one_byte c : c < 128 -> utf8_bytes c [c]
| two_bytes a b : a < 32 -> b < 64 -> 128 <= a * 64 + b -> utf8_bytes (a * 64 + b) [192 + a; 128 + b]
| three_bytes a b c : a < 16 -> b < 64 -> c < 64 -> 2048 <= a * 4096 + b * 64 + c ->
    ~ (55296 <= a * 4096 + b * 64 + c <= 57343) -> utf8_bytes (a * 4096 + b * 64 + c) [224 + a; 128 + b; 128 + c]
| four_bytes a b c d : b < 64 -> c < 64 -> d < 64 -> 65536 <= a * 262144 + b * 4096 + c * 64 + d <= 1114111 ->
    utf8_bytes (a * 262144 + b * 4096 + c * 64 + d) [240 + a; 128 + b; 128 + c; 128 + d].
Inductive utf8 : str -> list N -> Prop :=
| utf8_nil : utf8 [] []
| utf8_cons c s b r : utf8_bytes c b -> utf8 s r -> utf8 (c :: s) (b ++ r).
