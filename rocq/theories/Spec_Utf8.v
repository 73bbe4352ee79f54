(** UTF-8 (RFC 3629), stated by its bit layout (C67). *)
From Verif Require Import Base.
Local Open Scope N_scope.

(** [utf8_of c b]: the code point c is written as the bytes b: the shortest form, the
    payload bits (a, b, ...: 5, 4 or 3 bits in the first byte, 6 bits in the others)
    tagged 110xxxxx, 1110xxxx, 11110xxx and 10xxxxxx. *)
Inductive utf8_of : N -> list N -> Prop :=
| u_one c : c < 0x80 -> utf8_of c [c]
| u_two a b : a < 2 ^ 5 -> b < 2 ^ 6 -> 0x80 <= a * 2 ^ 6 + b -> utf8_of (a * 2 ^ 6 + b) [0xC0 + a; 0x80 + b]
| u_three a b c : a < 2 ^ 4 -> b < 2 ^ 6 -> c < 2 ^ 6 -> 0x800 <= a * 2 ^ 12 + b * 2 ^ 6 + c ->
    utf8_of (a * 2 ^ 12 + b * 2 ^ 6 + c) [0xE0 + a; 0x80 + b; 0x80 + c]
| u_four a b c d : a < 2 ^ 3 -> b < 2 ^ 6 -> c < 2 ^ 6 -> d < 2 ^ 6 -> 0x10000 <= a * 2 ^ 18 + b * 2 ^ 12 + c * 2 ^ 6 + d < 0x110000 ->
    utf8_of (a * 2 ^ 18 + b * 2 ^ 12 + c * 2 ^ 6 + d) [0xF0 + a; 0x80 + b; 0x80 + c; 0x80 + d].
(** texts *)
Inductive utf8_text : list N -> list N -> Prop :=
| ut_nil : utf8_text [] []
| ut_cons c s b bs : utf8_of c b -> utf8_text s bs -> utf8_text (c :: s) (b ++ bs).
(** a text: every character is a Unicode code point *)
Definition unicode (s : list N) : Prop := Forall (fun c => c < 0x110000) s.
