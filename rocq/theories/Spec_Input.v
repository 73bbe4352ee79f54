(** What cleaning the input should do. *)
From Verif Require Import Base Ast Spec_Grammar.
Arguments s_ s%string_scope.

(** the inside of a string literal: ordinary characters, and a backslash followed by any character *)
Inductive lit_body : str -> Prop :=
| lb_nil : lit_body []
| lb_char c b : c <> 34%N -> c <> 92%N -> lit_body b -> lit_body (c :: b)
| lb_escape c b : lit_body b -> lit_body (92%N :: c :: b).
(** [commented line code]: a line consists of characters other than quote and #, and string
    literals, then possibly a comment; code is the line without the comment *)
Inductive commented : str -> str -> Prop :=
| cm_end : commented [] []
| cm_comment t : commented (s_ "#" ++ t) []
| cm_char c l l' : c <> 34%N -> c <> 35%N -> commented l l' -> commented (c :: l) (c :: l')
| cm_string body l l' : lit_body body -> commented l l' ->
    commented ([34%N] ++ body ++ [34%N] ++ l) ([34%N] ++ body ++ [34%N] ++ l').
(** a quote preceded by a backslash *)
Definition escaped_quote (l : str) : Prop := exists a b, l = a ++ [92; 34]%N ++ b.
(** a text with the given lines: each ends with a line feed, possibly after a carriage return;
    the last line break may be missing *)
Inductive has_lines : str -> list str -> Prop :=
| hl_none : has_lines [] []
| hl_last l : l <> [] -> ~ In 10%N l -> has_lines l [l]
| hl_line l eol t ls : ~ In 10%N l -> (eol = [10%N] -> forall l', l <> l' ++ [13%N]) -> eol = [10%N] \/ eol = [13; 10]%N -> has_lines t ls ->
    has_lines (l ++ eol ++ t) (l :: ls).
(** joined by single blanks *)
Fixpoint spaced (ls : list str) : str :=
  match ls with
  | [] => []
  | [l] => l
  | l :: ls' => l ++ [32%N] ++ spaced ls'
  end.

(** Unicode white space *)
Definition white (c : N) : Prop :=
  (9 <= c <= 13 \/ c = 32 \/ c = 133 \/ c = 160 \/ c = 5760 \/ 8192 <= c <= 8202 \/ c = 8232 \/ c = 8233 \/ c = 8239 \/ c = 8287 \/ c = 12288)%N.
Definition ends_with_semicolon (s : str) : Prop := exists a b, s = a ++ s_ ";" ++ b /\ Forall white b.
(** [unfolded s t]: t is s with every backslash followed by a line feed replaced by a blank *)
Inductive unfolded : str -> str -> Prop :=
| uf_nil : unfolded [] []
| uf_cont s t : unfolded s t -> unfolded (92 :: 10 :: s)%N (32%N :: t)
| uf_char c s t : (c = 92%N -> forall s', s <> 10%N :: s') -> unfolded s t -> unfolded (c :: s) (c :: t).
(** a backslash followed by a line feed *)
Definition continued (s : str) : Prop := exists a b, s = a ++ [92; 10]%N ++ b.
