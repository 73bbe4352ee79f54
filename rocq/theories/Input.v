(** Input clean-up: /repo/src/input.rs:17-64. *)
From Verif Require Import Base Value.

(** input.rs:18-24 [validate]: a line ending in a backslash is continued *)
Definition needs_more (input : str) : bool :=
  match rev input with 92%N :: _ => true | _ => false end.

(** input.rs:30-40: one line up to an unquoted '#' *)
Fixpoint strip_line (in_string : bool) (l : str) : str :=
  match l with
  | [] => []
  | c :: l' =>
    if (c =? 34)%N then c :: strip_line (negb in_string) l'
    else if (c =? 35)%N && negb in_string then []
    else c :: strip_line in_string l'
  end.

(** input.rs:27-50; [stripped.pop()] removes the last space, if any *)
Definition strip_comments (input : str) : str :=
  removelast (flat_map (fun l => strip_line false l ++ [32%N]) (lines input)).

(** [str::replace("\\\n", " ")]: leftmost, non-overlapping *)
Fixpoint replace_continuation (s : str) : str :=
  match s with
  | 92%N :: ((10%N :: r) as t) => 32%N :: replace_continuation r
  | c :: r => c :: replace_continuation r
  | [] => []
  end.

(** [char::is_whitespace] (Unicode White_Space) *)
Definition is_whitespace (c : N) : bool :=
  (((9 <=? c) && (c <=? 13)) || (c =? 32) || (c =? 133) || (c =? 160) || (c =? 5760)
   || ((8192 <=? c) && (c <=? 8202)) || (c =? 8232) || (c =? 8233) || (c =? 8239)
   || (c =? 8287) || (c =? 12288))%N.

Fixpoint drop_ws (s : str) : str :=
  match s with c :: r => if is_whitespace c then drop_ws r else s | [] => [] end.
(** [str::trim_end] *)
Definition trim_end (s : str) : str := rev (drop_ws (rev s)).
(** [str::ends_with(c)] *)
Definition ends_with (c : N) (s : str) : bool :=
  match rev s with d :: _ => N.eqb d c | [] => false end.

(** input.rs:57-64 *)
Definition fixup_input (input : str) : str :=
  let ret := replace_continuation input in
  if ends_with 59 (trim_end ret) then ret else ret ++ [59%N].
