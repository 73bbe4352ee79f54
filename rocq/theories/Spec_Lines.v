(** Scripts and the lines of an interactive session (C91). *)
From Verif Require Import Base Ast Pom Parse Value Variables Semantics Fs Eval Runtime Input Main Spec_Grammar Spec_Input Spec_Echo.
Arguments s_ s%string_scope.
Local Notation program := (g_program unambiguous_start).
(** white space and a comment *)
Definition only_comment (line : str) : Prop :=
  ~ In 10%N line /\ exists w c, line = w ++ c /\ ws w /\ (c = [] \/ exists t, c = s_ "#" ++ t).
(** the code of one line: the line without its comment (lines with both a # and a quote after a
    backslash are left out, see C42) *)
Definition code_of (line code : str) : Prop :=
  commented line code /\ ~ escaped_quote line \/ line = code /\ ~ In 35%N line.
(** [covers ls ts]: the script lines ls, cut into groups of consecutive lines, and one line of ts for
    each group: it has the same code, joined by blanks, and that code is a (possibly empty) program *)
Inductive covers : list str -> list str -> Prop :=
| cv_nil : covers [] []
| cv_group ls t ks p ls' ts' :
    ls <> [] -> Forall2 code_of ls ks -> ~ In 10%N t -> code_of t (spaced ks) -> program (spaced ks) p ->
    covers ls' ts' -> covers (ls ++ ls') (t :: ts').
(** [typed n E r ts r' q]: someone types the lines ts one by one, as far as they succeed; lines without
    code are typed or not, they do nothing.  q is the result of the last line *)
Inductive typed (n : nat) (E : env) : rt -> list str -> rt -> eres -> Prop :=
| ty_end r : typed n E r [] r ROk
| ty_blank r t ts r' q : only_comment t -> rt_eval n E true r (clean t) = (r, RErr EParse) -> typed n E r ts r' q -> typed n E r (t :: ts) r' q
| ty_line r t ts r1 r' q : ~ only_comment t -> rt_eval n E true r (clean t) = (r1, ROk) -> typed n E r1 ts r' q -> typed n E r (t :: ts) r' q
| ty_stop r t ts r' q : ~ only_comment t -> rt_eval n E true r (clean t) = (r', q) -> q <> ROk -> typed n E r (t :: ts) r' q.
(** same variables, same mounted filesystem, and the same interactions and output up to additional
    writes (the echoes of the interactive mode) *)
Record same_but_echo (e e' : est) : Prop := mk_same {
  same_vars : e_vars e' = e_vars e;
  same_fs : e_fs e' = e_fs e;
  same_world : echoed (e_w e) (e_w e')
}.
