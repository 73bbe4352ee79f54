(** C94: how deep the calls nest. *)
From Verif Require Import Base Ast Pom Parse Value Variables Semantics Fs Eval Runtime Lib Demo Spec_Grammar Spec_Render Proof_Parse Proof_Complete3 Proof_Render Spec_Depth Proof_Depth.
Require Import Lia.
Arguments s_ s%string_scope.

(** The tree of a program is at most as deep as its text is long, and has at most twice as many nodes. *)
Theorem C94_trees_are_no_bigger_than_texts :
  forall c p, parse c = Ok p -> depth p <= length c /\ nodes p <= 2 * length c.
Proof. exact parse_small. Qed.
Print Assumptions C94_trees_are_no_bigger_than_texts.

(** The first bound is exact: for every n there is a command of n characters with n levels, and it
    is accepted and executed to the end in every session (so nothing but the memory for its stack
    keeps the debugger from nesting n calls). *)
Theorem C94_every_depth_occurs :
  forall n, 2 <= n -> exists c p, length c = n /\ parse c = Ok p /\ depth p = n /\
  forall k E r, snd (rt_eval (S k) E false r c) = ROk.
Proof. exact deep_commands. Qed.
Print Assumptions C94_every_depth_occurs.

(** The parser's recursive rules, which Parse.v gives a budget of nested calls, need no more
    levels than the text has characters, and one more; with more levels nothing changes. *)
Theorem C94_the_parser_nests_no_deeper_than_the_text_is_long :
  forall f i, length i < f ->
  p_expr_f f i <> PFuel /\ p_stmts_f f i <> PFuel /\ p_expr_f f i = p_expr i /\ p_stmts_f f i = p_stmts i.
Proof. exact parser_levels. Qed.
Print Assumptions C94_the_parser_nests_no_deeper_than_the_text_is_long.

Example C94_example :
  exists p, parse (s_ "x = 1; if x == 1 { x[!!f(1, -(2))] += g.h; } else { while true {} }") = Ok p /\ depth p = 10 /\ nodes p = 34.
Proof. eexists. split; [vm_compute; reflexivity|]. vm_compute. auto. Qed.
