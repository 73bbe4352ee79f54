(** C93: statements may be rearranged.  An if over && is two ifs, one over || an else-if, and one
    over ! swaps its branches; what follows a jump in its block never runs; a continue at the end
    of a loop body is idle; and a while condition may move into the body. *)
From Verif Require Import Base Ast Pom Parse Structs Definitions Value Variables Semantics Fs Eval Runtime Lib Demo Spec_Vars Spec_Run Spec_Session Spec_Safe Spec_Frame
  Proof_Vars Proof_Run Spec_Blocks Proof_Blocks Proof_Blocks2 Proof_Blocks3.
Require Import Lia.
Arguments s_ s%string_scope.

(** ** Replacing blocks *)
(** Whatever pairs of interchangeable blocks one takes: exchanging any number of them anywhere in
    a program, at any depth, gives an interchangeable program. *)
Theorem C93_interchangeable_parts_make_interchangeable_programs :
  forall R : list stmt -> list stmt -> Prop, (forall a b, R a b -> same_block a b) ->
  forall p q, rearranged R p q -> same_block p q.
Proof. exact replacing. Qed.
Print Assumptions C93_interchangeable_parts_make_interchangeable_programs.

(** ** The rules *)
Theorem C93_and_is_a_nested_if :
  forall a b l, same_block [SIf (EBin OLogicalAnd a b) l []] [SIf a [SIf b l []] []].
Proof. exact law_and. Qed.
Print Assumptions C93_and_is_a_nested_if.

Theorem C93_or_is_an_else_if :
  forall a b l m, same_block [SIf (EBin OLogicalOr a b) l m] [SIf a l [SIf b l m]].
Proof. exact law_or. Qed.
Print Assumptions C93_or_is_an_else_if.

(** for a condition that is a boolean if it has a value *)
Theorem C93_not_swaps_the_branches :
  forall c l m, always_boolean c -> same_block [SIf (EUn UNot (EParen c)) l m] [SIf c m l].
Proof. exact law_not. Qed.
Print Assumptions C93_not_swaps_the_branches.

(** such are true, false, comparisons, and what && || ! make *)
Theorem C93_comparisons_are_boolean : forall c, boolean_form c -> always_boolean c.
Proof. exact forms_boolean. Qed.
Print Assumptions C93_comparisons_are_boolean.

Theorem C93_nothing_after_a_jump_runs :
  forall st l, is_jump st -> same_block (st :: l) [st].
Proof. exact law_jump. Qed.
Print Assumptions C93_nothing_after_a_jump_runs.

Theorem C93_a_last_continue_is_idle :
  (forall c l, same_block [SWhile c (l ++ [SContinue])] [SWhile c l]) /\
  (forall i e l, same_block [SFor i e (l ++ [SContinue])] [SFor i e l]).
Proof. split; [exact law_continue_while|exact law_continue_for]. Qed.
Print Assumptions C93_a_last_continue_is_idle.

Theorem C93_the_condition_may_move_into_the_loop :
  forall c l, same_block [SWhile c l] [SWhile (EBool true) (SIf c [] [SBreak] :: l)].
Proof. exact law_guard. Qed.
Print Assumptions C93_the_condition_may_move_into_the_loop.

(** [if true { l }] is l, if all names that l assigns already are variables (else they are
    gone after the if: see the example) *)
Theorem C93_braces :
  forall E inter l s s' r, (forall x, In x (flat_map may_assign l) -> vars_get x (e_vars s) <> None) ->
  (runs_list E inter s [SIf (EBool true) l []] s' r <-> runs_list E inter s l s' r).
Proof. exact braces. Qed.
Print Assumptions C93_braces.

(** ** Commands *)
(** Two commands whose programs differ only by these rules, anywhere and any number of times, and
    which the analysis of a session accepts, end in the same state and with the same result, or
    neither ends. *)
Theorem C93_rearranged_commands_do_the_same :
  forall E inter r c1 p1 s1 u1 c2 p2 s2 u2 s q, rearranged law p1 p2 ->
  parse c1 = Ok p1 -> analyze (r_sem r) p1 = (s1, Ok u1) ->
  parse c2 = Ok p2 -> analyze (r_sem r) p2 = (s2, Ok u2) ->
  (command_ends E inter r c1 s q <-> command_ends E inter r c2 s q).
Proof. exact rearranged_commands. Qed.
Print Assumptions C93_rearranged_commands_do_the_same.

(** ** What is not so *)
(** The branches may not be swapped for every condition that ! accepts: !1 is false, but 1 is not
    a condition. *)
Theorem C93_not_of_an_integer_does_not_swap :
  ~ forall c l m, same_block [SIf (EUn UNot (EParen c)) l m] [SIf c m l].
Proof.
  intros H. pose proof (H (EInt 1) [] [] (demo_env true) false (mk_est [[]] None (w0)) (mk_est [[]] None w0) IOk) as [P _].
  assert (Q : runs_list (demo_env true) false (mk_est [[]] None w0) [SIf (EUn UNot (EParen (EInt 1))) [] []] (mk_est [[]] None w0) IOk).
  { split; [discriminate|]. exists 1. vm_compute. reflexivity. }
  apply P in Q. apply runs_list_one, runs_if' in Q. destruct Q as (w & o & (r & Hr & Ho) & Hq).
  assert (V : evals (demo_env true) (mk_est [[]] None w0) (EInt 1) w0 (Ok (VInt 1))) by (split; [discriminate|exists 0; reflexivity]).
  destruct (evals_fun _ _ _ _ _ _ _ Hr V) as [-> ->]. injection Ho as <-. destruct Hq as [_ Hq]. discriminate.
Qed.
Print Assumptions C93_not_of_an_integer_does_not_swap.

Definition C93_long : string :=
  "i = 0; while i < 9 { i = i + 1; if i % 2 == 0 && i > 3 { if !(i == 6) { print i; continue; print 0; } else { print str(i); break; } } continue; } print i;"%string.
Definition C93_short : string :=
  "i = 0; while true { if i < 9 {} else { break; } i = i + 1; if i % 2 == 0 { if i > 3 { if i == 6 { print str(i); break; } else { print i; continue; } } } } print i;"%string.
Example C93_example :
  exists p1 p2 s1 s2, parse (s_ C93_long) = Ok p1 /\ parse (s_ C93_short) = Ok p2 /\ rearranged law p1 p2 /\
  analyze (r_sem (rt_new (demo_env true))) p1 = (s1, Ok tt) /\ analyze (r_sem (rt_new (demo_env true))) p2 = (s2, Ok tt) /\
  demo_out (demo_run true false C93_long) = s_ "4" ++ [10%N] ++ s_ "6" ++ [10%N] ++ s_ "6" ++ [10%N] /\
  demo_out (demo_run true false C93_short) = s_ "4" ++ [10%N] ++ s_ "6" ++ [10%N] ++ s_ "6" ++ [10%N].
Proof.
  eexists _, _, _, _. split; [vm_compute; reflexivity|]. split; [vm_compute; reflexivity|].
  split; [|vm_compute; auto 10].
  assert (C : forall (x : stmt) l m, rearranged law l m -> rearranged law (x :: l) (x :: m)).
  { intros x l m H. apply (ra_app law [x] [x] l m); [apply ra_same|exact H]. }
  assert (D : forall (x y : stmt) l, rearranged law [x] [y] -> rearranged law (x :: l) (y :: l)).
  { intros x y l H. apply (ra_app law [x] [y] l l); [exact H|apply ra_same]. }
  apply C. apply D.
  eapply ra_then; [apply ra_here; match goal with |- law [SWhile ?c [?a; ?b; SContinue]] _ => exact (law_of_continue_while c [a; b]) end|].
  eapply ra_then; [|apply ra_here, law_of_condition]. apply ra_while. apply C.
  eapply ra_then; [apply ra_here, law_of_and|]. apply ra_if; [|apply ra_same]. apply ra_if; [|apply ra_same].
  eapply ra_then; [apply ra_here, law_of_not, bf_eq|]. apply ra_if; [apply ra_same|]. apply C.
  apply ra_here, law_of_jump. right. left. reflexivity.
Qed.
(** braces do matter for a new name *)
Example C93_braces_example :
  (exists r, demo_run true false "if true { n = 1; } print 2;" = r /\ demo_out r = s_ "2" ++ [10%N] /\ vars_get (s_ "n") (e_vars (r_eval (fst r))) = None) /\
  (exists r, demo_run true false "n = 1; print 2;" = r /\ demo_out r = s_ "2" ++ [10%N] /\ vars_get (s_ "n") (e_vars (r_eval (fst r))) = Some (VInt 1)).
Proof. split; eexists; (split; [reflexivity|]); vm_compute; auto. Qed.
