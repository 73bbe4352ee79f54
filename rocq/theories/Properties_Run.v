(** C14-C16: loops and quit.  [evals], [runs] and [runs_list] (Spec_Run.v) are executions
    with a result, without the step budget. *)
From Verif Require Import Base Ast Value Variables Fs Eval Pom Parse Runtime Demo Spec_Vars Proof_Vars Spec_Run Proof_Run.

(** The range expression is evaluated once, in the new scope; the body then runs once per
    element of that array value, in order.  [iterates] never looks at the array again, so
    what the body does to variables has no influence on the elements visited. *)
Theorem C14_for_iterates_over_snapshot :
  forall E inter s x e b s' r,
  runs E inter s (SFor (EIdent x) e b) s' r <->
  exists s1, s' = leave s1 /\
    ((exists w items h, evals E (enter s) e w (Ok (VArr items h)) /\
                        iterates E inter x b items (with_w (enter s) w) s1 r)
     \/ (exists w v, evals E (enter s) e w (Ok v) /\ (forall items h, v <> VArr items h) /\
                      s1 = with_w (enter s) w /\ r = IErr (expected "array" v))
     \/ (exists w er, evals E (enter s) e w (Err er) /\ s1 = with_w (enter s) w /\ r = IErr er)
     \/ (exists w p, evals E (enter s) e w (Panic p) /\ s1 = with_w (enter s) w /\ r = IPanic p)).
Proof. exact runs_for. Qed.
Print Assumptions C14_for_iterates_over_snapshot.

(** Binding the loop variable is an assignment in the sense of C11. *)
Theorem C14_loop_variable_is_assigned :
  forall s x v s', assigned s x v s' ->
  ((exists i, innermost_binding (e_vars s) x i /\ set_at (e_vars s) (e_vars s') i x v)
        \/ (unbound (e_vars s) x /\ set_at (e_vars s) (e_vars s') 0 x v)) /\
  e_fs s' = e_fs s /\ e_w s' = e_w s.
Proof. exact assigned_iff. Qed.
Print Assumptions C14_loop_variable_is_assigned.

Example C14_example :
  demo_out (demo_run true false
    "a = hist() + 1; a = a + 2; a = a + 3; a = a + 4; for i in a { a = a + i; if i == 2 { continue; } if i == 4 { break; } print i; i = 9; } print len(a);")
    = s_ "1
3
8
".
Proof. vm_compute. reflexivity. Qed.

Theorem C15_while_unrolls :
  forall E inter s c b s' r,
  runs E inter s (SWhile c b) s' r <-> exists s1, whiles E inter c b (enter s) s1 r /\ s' = leave s1.
Proof. exact runs_while. Qed.
Print Assumptions C15_while_unrolls.

(** Results are unique and do not depend on the step budget. *)
Theorem C15_results_do_not_depend_on_budget :
  forall E inter,
  (forall s e w1 r1 w2 r2, evals E s e w1 r1 -> evals E s e w2 r2 -> w1 = w2 /\ r1 = r2) /\
  (forall s st s1 r1 s2 r2, runs E inter s st s1 r1 -> runs E inter s st s2 r2 -> s1 = s2 /\ r1 = r2) /\
  (forall s l s1 r1 s2 r2, runs_list E inter s l s1 r1 -> runs_list E inter s l s2 r2 -> s1 = s2 /\ r1 = r2) /\
  (forall s l n m s1 r1, run_list (eval_stmt n E inter) s l = (s1, r1) -> r1 <> IFuel -> n <= m ->
      run_list (eval_stmt m E inter) s l = (s1, r1)).
Proof. exact results_unique. Qed.
Print Assumptions C15_results_do_not_depend_on_budget.

Example C15_example :
  demo_out (demo_run true false
    "x = 0; while x < 10 { x = x + 1; if x % 2 == 0 { continue; } if x > 6 { break; } print x; }")
    = s_ "1
3
5
".
Proof. vm_compute. reflexivity. Qed.

(** A list of statements ends with Quit exactly when it reaches a quit statement; the
    final state is the state at that moment, without the scopes entered since. *)
Theorem C16_quit_stops_everything :
  forall E inter s l s',
  runs_list E inter s l s' IQuit <-> exists d q, reaches E inter s l d q /\ s' = drop_scopes d q.
Proof. exact quit_iff. Qed.
Print Assumptions C16_quit_stops_everything.

Theorem C16_command_quits :
  forall n E inter r cmd r',
  rt_eval n E inter r cmd = (r', RQuit) ->
  exists l d q, parse cmd = Ok l /\ reaches E inter (r_eval r) l d q /\ r_eval r' = drop_scopes d q.
Proof. exact session_quit. Qed.
Print Assumptions C16_command_quits.

Example C16_example :
  let p := demo_run true false
    "x = 1; print x; for i in hist() + 5 { while true { x = i; if x == 5 { print 2; quit; print 3; } } print 4; } print 6;" in
  snd p = RQuit /\ demo_out p = s_ "1
2
" /\ vars_get (s_ "x") (e_vars (r_eval (fst p))) = Some (VInt 5).
Proof. vm_compute. auto. Qed.
