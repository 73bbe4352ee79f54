(** C51-C53: output, the interactive loop and scripts. *)
From Verif Require Import Base Ast Pom Parse Structs Value Variables Semantics Fs Eval Runtime Input Main Spec_Run Spec_Text Spec_Session Spec_Safe Spec_Driver Demo Lib
  Proof_Run Proof_Session Proof_Parse Proof_Safe Proof_Driver.
From Coq Require Import Lia.
Arguments s_ s%string_scope.

(** ** C51.  Commands, whatever their result, only append to the output, and what they append are the
    texts of their writes (the beginning of them, when a write fails). *)
Theorem C51_output_only_grows :
  forall n E inter r cmd, appended (e_w (r_eval r)) (e_w (r_eval (fst (rt_eval n E inter r cmd)))).
Proof.
  intros n E inter r cmd. destruct (rt_eval n E inter r cmd) as [r' q] eqn:H.
  exact (rt_eval_q E inter appended silent_appended appended_trans n r cmd r' q (fun l st _ _ _ s t s' q' => do_write_appended E s t s' q') H).
Qed.
Print Assumptions C51_output_only_grows.
Theorem C51_statements_only_append :
  forall E inter s st s' q, runs E inter s st s' q -> appended (e_w s) (e_w s').
Proof. intros E inter s st s' q [_ (n & H)]. exact (eval_stmt_q E inter appended silent_appended appended_trans n s st s' q (fun _ s t s' q' => do_write_appended E s t s' q') H). Qed.
Print Assumptions C51_statements_only_append.
(** with a sink that accepts everything, exactly the written texts *)
Theorem C51_reliable_output :
  forall n E inter r cmd, reliable E -> let w := e_w (r_eval r) in let w' := e_w (r_eval (fst (rt_eval n E inter r cmd))) in
  exists l, w_log w' = w_log w ++ l /\ w_out w' = w_out w ++ texts l.
Proof.
  intros n E inter r cmd HR w w'. unfold w, w'. destruct (rt_eval n E inter r cmd) as [r' q] eqn:H.
  exact (rt_eval_q E inter exact_out exact_silent exact_trans n r cmd r' q (fun l st _ _ _ => exact_write E HR) H).
Qed.
Print Assumptions C51_reliable_output.
(** programs without print and help (and, interactively, without expression statements) write nothing *)
Theorem C51_silent_programs :
  forall n E inter r cmd, (forall l st, parse cmd = Ok l -> In st l -> ~ may_write inter st) ->
  silent (e_w (r_eval r)) (e_w (r_eval (fst (rt_eval n E inter r cmd)))).
Proof.
  intros n E inter r cmd HW. destruct (rt_eval n E inter r cmd) as [r' q] eqn:H.
  eapply (rt_eval_q E inter silent); [auto|exact silent_trans| |exact H]. intros l st H1 H2 H3. elim (HW l st H1 H2 H3).
Qed.
Print Assumptions C51_silent_programs.
Theorem C51_silent_statements :
  forall E inter s st s' q, ~ may_write inter st -> runs E inter s st s' q -> silent (e_w s) (e_w s').
Proof. intros E inter s st s' q HW [_ (n & H)]. eapply (eval_stmt_q E inter silent); [auto|exact silent_trans| |exact H]. intros X. elim (HW X). Qed.
Print Assumptions C51_silent_statements.
Theorem C51_expressions_are_silent :
  forall E s e w r, evals E s e w r -> silent (e_w s) w.
Proof. intros E s e w r [_ (k & H)]. eapply eval_calm. exact H. Qed.
Print Assumptions C51_expressions_are_silent.
(** the whole interactive loop only appends, too *)
Theorem C51_repl_output_only_grows :
  forall n E evs, appended (e_w (eval_new E)) (e_w (r_eval (fst (fst (repl n E evs))))).
Proof.
  intros n E evs. unfold repl. destruct (repl_loop n E (rt_new E) evs) as [[r' rs] x] eqn:H.
  exact (repl_q E appended silent_appended appended_trans (do_write_appended E) n evs (rt_new E) r' rs x H).
Qed.
Print Assumptions C51_repl_output_only_grows.
Example C51_example :
  (exists l, parse (s_ "x = 1; while x < 5 { x += 1; x; } if x == 5 { x = ""a""; }") = Ok l /\ (forall st, In st l -> ~ may_write false st) /\ l <> []) /\
  demo_out (demo_run true false "x = 1; while x < 5 { x += 1; x; } if x == 5 { x = ""a""; }") = [] /\
  demo_out (demo_run true true "x = 1; while x < 3 { x += 1; x; } print x; 1/0;") = s_ "2
3
3
" /\ reliable (demo_env true).
Proof.
  split; [|split; [vm_compute; reflexivity|split; [vm_compute; reflexivity|intros i t; reflexivity]]]. eexists. split; [vm_compute; reflexivity|]. split; [|discriminate].
  intros st H (u & Hu & HW). cbn in H. decompose [or] H; subst; try contradiction; cbn in Hu; decompose [or] Hu; subst; try contradiction; destruct HW as [X|[(e & X)|(X & _)]]; discriminate.
Qed.

(** ** C52.  Missing: the loop does not end at an unrecoverable read error (refuted below). *)
(** every line is processed in order, with the state left by the lines before it, errors or not *)
Theorem C52_all_lines_are_processed :
  forall n E evs rs r, (forall ev, In ev evs -> ev <> RlEof) ->
  entered n E (rt_new E) (typed_lines evs) rs r -> Forall goes_on rs ->
  repl n E evs = (r, rs, ReWaiting).
Proof.
  intros n E evs rs r H1 H2 H3. unfold repl. rewrite <- (app_nil_r evs). rewrite (repl_prefix n E evs [] H1 _ _ _ H2 H3). cbn. rewrite app_nil_r. reflexivity.
Qed.
Print Assumptions C52_all_lines_are_processed.
Theorem C52_ends_at_eof :
  forall n E pre post rs r, (forall ev, In ev pre -> ev <> RlEof) ->
  entered n E (rt_new E) (typed_lines pre) rs r -> Forall goes_on rs ->
  repl n E (pre ++ RlEof :: post) = (r, rs, ReDone).
Proof.
  intros n E pre post rs r H1 H2 H3. unfold repl. rewrite (repl_prefix n E pre _ H1 _ _ _ H2 H3). cbn. rewrite app_nil_r. reflexivity.
Qed.
Print Assumptions C52_ends_at_eof.
Theorem C52_ends_at_quit :
  forall n E pre line post rs r r', (forall ev, In ev pre -> ev <> RlEof) ->
  entered n E (rt_new E) (typed_lines pre) rs r -> Forall goes_on rs -> rt_eval n E true r (clean line) = (r', RQuit) ->
  repl n E (pre ++ RlLine line :: post) = (r', rs ++ [RQuit], ReDone).
Proof.
  intros n E pre line post rs r r' H1 H2 H3 H4. unfold repl. rewrite (repl_prefix n E pre _ H1 _ _ _ H2 H3). cbn. rewrite H4. reflexivity.
Qed.
Print Assumptions C52_ends_at_quit.
(** and in no other way *)
Theorem C52_ends_only_at_eof_or_quit_partial :
  forall n E evs r rs, repl n E evs = (r, rs, ReDone) ->
  exists pre x post rs0 r0, evs = pre ++ x :: post /\ (forall ev, In ev pre -> ev <> RlEof) /\
    entered n E (rt_new E) (typed_lines pre) rs0 r0 /\ Forall goes_on rs0 /\
    (x = RlEof /\ rs = rs0 /\ r = r0 \/ exists line, x = RlLine line /\ rt_eval n E true r0 (clean line) = (r, RQuit) /\ rs = rs0 ++ [RQuit]).
Proof.
  intros n E evs r rs H. apply repl_inv in H. destruct H as [(pre & post & E1 & H1 & H2 & H3)|(pre & line & post & rs0 & r1 & E1 & H1 & H2 & H3 & H4 & H5)].
  - exists pre, RlEof, post, rs, r. split; [exact E1|]. split; [exact H1|]. split; [exact H2|]. split; [exact H3|]. left. auto.
  - exists pre, (RlLine line), post, rs0, r1. split; [exact E1|]. split; [exact H1|]. split; [exact H2|]. split; [exact H3|]. right. exists line. auto.
Qed.
Print Assumptions C52_ends_only_at_eof_or_quit_partial.
(** it aborts only when evaluating a line does *)
Theorem C52_crash_only_in_evaluation :
  forall n E evs r rs p, repl n E evs = (r, rs, ReCrash p) ->
  exists pre line post rs0 r0, evs = pre ++ RlLine line :: post /\ entered n E (rt_new E) (typed_lines pre) rs0 r0 /\ Forall goes_on rs0 /\
    rt_eval n E true r0 (clean line) = (r, RPanic p).
Proof. intros n E evs r rs p H. apply repl_inv in H. destruct H as (pre & line & post & rs0 & r1 & E1 & H1 & H2 & H3 & H4 & H5). exists pre, line, post, rs0, r1. auto. Qed.
Print Assumptions C52_crash_only_in_evaluation.
Theorem C52_interrupt_is_ignored :
  forall n E pre post, repl n E (pre ++ RlInterrupted :: post) = repl n E (pre ++ post).
Proof. intros n E pre post. apply repl_skip. auto. Qed.
Print Assumptions C52_interrupt_is_ignored.
(** an unrecoverable read error is ignored as well: the loop asks for the next line *)
Theorem C52_read_error_does_not_end_the_loop_refuted :
  forall n E pre post, repl n E (pre ++ RlError :: post) = repl n E (pre ++ post).
Proof. intros n E pre post. apply repl_skip. auto. Qed.
Print Assumptions C52_read_error_does_not_end_the_loop_refuted.
Definition demo_events : list readline :=
  [RlLine (s_ "x = 1"); RlLine (s_ "x = x +"); RlInterrupted; RlLine (s_ "y"); RlError; RlLine (s_ "x + 1/0"); RlLine (s_ "x + 41"); RlEof; RlLine (s_ "x = 5")].
Example C52_example :
  let '(r, rs, x) := repl 300 (demo_env true) demo_events in
  x = ReDone /\ rs = [ROk; RErr EParse; RErr (EUnknownVariable (s_ "y")); RErr EDivideByZero; ROk] /\ w_out (e_w (r_eval r)) = s_ "42
" /\ Forall goes_on rs.
Proof.
  vm_compute. split; [reflexivity|]. split; [reflexivity|]. split; [reflexivity|].
  constructor; [left; reflexivity|]. do 3 (constructor; [right; eexists; reflexivity|]). constructor; [left; reflexivity|constructor].
Qed.

(** ** C53 *)
Theorem C53_failure :
  forall E c, env_typed E ->
  exits E (Some c) ExFailure <->
  parse (strip_comments c) = Err EParse \/
  exists l, parse (strip_comments c) = Ok l /\
    ((exists sem' e, analyze sem_new l = (sem', Err e)) \/
     (exists sem', analyze sem_new l = (sem', Ok tt)) /\ exists s' e, runs_list E false (eval_new E) l s' (IErr e)).
Proof.
  intros E c HE. unfold exits. split.
  - intros [_ (n & H)]. rewrite script_result in H. destruct (parse_total (strip_comments c)) as [(l & Hp)|Hp]; rewrite Hp in *; [|left; reflexivity]. right. exists l. split; [reflexivity|].
    destruct (analyze_outcome l) as [(sem' & Ha)|(sem' & e & Ha)]; [|left; eauto]. right. rewrite Ha in H. cbn [snd] in H. split; [eauto|].
    destruct (run_list (eval_stmt n E false) (eval_new E) l) as [s' q] eqn:Hr. destruct (script_no_jump n E c l sem' s' q HE Hp Ha Hr) as [N1 N2].
    cbn [snd] in H. destruct q as [| |e| | |p|]; try discriminate; try congruence. exists s', e. split; [discriminate|eauto].
  - intros H. split; [discriminate|]. destruct H as [Hp|(l & Hp & [(sem' & e & Ha)|((sem' & Ha) & s' & e & _ & (n & Hr))])].
    + exists 0. rewrite script_result, Hp. reflexivity.
    + exists 0. rewrite script_result, Hp, Ha. reflexivity.
    + exists n. rewrite script_result, Hp, Ha, Hr. reflexivity.
Qed.
Print Assumptions C53_failure.
Theorem C53_success :
  forall E c,
  exits E (Some c) ExSuccess <->
  exists l, parse (strip_comments c) = Ok l /\ (exists sem', analyze sem_new l = (sem', Ok tt)) /\
    exists s' q, runs_list E false (eval_new E) l s' q /\ (q = IOk \/ q = IQuit).
Proof.
  intros E c. unfold exits. split.
  - intros [_ (n & H)]. rewrite script_result in H. destruct (parse_total (strip_comments c)) as [(l & Hp)|Hp]; rewrite Hp in *; [|discriminate]. exists l. split; [reflexivity|].
    destruct (analyze_outcome l) as [(sem' & Ha)|(sem' & e & Ha)]; rewrite Ha in H; [|discriminate]. cbn [snd] in H. split; [eauto|].
    destruct (run_list (eval_stmt n E false) (eval_new E) l) as [s' q] eqn:Hr. exists s', q. cbn [snd] in H. destruct q; try discriminate; (split; [split; [discriminate|eauto]|auto]).
  - intros (l & Hp & (sem' & Ha) & s' & q & [_ (n & Hr)] & Hq). split; [discriminate|]. exists n. rewrite script_result, Hp, Ha, Hr. destruct Hq as [-> | ->]; reflexivity.
Qed.
Print Assumptions C53_success.
Theorem C53_unreadable_script_fails : forall E x, exits E None x <-> x = ExFailure.
Proof. intros E x. unfold exits. split; [intros [_ (n & H)]; symmetry; exact H|intros ->; split; [discriminate|exists 0; reflexivity]]. Qed.
Print Assumptions C53_unreadable_script_fails.
Theorem C53_status_is_unique : forall E c x y, exits E c x -> exits E c y -> x = y.
Proof.
  intros E [c|] x y [Nx (n & Hx)] [Ny (m & Hy)]; [|cbn in *; congruence]. rewrite script_result in Hx, Hy. destruct (parse (strip_comments c)) as [l|e|p|]; try congruence.
  destruct (snd (analyze sem_new l)) as [u|e|p|]; try congruence.
  destruct (run_list (eval_stmt n E false) (eval_new E) l) as [s1 q1] eqn:H1. destruct (run_list (eval_stmt m E false) (eval_new E) l) as [s2 q2] eqn:H2. cbn [snd] in *.
  assert (P : q1 = q2).
  { assert (F1 : q1 <> IFuel) by (intros ->; congruence). assert (F2 : q2 <> IFuel) by (intros ->; congruence). destruct (results_unique E false) as (_ & _ & U & _).
    eapply (U (eval_new E) l s1 q1 s2 q2); split; eauto. }
  subst q2. congruence.
Qed.
Print Assumptions C53_status_is_unique.
(** without overflow checks it never ends in a crash *)
Theorem C53_release_never_crashes : forall E c p, env_typed E -> overflow_checks E = false -> ~ exits E c (ExCrash p).
Proof.
  intros E [c|] p HE Ho [_ (n & H)]; [|discriminate]. unfold script in H.
  pose proof (rt_eval_safe n E false [] (rt_new E) (strip_comments c) HE (ses_new E) (session_safe E _ _ HE (ses_new E))) as [_ G].
  destruct (rt_eval n E false (rt_new E) (strip_comments c)) as [r q]. cbn [snd] in *. destruct q; try discriminate. destruct G. congruence.
Qed.
Print Assumptions C53_release_never_crashes.
Example C53_example :
  snd (script 300 (demo_env true) (Some (s_ "print 1; # one
quit; print 2;"))) = ExSuccess /\ snd (script 300 (demo_env true) (Some (s_ "print 1; print 1/0;"))) = ExFailure /\
  snd (script 300 (demo_env true) (Some (s_ "print x;"))) = ExFailure /\ snd (script 300 (demo_env true) (Some (s_ "# nothing here
"))) = ExSuccess /\ env_typed (demo_env true).
Proof.
  do 4 (split; [vm_compute; reflexivity|]). split; [intros n fd k nr buf [H|H]; discriminate|intros n q img H; discriminate].
Qed.
