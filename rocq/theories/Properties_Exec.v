(** C65: statements execute by the language's rules (Spec_Exec). *)
From Verif Require Import Base Ast Pom Parse Structs Definitions Value Variables Semantics Fs Eval Runtime Lib Demo Spec_Vars Spec_Grammar Spec_Run Spec_Lang Spec_Exec
  Proof_Vars Proof_Run Proof_Parse Proof_Complete3 Proof_Lang Proof_Exec.
Require Import Lia.
Arguments s_ s%string_scope.

(** A statement takes state s to s' and ends as q exactly when the rules say so. *)
Theorem C65_statements :
  forall E inter s st s' q, (exists r, runs E inter s st s' r /\ ends r = Some q) <-> executes E inter s st s' q.
Proof. exact exec_iff. Qed.
Print Assumptions C65_statements.

(** So does a sequence of statements. *)
Theorem C65_sequences :
  forall E inter s l s' q, (exists r, runs_list E inter s l s' r /\ ends r = Some q) <-> executes_list E inter s l s' q.
Proof. exact exec_list_iff. Qed.
Print Assumptions C65_sequences.

(** A command that parses and passes the analysis does what the rules say, at any sufficient
    step budget; [ends] of the reported result is the ending. *)
Theorem C65_commands :
  forall E inter r cmd prog sem' u s' q,
  parse cmd = Ok prog -> analyze (r_sem r) prog = (sem', Ok u) -> executes_list E inter (r_eval r) prog s' q ->
  exists i, ends i = Some q /\ exists n0, forall n, n0 <= n -> rt_eval n E inter r cmd = (mk_rt sem' s', into_eval_result i).
Proof.
  intros E inter r cmd prog sem' u s' q Hp Ha H. apply exec_list_iff in H. destruct H as (i & [Hi [n0 Hn]] & Hq). exists i. split; [exact Hq|]. exists n0. intros n Hle.
  unfold rt_eval. rewrite Hp, Ha. unfold eval_prog. rewrite (run_list_up E inter n0 n _ _ _ _ Hn Hi Hle). reflexivity.
Qed.
Print Assumptions C65_commands.

(** Whatever a command does to variables, filesystem, output and kernel is what the rules
    say its program does; without crash or exhausted budget. *)
Theorem C65_only_by_the_rules :
  forall n E inter r cmd r' res, rt_eval n E inter r cmd = (r', res) -> (forall p, res <> RPanic p) -> res <> RFuel -> r_eval r' <> r_eval r ->
  exists prog q, parse cmd = Ok prog /\ executes_list E inter (r_eval r) prog (r_eval r') q.
Proof.
  intros n E inter r cmd r' res H Hnp Hnf Hch. unfold rt_eval in H. destruct (parse cmd) as [prog|e|p|] eqn:Ep; try (injection H as <- <-; elim Hch; reflexivity).
  destruct (analyze (r_sem r) prog) as [sem' [u|e|p|]]; try (injection H as <- <-; elim Hch; reflexivity).
  unfold eval_prog in H. destruct (run_list (eval_stmt n E inter) (r_eval r) prog) as [s1 i] eqn:Er. injection H as <- <-. cbn [r_eval].
  assert (Hq : exists q, ends i = Some q) by (destruct i; try (eexists; reflexivity); cbn in *; congruence). destruct Hq as [q Hq]. exists prog, q. split; [reflexivity|].
  apply exec_list_iff. exists i. split; [|exact Hq]. split; [intros ->; discriminate|]. exists n. exact Er.
Qed.
Print Assumptions C65_only_by_the_rules.

(** The rules are deterministic. *)
Theorem C65_deterministic :
  forall E inter s st s1 s2 q1 q2, executes E inter s st s1 q1 -> executes E inter s st s2 q2 -> s1 = s2 /\ q1 = q2.
Proof.
  intros E inter s st s1 s2 q1 q2 H1 H2. apply exec_iff in H1. apply exec_iff in H2. destruct H1 as (r1 & H1 & Hq1), H2 as (r2 & H2 & Hq2).
  destruct (runs_fun _ _ _ _ _ _ _ _ H1 H2) as [-> ->]. split; congruence.
Qed.
Print Assumptions C65_deterministic.

(** a program with nested scopes, continue, break, a store into an array, and output *)
Definition C65_text : str :=
  s_ "a = hist() + 1 + 2 + 3; n = 0; for i in a { if i == 2 { continue; } n += i; while true { a[0] = n; break; } } print str(n) + "":"" + str(a[0]);".
Example C65_example :
  exists prog s', parse C65_text = Ok prog /\ executes_list (demo_env true) false (r_eval (rt_new (demo_env true))) prog s' Ended /\
    w_out (e_w s') = s_ "4:4
".
Proof.
  destruct (parse C65_text) as [prog|e|p|] eqn:Ep; try (vm_compute in Ep; discriminate Ep).
  assert (Hp : parse C65_text = Ok prog) by exact Ep. vm_compute in Ep. injection Ep as Ep.
  destruct (run_list (eval_stmt 50 (demo_env true) false) (r_eval (rt_new (demo_env true))) prog) as [s' i] eqn:Er.
  exists prog, s'. split; [reflexivity|]. rewrite <- Ep in Er. vm_compute in Er. injection Er as Es Ei. split.
  - apply exec_list_iff. exists IOk. split; [|reflexivity]. split; [discriminate|]. exists 50. rewrite <- Ep, <- Es. vm_compute. reflexivity.
  - rewrite <- Es. reflexivity.
Qed.
