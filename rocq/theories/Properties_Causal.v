(** C78, C79: no run depends on what comes later, and what was shown stays shown. *)
From Verif Require Import Base Ast Pom Parse Structs Value Variables Semantics Fs Eval Runtime Input Main Process Spec_Run Spec_Text Spec_Session Spec_Driver Spec_Process Spec_Causal Demo Lib
  Proof_Run Proof_Driver Proof_Sim Proof_Process Proof_Causal.
From Coq Require Import Lia.
Arguments s_ s%string_scope.

(** ** C78 *)
(** two runs in environments that answer the first t interactions alike are the same, or they were
    the same up to some point after these t interactions and both did the same there *)
Theorem C78_process :
  forall t E1 E2, agree_until t E1 E2 -> forall n H m evs,
  process n E1 H m evs = process n E2 H m evs \/ parted t (p_world (process n E1 H m evs)) (p_world (process n E2 H m evs)).
Proof. intros t E1 E2 HA n H m evs. apply process_causal. exact HA. Qed.
Print Assumptions C78_process.
Theorem C78_command :
  forall t E1 E2, agree_until t E1 E2 -> forall n inter r cmd,
  rt_eval n E1 inter r cmd = rt_eval n E2 inter r cmd \/ parted t (world_of (fst (rt_eval n E1 inter r cmd))) (world_of (fst (rt_eval n E2 inter r cmd))).
Proof. intros t E1 E2 HA n inter r cmd. apply rt_eval_causal. exact HA. Qed.
Print Assumptions C78_command.
(** in particular the first t + 1 interactions (requests to the kernel, opened paths, texts written,
    warnings) depend only on the answers to the first t *)
Theorem C78_first_interactions :
  forall t E1 E2, agree_until t E1 E2 -> forall n H m evs,
  firstn (S t) (w_log (p_world (process n E1 H m evs))) = firstn (S t) (w_log (p_world (process n E2 H m evs))).
Proof. intros t E1 E2 HA n H m evs. destruct (process_causal t E1 E2 HA n H m evs) as [G|G]; [rewrite G; reflexivity|]. apply parted_first in G. apply G. Qed.
Print Assumptions C78_first_interactions.
(** and a run with at most t interactions depends on nothing else *)
Theorem C78_short_runs :
  forall t E1 E2, agree_until t E1 E2 -> forall n H m evs,
  tick (p_world (process n E1 H m evs)) <= t -> process n E2 H m evs = process n E1 H m evs.
Proof. intros t E1 E2 HA n H m evs HT. destruct (process_causal t E1 E2 HA n H m evs) as [G|G]; [symmetry; exact G|]. apply parted_first in G. lia. Qed.
Print Assumptions C78_short_runs.
(** the answers to interactions after the last one do not matter; nor do those of kinds not used *)
Theorem C78_commands_do_not_look_back :
  forall n E w0 inter r cmd,
  let late := mk_rt (r_sem r) (mk_est (e_vars (r_eval r)) (e_fs (r_eval r)) (mk_world (w_log w0 ++ w_log (world_of r)) (w_out w0 ++ w_out (world_of r)))) in
  let '(r1, q1) := rt_eval n (delayed (tick w0) E) inter r cmd in
  let '(r2, q2) := rt_eval n E inter late cmd in
  q1 = q2 /\ r_sem r1 = r_sem r2 /\ e_vars (r_eval r1) = e_vars (r_eval r2) /\ e_fs (r_eval r1) = e_fs (r_eval r2) /\
  w_log (world_of r2) = w_log w0 ++ w_log (world_of r1) /\ w_out (world_of r2) = w_out w0 ++ w_out (world_of r1).
Proof.
  intros n E w0 inter r cmd. cbv zeta. set (late := mk_rt _ _). assert (HS : rshift w0 r late) by (repeat split).
  destruct (rt_eval_shift n E w0 inter r late cmd HS) as [(A & B & C & F & G) H]. destruct (rt_eval n (delayed (tick w0) E) inter r cmd) as [r1 q1], (rt_eval n E inter late cmd) as [r2 q2]. cbn [fst snd] in *. repeat split; assumption.
Qed.
Print Assumptions C78_commands_do_not_look_back.
Definition other_env : env :=
  mk_env true (fun i fd k => if Nat.ltb i 4 then ioctl (demo_env true) i fd k else IoErr) (open_path (demo_env true)) (fun i s => if Nat.ltb i 4 then SkOk else SkErr 0) (getcwd (demo_env true)).
Example C78_example :
  agree_until 4 (demo_env true) other_env /\
  (let run E := process 300 E (mk_host true true true) MRepl [RlLine (s_ "print 1"); RlLine (s_ "print 2"); RlLine (s_ "print 3")] in
   stdout (run (demo_env true)) <> stdout (run other_env) /\ firstn 5 (w_log (p_world (run (demo_env true)))) = firstn 5 (w_log (p_world (run other_env))) /\
   tick (p_world (run other_env)) = 6).
Proof.
  split; [|cbv zeta; split; [vm_compute; discriminate|vm_compute; split; reflexivity]]. split; [reflexivity|]. split; [reflexivity|]. intros i Hi. apply Nat.ltb_lt in Hi.
  split; [|split]; intros; cbn [other_env ioctl open_path sink]; rewrite ?Hi; reflexivity.
Qed.

(** ** C79 *)
(** letting a run go on longer (a larger step budget) only adds to what it did and showed; and once
    it has come to an end, nothing changes *)
Theorem C79_longer_runs :
  forall n k E H m evs, n <= k ->
  process k E H m evs = process n E H m evs \/
  p_status (process n E H m evs) = StBudget /\ continues (p_world (process n E H m evs)) (p_world (process k E H m evs)).
Proof. intros n k E H m evs Hn. destruct (process_budget n k E H m evs Hn) as [G|G]; [left; symmetry; exact G|right; exact G]. Qed.
Print Assumptions C79_longer_runs.
Theorem C79_shown_stays_shown :
  forall n k E H m evs, n <= k -> exists more, stdout (process k E H m evs) = stdout (process n E H m evs) ++ more.
Proof.
  intros n k E H m evs Hn. unfold stdout. destruct (process_budget n k E H m evs Hn) as [G|[_ (l & u & _ & G)]]; [exists []; rewrite G, app_nil_r; reflexivity|exists u; exact G].
Qed.
Print Assumptions C79_shown_stays_shown.
(** any two views of the same run are compatible: one is the beginning of the other *)
Theorem C79_one_history :
  forall n k E H m evs, continues (p_world (process n E H m evs)) (p_world (process k E H m evs)) \/ continues (p_world (process k E H m evs)) (p_world (process n E H m evs)).
Proof.
  assert (R : forall w, continues w w) by (intros w; exists [], []; rewrite !app_nil_r; split; reflexivity).
  intros n k E H m evs. destruct (Nat.le_ge_cases n k) as [L|L]; [left|right]; (destruct (process_budget _ _ E H m evs L) as [G|[_ G]]; [rewrite G; apply R|exact G]).
Qed.
Print Assumptions C79_one_history.
Theorem C79_one_end :
  forall n k E H m evs, p_status (process n E H m evs) <> StBudget -> p_status (process k E H m evs) <> StBudget -> process n E H m evs = process k E H m evs.
Proof.
  intros n k E H m evs H1 H2. destruct (Nat.le_ge_cases n k) as [L|L]; (destruct (process_budget _ _ E H m evs L) as [G|[G _]]; [congruence|congruence]).
Qed.
Print Assumptions C79_one_end.
Theorem C79_commands :
  forall n k E inter r cmd, n <= k ->
  rt_eval k E inter r cmd = rt_eval n E inter r cmd \/
  snd (rt_eval n E inter r cmd) = RFuel /\ continues (world_of (fst (rt_eval n E inter r cmd))) (world_of (fst (rt_eval k E inter r cmd))).
Proof.
  intros n k E inter r cmd Hn. destruct (rt_eval_budget n k E inter r cmd Hn) as [G|[G1 G2]]; [left; symmetry; exact G|right; split; [exact G1|apply appended_continues; exact G2]].
Qed.
Print Assumptions C79_commands.
(** a program that never ends shows output without end: every number of lines is reached *)
Definition endless : str := s_ "while true { print 1; }".
Theorem C79_endless_output :
  forall E H evs k, reliable E -> logger_ok H = true ->
  let p := process (k + 2) E H (MScript (Some endless)) evs in
  stdout p = concat (repeat (s_ "1
") (S k)) /\ p_status p = StBudget.
Proof.
  intros E H evs k HR HL. cbv zeta. unfold process, process_script, stdout. rewrite HL, start_new.
  assert (L : forall j s, exists s', while_loop (eval_stmt (S k) E false) (S k) E j (EBool true) [SPrint (EInt 1)] s = (s', IFuel) /\ w_out (e_w s') = w_out (e_w s) ++ concat (repeat (s_ "1
") j) /\ e_vars s' = e_vars s).
  { induction j as [|j IH]; intros s; [exists s; split; [reflexivity|split; [rewrite app_nil_r; reflexivity|reflexivity]]|].
    cbn [while_loop]. unfold with_expr at 1. cbn [eval_expr mret as_boolean run_list eval_stmt]. unfold with_expr. cbn [eval_expr mret print_text]. unfold do_write. rewrite HR. cbv iota beta.
    edestruct IH as (s' & H1 & H2 & H3). exists s'. split; [exact H1|]. split; [|rewrite H3; reflexivity]. rewrite H2. cbn [with_w e_w w_out repeat concat]. rewrite <- app_assoc. reflexivity. }
  assert (P : parse (strip_comments endless) = Ok [SWhile (EBool true) [SPrint (EInt 1)]]) by (vm_compute; reflexivity).
  assert (A : exists sem', analyze sem_new [SWhile (EBool true) [SPrint (EInt 1)]] = (sem', Ok tt)) by (eexists; vm_compute; reflexivity).
  destruct A as (sem' & A). unfold rt_eval. rewrite P. cbn [rt_new r_sem r_eval]. rewrite A. unfold eval_prog. replace (k + 2) with (S (S k)) by lia.
  change (eval_stmt (S (S k)) E false) with (fun s st => eval_stmt (S (S k)) E false s st). cbn [run_list].
  assert (X : forall s, eval_stmt (S (S k)) E false s (SWhile (EBool true) [SPrint (EInt 1)]) = in_scope s (while_loop (eval_stmt (S k) E false) (S k) E (S k) (EBool true) [SPrint (EInt 1)])) by reflexivity.
  rewrite X. unfold in_scope. destruct (L (S k) (with_vars (eval_new E) (push_scope (e_vars (eval_new E))))) as (s' & H1 & H2 & H3). rewrite H1, H3. cbn [with_vars e_vars push_scope pop_scope].
  cbn [into_eval_result p_world p_status r_eval with_vars e_w]. split; [|reflexivity]. rewrite H2. cbn [with_vars e_w]. unfold eval_new. destruct (getcwd E); reflexivity.
Qed.
Print Assumptions C79_endless_output.
Example C79_example :
  let run n := process n (demo_env true) (mk_host true true true) MRepl [RlLine (s_ "i = 0; while i < 5 { i += 1; i; } 7"); RlEof] in
  p_status (run 4) = StBudget /\ p_status (run 40) = StExit 0 /\ stdout (run 4) <> stdout (run 40) /\ stdout (run 4) <> banner.
Proof. cbv zeta. split; [vm_compute; reflexivity|]. split; [vm_compute; reflexivity|]. split; vm_compute; discriminate. Qed.
