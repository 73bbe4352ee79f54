(** C97: debug and release builds.  Built with and without overflow checks the program does the same,
    unless the one with the checks crashes; and until it crashes it did what the other one does. *)
From Verif Require Import Base Ast Pom Parse Structs Definitions Value Variables Semantics Fs Eval Runtime Input Main Process Spec_Run Spec_Session Spec_Search Spec_Safe Spec_Driver Spec_Process Spec_Fs Spec_Build
  Demo Proof_Driver Proof_Process Proof_Build Properties_Safe Properties_Process.
From Coq Require Import Lia.
Arguments s_ s%string_scope.

(** A run, of a script or interactive, is the same, or the debug build crashed on the way. *)
Theorem C97_the_same_or_crashed_on_the_way :
  forall n E H m evs,
  process n (built true E) H m evs = process n (built false E) H m evs \/
  crashed_on_the_way (process n (built true E) H m evs) (process n (built false E) H m evs).
Proof. intros n E H m evs. exact (process_builds E n H m evs). Qed.
Print Assumptions C97_the_same_or_crashed_on_the_way.
(** It is the same exactly if no command crashes the debug build. *)
Theorem C97_the_same_if_nothing_crashes :
  forall n E H m evs, env_typed E ->
  process n (built true E) H m evs = process n (built false E) H m evs <-> (forall p, ~ In (RPanic p) (p_results (process n (built true E) H m evs))).
Proof.
  intros n E H m evs HE. split.
  - intros Q p HI. rewrite Q in HI. destruct (process_panics n (built false E) H m evs p (HE : env_typed (built false E)) HI) as [_ X]. discriminate.
  - intros HN. destruct (process_builds E n H m evs) as [Q|(_ & _ & (b & p & a & Q & _) & _)]; [exact Q|]. elim (HN p). rewrite Q. apply in_or_app. right. left. reflexivity.
Qed.
Print Assumptions C97_the_same_if_nothing_crashes.
(** In particular a debug build that does not end with 101 shows what the release build shows. *)
Theorem C97_what_debug_shows_is_right :
  forall n E H m evs, p_status (process n (built true E) H m evs) <> StExit 101 ->
  process n (built false E) H m evs = process n (built true E) H m evs.
Proof. intros n E H m evs HN. destruct (process_builds E n H m evs) as [Q|(Q & _)]; [symmetry; exact Q|contradiction]. Qed.
Print Assumptions C97_what_debug_shows_is_right.
(** And what a release build does beyond that is only ever done where an arithmetic overflow happened. *)
Theorem C97_crashes_are_overflows :
  forall n E H m evs, env_typed E -> crashed_on_the_way (process n (built true E) H m evs) (process n (built false E) H m evs) ->
  exists before, p_results (process n (built true E) H m evs) = before ++ [RPanic PArith].
Proof.
  intros n E H m evs HE (_ & _ & (b & p & a & Q & _) & _). exists b. rewrite Q.
  assert (HI : In (RPanic p) (p_results (process n (built true E) H m evs))) by (rewrite Q; apply in_or_app; right; left; reflexivity).
  destruct (process_panics n (built true E) H m evs p (HE : env_typed (built true E)) HI) as [-> _]. reflexivity.
Qed.
Print Assumptions C97_crashes_are_overflows.
(** The same for one command, in any state: the same state and result, or a crash after a part of what the other build does. *)
Theorem C97_commands :
  forall n E inter r cmd,
  let d := rt_eval n (built true E) inter r cmd in let q := rt_eval n (built false E) inter r cmd in
  d = q \/ ((exists p, snd d = RPanic p) /\ appended (e_w (r_eval (fst d))) (e_w (r_eval (fst q)))).
Proof. intros n E inter r cmd. exact (rt_eval_builds E n inter r cmd). Qed.
Print Assumptions C97_commands.

(** ** Not vacuous *)
(** a program that is the same in both builds, and one where the debug build crashes: it negates the smallest
    integer, and what the release build prints then is wrong *)
Example C97_example :
  let run b c := process 300 (built b (demo_env true)) demo_host (MScript (Some (s_ c))) [] in
  run true "print 1; print -5; print 2/0;"%string = run false "print 1; print -5; print 2/0;"%string /\
  p_status (run true "print 1; print -5;"%string) = StExit 0 /\
  crashed_on_the_way (run true "print 1; x = -170141183460469231731687303715884105727 - 1; print -x; print 2;"%string) (run false "print 1; x = -170141183460469231731687303715884105727 - 1; print -x; print 2;"%string) /\
  stdout (run true "print 1; x = -170141183460469231731687303715884105727 - 1; print -x; print 2;"%string) = s_ "1
" /\
  stdout (run false "print 1; x = -170141183460469231731687303715884105727 - 1; print -x; print 2;"%string) = s_ "1
-170141183460469231731687303715884105728
2
".
Proof.
  cbv zeta. split; [vm_compute; reflexivity|]. split; [vm_compute; reflexivity|]. split; [|split; vm_compute; reflexivity].
  match goal with |- crashed_on_the_way ?a ?b => let x := eval vm_compute in a in let y := eval vm_compute in b in replace a with x by (vm_compute; reflexivity); replace b with y by (vm_compute; reflexivity) end.
  split; [reflexivity|]. split; [do 2 eexists; split; reflexivity|]. split; [exists [], PArith, [ROk]; split; reflexivity|]. exists [], []. split; reflexivity.
Qed.
(** the same in a session, where the debug build also loses the commands that follow *)
Example C97_example_session :
  let run b := process 300 (built b (demo_env true)) demo_host MRepl [RlLine (s_ "1"); RlLine (s_ "-(-170141183460469231731687303715884105727 - 1)"); RlLine (s_ "2"); RlEof] in
  p_results (run true) = [ROk; RPanic PArith] /\ p_results (run false) = [ROk; ROk; ROk] /\ p_save (run true) = false /\ p_save (run false) = true.
Proof. vm_compute. repeat split. Qed.
