(** C77: what a run of the program shows and how it ends. *)
From Verif Require Import Base Ast Pom Parse Structs Value Variables Semantics Fs Eval Runtime Input Main Process Spec_Run Spec_Text Spec_Session Spec_Safe Spec_Driver Spec_Process Demo Lib
  Proof_Run Proof_Session Proof_Safe Proof_Driver Proof_Sim Proof_Process.
From Coq Require Import Lia.
Arguments s_ s%string_scope.

(** ** Script mode *)
(** stdout is what the script writes and nothing else, and exit code and messages follow its result *)
Theorem C77_script :
  forall n E H c evs, logger_ok H = true ->
  let p := process n E H (MScript (Some c)) evs in
  let '(r, q) := rt_eval n E false (rt_new E) (strip_comments c) in
  p_world p = e_w (r_eval r) /\ p_results p = [q] /\ p_save p = false /\
  p_status p = match q with ROk | RQuit => StExit 0 | RErr _ => StExit 1 | RPanic _ => StExit 101 | RFuel => StBudget end /\
  p_err p = match q with RErr e => [NtError e; NtMain] | RPanic _ => [NtPanic] | _ => [] end.
Proof.
  intros n E H c evs HL. cbv zeta. unfold process, process_script. rewrite HL, start_new. destruct (rt_eval n E false (rt_new E) (strip_comments c)) as [r q]. destruct q; repeat split.
Qed.
Print Assumptions C77_script.
Theorem C77_script_status :
  forall n E H c evs, logger_ok H = true ->
  p_status (process n E H (MScript c) evs) = match snd (script n E c) with ExSuccess => StExit 0 | ExFailure => StExit 1 | ExCrash _ => StExit 101 | ExFuel => StBudget end.
Proof.
  intros n E H c evs HL. unfold process, process_script, script. rewrite HL. destruct c as [c|]; [|reflexivity]. rewrite start_new. destruct (rt_eval n E false (rt_new E) (strip_comments c)) as [r []]; reflexivity.
Qed.
Print Assumptions C77_script_status.
(** a script that cannot be read, a logger or an editor that does not start: exit code 1, and nothing
    was written, opened or searched *)
Theorem C77_nothing_started :
  forall n E H m evs, logger_ok H = false \/ m = MScript None \/ m = MRepl /\ editor_ok H = false ->
  process n E H m evs = mk_proc (mk_world [] []) [] [NtMain] false (StExit 1).
Proof.
  intros n E H m evs HC. unfold process, process_repl. destruct (logger_ok H); [|reflexivity]. destruct HC as [HC|[->|[-> HC]]]; [discriminate|reflexivity|rewrite HC; reflexivity].
Qed.
Print Assumptions C77_nothing_started.
(** a script run depends neither on the terminal nor on the history file *)
Theorem C77_script_ignores_terminal :
  forall n E H H' c evs evs', logger_ok H = logger_ok H' -> process n E H (MScript c) evs = process n E H' (MScript c) evs'.
Proof. intros n E H H' c evs evs' HL. unfold process. rewrite HL. reflexivity. Qed.
Print Assumptions C77_script_ignores_terminal.

(** ** Interactive mode *)
(** at every moment, stdout is the welcome message followed by the output of the inputs read so far,
    in order, and stderr has the messages of these inputs *)
Theorem C77_waiting :
  forall n E H evs r out err, logger_ok H = true -> editor_ok H = true -> reliable E ->
  listens n E (first_state E) evs r out err ->
  let p := process n E H MRepl evs in
  stdout p = banner ++ out /\ p_err p = err /\ p_save p = false /\ p_status p = StWaiting.
Proof.
  intros n E H evs r out err HL HD HR Hl. cbv zeta. unfold process, process_repl, stdout. rewrite HL, HD, (welcome_reliable E HR). fold (first_state E).
  destruct (loop_listens n E HR _ _ _ _ _ Hl []) as (q & G). rewrite app_nil_r in G. rewrite G. cbn [process_loop]. cbn [p_world p_err p_save p_status]. rewrite (listens_out _ _ _ _ _ _ _ Hl), app_nil_r.
  replace (w_out (e_w (r_eval (first_state E)))) with banner; [repeat split|]. unfold first_state, rt_start, eval_start. destruct (getcwd E); reflexivity.
Qed.
Print Assumptions C77_waiting.
Theorem C77_end_of_file :
  forall n E H pre post r out err, logger_ok H = true -> editor_ok H = true -> reliable E ->
  listens n E (first_state E) pre r out err ->
  let p := process n E H MRepl (pre ++ RlEof :: post) in
  stdout p = banner ++ out ++ quit_line /\ p_save p = save_ok H /\
  (p_status p, p_err p) = if save_ok H then (StExit 0, err) else (StExit 1, err ++ [NtMain]).
Proof.
  intros n E H pre post r out err HL HD HR Hl. cbv zeta. unfold process, process_repl, stdout. rewrite HL, HD, (welcome_reliable E HR). fold (first_state E).
  destruct (loop_listens n E HR _ _ _ _ _ Hl (RlEof :: post)) as (q & G). rewrite G. cbn [process_loop]. rewrite (println_reliable E _ _ HR).
  assert (X : w_out (e_w (r_eval (first_state E))) = banner) by (unfold first_state, rt_start, eval_start; destruct (getcwd E); reflexivity).
  destruct (save_ok H); cbn [p_world p_err p_save p_status rt_with_w r_eval with_w e_w w_out]; rewrite (listens_out _ _ _ _ _ _ _ Hl), X, ?app_nil_r, <- app_assoc; repeat split.
Qed.
Print Assumptions C77_end_of_file.
Theorem C77_quit :
  forall n E H pre l post r r' out err, logger_ok H = true -> editor_ok H = true -> reliable E ->
  listens n E (first_state E) pre r out err -> rt_eval n E true r (clean l) = (r', RQuit) ->
  let p := process n E H MRepl (pre ++ RlLine l :: post) in
  (exists last, w_out (e_w (r_eval r')) = w_out (e_w (r_eval r)) ++ last /\ stdout p = banner ++ out ++ last) /\ p_save p = save_ok H /\
  (p_status p, p_err p) = if save_ok H then (StExit 0, err) else (StExit 1, err ++ [NtMain]).
Proof.
  intros n E H pre l post r r' out err HL HD HR Hl He. cbv zeta. unfold process, process_repl, stdout. rewrite HL, HD, (welcome_reliable E HR). fold (first_state E).
  destruct (loop_listens n E HR _ _ _ _ _ Hl (RlLine l :: post)) as (q & G). rewrite G. cbn [process_loop]. rewrite He. destruct (out_grows _ _ _ _ _ _ _ He) as (u & Hu).
  assert (X : w_out (e_w (r_eval (first_state E))) = banner) by (unfold first_state, rt_start, eval_start; destruct (getcwd E); reflexivity).
  destruct (save_ok H); cbn [p_world p_err p_save p_status]; rewrite ?app_nil_r; (split; [|repeat split]); exists u; rewrite Hu; (split; [reflexivity|]);
  rewrite (listens_out _ _ _ _ _ _ _ Hl), X, <- app_assoc; reflexivity.
Qed.
Print Assumptions C77_quit.
(** the exit code: 0 exactly when the user left and the history was saved, 1 when it could not be
    saved; errors in commands do not count *)
Theorem C77_exit_status :
  forall n E H evs, logger_ok H = true -> editor_ok H = true -> reliable E ->
  let p := process n E H MRepl evs in
  (p_status p = StExit 0 <-> save_ok H = true /\ at_some_input n E evs (leaves n E)) /\
  (p_status p = StExit 1 <-> save_ok H = false /\ at_some_input n E evs (leaves n E)) /\
  (p_status p = StExit 101 <-> at_some_input n E evs (aborts n E)) /\
  (p_status p = StWaiting <-> exists r out err, listens n E (first_state E) evs r out err) /\
  (p_save p = true <-> p_status p = StExit 0).
Proof.
  intros n E H evs HL HD HR. cbv zeta.
  assert (F0 : forall pre x post r out err, evs = pre ++ x :: post -> listens n E (first_state E) pre r out err -> leaves n E r x -> p_status (process n E H MRepl evs) = if save_ok H then StExit 0 else StExit 1).
  { intros pre x post r out err -> Hl [->|(l & r' & -> & He)].
    - destruct (C77_end_of_file n E H pre post r out err HL HD HR Hl) as (_ & _ & G). destruct (save_ok H); injection G as G _; exact G.
    - destruct (C77_quit n E H pre l post r r' out err HL HD HR Hl He) as (_ & _ & G). destruct (save_ok H); injection G as G _; exact G. }
  assert (F1 : at_some_input n E evs (aborts n E) -> p_status (process n E H MRepl evs) = StExit 101).
  { intros (pre & x & post & r & out & err & -> & Hl & (l & r' & p & -> & He)). unfold process, process_repl. rewrite HL, HD, (welcome_reliable E HR). fold (first_state E).
    destruct (loop_listens n E HR _ _ _ _ _ Hl (RlLine l :: post)) as (q & G). rewrite G. cbn [process_loop]. rewrite He. reflexivity. }
  assert (F2 : (exists r out err, listens n E (first_state E) evs r out err) -> p_status (process n E H MRepl evs) = StWaiting).
  { intros (r & out & err & Hl). apply (C77_waiting n E H evs r out err HL HD HR Hl). }
  pose proof (loop_cases n E HR evs (first_state E)) as G. revert F0 F1 F2. unfold process, process_repl. rewrite HL, HD, (welcome_reliable E HR). fold (first_state E).
  destruct (process_loop n E (first_state E) evs) as [[[r2 qs] ns] y]. intros F0 F1 F2. destruct y; cbn [plain_end fst snd] in G.
  - destruct G as (pre & x & post & r0 & out & E1 & Hl & HX).
    assert (L : leaves n E r0 x) by (destruct HX as [[-> _]|(l & -> & He)]; [left; reflexivity|right; eauto]).
    assert (A : at_some_input n E evs (leaves n E)) by (exists pre, x, post, r0, out, ns; auto).
    destruct (save_ok H); cbn [p_status p_save] in *; (split; [split; [auto; discriminate|intros [Q _]; first [reflexivity|discriminate]]|]); (split; [split; [auto; discriminate|intros [Q _]; first [reflexivity|discriminate]]|]);
    (split; [split; [discriminate|intros Q; discriminate (F1 Q)]|]); (split; [split; [discriminate|intros Q; discriminate (F2 Q)]|]); split; auto; discriminate.
  - destruct G as (pre & l & post & r0 & p & out & ns' & E1 & Hl & _ & He).
    assert (A : at_some_input n E evs (aborts n E)) by (exists pre, (RlLine l), post, r0, out, ns'; split; [exact E1|split; [exact Hl|exists l, r2, p; auto]]).
    cbn [p_status p_save] in *. split; [split; [discriminate|intros [Hs (pre' & x & post' & r & o & er & E2 & Hl' & HV)]; specialize (F0 _ _ _ _ _ _ E2 Hl' HV); rewrite Hs in F0; discriminate]|].
    split; [split; [discriminate|intros [Hs (pre' & x & post' & r & o & er & E2 & Hl' & HV)]; specialize (F0 _ _ _ _ _ _ E2 Hl' HV); rewrite Hs in F0; discriminate]|].
    split; [split; [auto|reflexivity]|]. split; [split; [discriminate|intros Q; discriminate (F2 Q)]|]. split; discriminate.
  - destruct G as (out & Hl). cbn [p_status p_save] in *. split; [split; [discriminate|intros [Hs (pre' & x & post' & r & o & er & E2 & Hl' & HV)]; specialize (F0 _ _ _ _ _ _ E2 Hl' HV); rewrite Hs in F0; discriminate]|].
    split; [split; [discriminate|intros [Hs (pre' & x & post' & r & o & er & E2 & Hl' & HV)]; specialize (F0 _ _ _ _ _ _ E2 Hl' HV); rewrite Hs in F0; discriminate]|].
    split; [split; [discriminate|intros Q; discriminate (F1 Q)]|]. split; [split; [intros _; eauto|reflexivity]|]. split; discriminate.
  - cbn [p_status p_save] in *. split; [split; [discriminate|intros [Hs (pre' & x & post' & r & o & er & E2 & Hl' & HV)]; specialize (F0 _ _ _ _ _ _ E2 Hl' HV); rewrite Hs in F0; discriminate]|].
    split; [split; [discriminate|intros [Hs (pre' & x & post' & r & o & er & E2 & Hl' & HV)]; specialize (F0 _ _ _ _ _ _ E2 Hl' HV); rewrite Hs in F0; discriminate]|].
    split; [split; [discriminate|intros Q; discriminate (F1 Q)]|]. split; [split; [discriminate|intros Q; discriminate (F2 Q)]|]. split; discriminate.
Qed.
Print Assumptions C77_exit_status.
(** every failing command is reported on stderr once, in order, and no other error is *)
Theorem C77_errors_are_reported :
  forall n E H m evs, reported (p_err (process n E H m evs)) = failures (p_results (process n E H m evs)).
Proof.
  intros n E H m evs. unfold process. destruct (logger_ok H); [|reflexivity]. destruct m as [[c|]|]; cbn [process_script].
  - destruct (rt_eval n E false (rt_start E (mk_world [] [])) (strip_comments c)) as [r []]; reflexivity.
  - reflexivity.
  - unfold process_repl. destruct (editor_ok H); [|reflexivity]. destruct (printlns E (mk_world [] []) welcome_lines) as [w []]; [|reflexivity].
    pose proof (loop_reports n E evs (rt_start E w)) as G. destruct (process_loop n E (rt_start E w) evs) as [[[r2 qs] ns] []]; cbn [p_err p_results]; try exact G.
    destruct (save_ok H); cbn [p_err p_results]; [exact G|]. unfold reported. rewrite flat_map_app. cbn [flat_map]. rewrite app_nil_r. exact G.
Qed.
Print Assumptions C77_errors_are_reported.
(** built without overflow checks and with a working stdout, the program never aborts *)
Theorem C77_release_never_aborts :
  forall n E H m evs, env_typed E -> reliable E -> overflow_checks E = false -> p_status (process n E H m evs) <> StExit 101.
Proof.
  intros n E H m evs HE HR Ho. unfold process. destruct (logger_ok H); [|discriminate]. destruct m as [[c|]|]; cbn [process_script]; [|discriminate|].
  - pose proof (rt_eval_ok n E false (rt_start E (mk_world [] [])) (strip_comments c) HE (inv_start E _) (ok_start E _ HE)) as [_ G].
    destruct (rt_eval n E false (rt_start E (mk_world [] [])) (strip_comments c)) as [r []]; try discriminate. destruct G. congruence.
  - unfold process_repl. destruct (editor_ok H); [|discriminate]. rewrite (welcome_reliable E HR).
    pose proof (loop_safe n E HR HE Ho evs (rt_start E greeted) (inv_start E _) (ok_start E _ HE)) as G.
    destruct (process_loop n E (rt_start E greeted) evs) as [[[r2 qs] ns] []]; try discriminate; [destruct (save_ok H); discriminate|]. elim G. reflexivity.
Qed.
Print Assumptions C77_release_never_aborts.
(** when stdout cannot even take the welcome message, the program aborts before it opens anything *)
Theorem C77_closed_stdout :
  forall n E H evs k, logger_ok H = true -> editor_ok H = true -> (forall t, sink E 0 t = SkErr k) ->
  let p := process n E H MRepl evs in
  p_status p = StExit 101 /\ p_results p = [] /\ p_save p = false /\ exists t, w_log (p_world p) = [EvWrite t].
Proof.
  intros n E H evs k HL HD HS. cbv zeta.
  assert (X : forall l, println E (mk_world [] []) l = (mk_world [EvWrite (l ++ nl)] (firstn k (l ++ nl)), false)).
  { intros l. unfold println. change (tick (mk_world [] [])) with 0. rewrite HS. reflexivity. }
  unfold process, process_repl, welcome_lines. rewrite HL, HD. cbn [printlns]. rewrite X. repeat split. eexists. reflexivity.
Qed.
Print Assumptions C77_closed_stdout.
(** the commands of an interactive run behave as a session that starts three writes later: all
    properties of sessions hold of the program (stated for runs without read errors) *)
Theorem C77_is_a_session :
  forall n E H evs, logger_ok H = true -> editor_ok H = true -> reliable E -> (forall x, In x evs -> x <> RlError) ->
  let p := process n E H MRepl evs in
  let '(r, rs, x) := repl n (delayed 3 E) evs in
  p_results p = rs /\
  (p_status p = match x with ReDone => StExit (if save_ok H then 0 else 1) | ReCrash _ => StExit 101 | ReFuel => StBudget | ReWaiting => StWaiting end) /\
  exists tail, (tail = [] \/ tail = quit_line /\ x = ReDone /\ In RlEof evs) /\ stdout p = banner ++ w_out (e_w (r_eval r)) ++ tail.
Proof.
  intros n E H evs HL HD HR HN. cbv zeta. unfold process, process_repl, stdout, repl. rewrite HL, HD, (welcome_reliable E HR).
  pose proof (loop_session n E greeted HR evs HN _ _ (start_shift E greeted)) as G. change (tick greeted) with 3 in G.
  destruct (repl_loop n (delayed 3 E) (rt_new (delayed 3 E)) evs) as [[r rs] x], (process_loop n E (rt_start E greeted) evs) as [[[r2 qs] ns] y].
  destruct G as (-> & -> & tail & G1 & G2 & _). destruct x; cbn [loop_of]; [destruct (save_ok H)|..]; cbn [p_results p_status p_world]; (split; [reflexivity|split; [reflexivity|exists tail; split; [exact G1|exact G2]]]).
Qed.
Print Assumptions C77_is_a_session.

Definition demo_host : host := mk_host true true true.
Definition demo_inputs : list readline :=
  [RlLine (s_ "x = 41"); RlLine (s_ "x / 0"); RlInterrupted; RlError; RlLine (s_ "x + 1"); RlEof; RlLine (s_ "x")].
Example C77_example :
  let p := process 300 (demo_env true) demo_host MRepl demo_inputs in
  stdout p = s_ "btrd (the btrfs debugger) v0.5.3
Type 'help' for help

quit
42
quit
" /\ p_err p = [NtError EDivideByZero; NtHint; NtReadError] /\ p_results p = [ROk; RErr EDivideByZero; ROk] /\ p_status p = StExit 0 /\ p_save p = true.
Proof. vm_compute. repeat split. Qed.
Example C77_example_listens :
  exists r out err, listens 300 (demo_env true) (first_state (demo_env true)) (firstn 5 demo_inputs) r out err /\ out = s_ "quit
42
" /\ leaves 300 (demo_env true) r RlEof /\ reliable (demo_env true).
Proof.
  assert (HR : reliable (demo_env true)) by (intros i t; reflexivity).
  pose proof (loop_cases 300 (demo_env true) HR (firstn 5 demo_inputs) (first_state (demo_env true))) as G.
  assert (X : snd (process_loop 300 (demo_env true) (first_state (demo_env true)) (firstn 5 demo_inputs)) = LeWaiting) by (vm_compute; reflexivity).
  assert (Y : w_out (e_w (r_eval (fst (fst (fst (process_loop 300 (demo_env true) (first_state (demo_env true)) (firstn 5 demo_inputs))))))) = banner ++ s_ "quit
42
") by (vm_compute; reflexivity).
  destruct (process_loop 300 (demo_env true) (first_state (demo_env true)) (firstn 5 demo_inputs)) as [[[r2 qs] ns] y]. cbn [fst snd] in *. subst y. destruct G as (out & Hl).
  exists r2, out, ns. split; [exact Hl|]. split; [|split; [left; reflexivity|exact HR]]. cbn [fst] in Hl. rewrite (listens_out _ _ _ _ _ _ _ Hl) in Y.
  assert (Z : w_out (e_w (r_eval (first_state (demo_env true)))) = banner) by (vm_compute; reflexivity). rewrite Z in Y. apply app_inv_head in Y. exact Y.
Qed.
Example C77_example_script :
  let p := process 300 (demo_env true) demo_host (MScript (Some (s_ "print 6 * 7; # answer
print y;"))) [] in stdout p = [] /\ p_status p = StExit 1 /\ p_err p = [NtError (EUnknownVariable (s_ "y")); NtMain].
Proof. vm_compute. repeat split. Qed.
Example C77_example_no_history :
  let p := process 300 (demo_env true) (mk_host true true false) MRepl [RlLine (s_ "quit")] in p_status p = StExit 1 /\ p_err p = [NtMain].
Proof. vm_compute. repeat split. Qed.
