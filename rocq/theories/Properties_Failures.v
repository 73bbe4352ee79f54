(** C80: no failure is swallowed. *)
From Verif Require Import Base Ast Pom Parse Structs Definitions Value Variables Semantics Fs Eval Runtime Input Main Process Spec_Run Spec_Text Spec_Session Spec_Driver Spec_Process Spec_Fs Spec_Failures Demo Lib
  Proof_Run Proof_Fs Proof_Driver Proof_Process Proof_Failures.
From Coq Require Import Lia.
Arguments s_ s%string_scope.

(** ** Commands *)
(** a command that succeeds (or quits) saw no failure at all *)
Theorem C80_success_means_no_failure :
  forall n E inter r cmd r' q, rt_eval n E inter r cmd = (r', q) -> q = ROk \/ q = RQuit ->
  exists l, between (e_w (r_eval r)) (e_w (r_eval r')) l /\ all_good E (length (w_log (e_w (r_eval r)))) l.
Proof.
  intros n E inter r cmd r' q H Hq. apply rt_eval_minds in H. destruct H as (l & A & B). exists l. split; [exact A|]. destruct Hq as [-> | ->]; exact B.
Qed.
Print Assumptions C80_success_means_no_failure.
(** whatever its result, a command does nothing more after the first failure *)
Theorem C80_stops_at_the_first_failure :
  forall n E inter r cmd r' q, rt_eval n E inter r cmd = (r', q) ->
  exists l, between (e_w (r_eval r)) (e_w (r_eval r')) l /\ all_good E (length (w_log (e_w (r_eval r)))) (removelast l).
Proof.
  intros n E inter r cmd r' q H. apply rt_eval_minds in H. destruct H as (l & A & B). exists l. split; [exact A|]. destruct (oke q); [apply good_last; exact B|exact B].
Qed.
Print Assumptions C80_stops_at_the_first_failure.
(** so a failing interaction is the last one, and the command does not succeed *)
Theorem C80_failure_ends_the_command :
  forall n E inter r cmd r' q l j ev, rt_eval n E inter r cmd = (r', q) -> between (e_w (r_eval r)) (e_w (r_eval r')) l ->
  nth_error l j = Some ev -> ~ good_answer E (length (w_log (e_w (r_eval r))) + j) ev ->
  q <> ROk /\ q <> RQuit /\ length l = S j.
Proof.
  intros n E inter r cmd r' q l j ev H Hl Hj Hb. apply rt_eval_minds in H. destruct H as (m & A & B). unfold between in Hl. rewrite A in Hl. apply app_inv_head in Hl. subst m.
  assert (C : oke q = false) by (destruct (oke q); [elim Hb; exact (B j ev Hj)|reflexivity]). rewrite C in B.
  split; [intros ->; discriminate|]. split; [intros ->; discriminate|].
  destruct (Nat.eq_dec (length l) (S j)) as [L|L]; [exact L|]. elim Hb. apply B. assert (X : j < length l) by (apply nth_error_Some; congruence).
  destruct l as [|x l _] using rev_ind; [cbn in X; lia|]. rewrite removelast_last. rewrite app_length in X, L. cbn in X, L. rewrite nth_error_app1 in Hj by lia. exact Hj.
Qed.
Print Assumptions C80_failure_ends_the_command.
(** the EOVERFLOW that the code lets pass: when the kernel gives it without filling in the count (which
    stays 4294967295, as the request was sent), the command fails *)
Theorem C80_kernel_overflow :
  forall n E inter r cmd r' q l j fd k nr buf, rt_eval n E inter r cmd = (r', q) -> between (e_w (r_eval r)) (e_w (r_eval r')) l ->
  nth_error l j = Some (EvIoctl fd k) -> ioctl E (length (w_log (e_w (r_eval r))) + j) fd k = IoOverflow nr buf -> (524288 < nr)%Z ->
  q <> ROk /\ q <> RQuit /\ length l = S j.
Proof.
  intros n E inter r cmd r' q l j fd k nr buf H Hl Hj Ha Hn. apply (C80_failure_ends_the_command n E inter r cmd r' q l j _ H Hl Hj). intros (nr' & buf' & [G|G] & L); rewrite Ha in G; [discriminate|]. injection G as <- <-. lia.
Qed.
Print Assumptions C80_kernel_overflow.

(** ** The program *)
Lemma start_log E w : exists l, w_log (e_w (r_eval (rt_start E w))) = w_log w ++ l /\ (l = [] \/ exists cwd, getcwd E = Some cwd /\ l = [EvOpen cwd]).
Proof.
  unfold rt_start, eval_start. destruct (getcwd E) as [c|]; [|exists []; split; [rewrite app_nil_r; reflexivity|left; reflexivity]]. exists [EvOpen c]. split; [reflexivity|right; exists c; split; reflexivity].
Qed.
Lemma run_good_from E w l m : all_good E 0 (w_log w) -> (l = [] \/ exists cwd, getcwd E = Some cwd /\ l = [EvOpen cwd]) -> all_good E (length (w_log w ++ l)) m -> run_good E (length (w_log w)) ((w_log w ++ l) ++ m).
Proof.
  intros Hw Hl Hm i ev H. destruct (Nat.lt_ge_cases i (length (w_log w ++ l))) as [L|L].
  - rewrite nth_error_app1 in H by exact L. destruct (Nat.lt_ge_cases i (length (w_log w))) as [L2|L2].
    + rewrite nth_error_app1 in H by exact L2. right. exact (Hw i ev H).
    + rewrite nth_error_app2 in H by exact L2. destruct Hl as [->|(cwd & Hc & ->)]; [destruct (i - length (w_log w)); discriminate|].
      destruct (i - length (w_log w)) as [|k] eqn:D; [|destruct k; discriminate]. injection H as <-. left. split; [lia|exists cwd; split; [exact Hc|reflexivity]].
  - rewrite nth_error_app2 in H by exact L. right. apply Hm in H. replace (length (w_log w ++ l) + (i - length (w_log w ++ l))) with i in H by lia. exact H.
Qed.
(** a script that exits with 0 ran without any failure *)
Theorem C80_script_exit_0 :
  forall n E H c evs, let p := process n E H (MScript c) evs in p_status p = StExit 0 -> run_good E 0 (w_log (p_world p)).
Proof.
  intros n E H c evs. cbv zeta. unfold process, process_script. destruct (logger_ok H); [|discriminate]. destruct c as [c|]; [|discriminate].
  destruct (rt_eval n E false (rt_start E (mk_world [] [])) (strip_comments c)) as [r q] eqn:He. apply rt_eval_minds in He. destruct He as (m & A & B). destruct (start_log E (mk_world [] [])) as (l & C & D).
  unfold tick in B. rewrite C in A, B. intros Hs. destruct q; try discriminate; cbn [p_world]; rewrite A; apply (run_good_from E (mk_world [] [])); try exact D; try exact B; apply good_nil.
Qed.
Print Assumptions C80_script_exit_0.
Lemma println_minds E w line w' ok : println E w line = (w', ok) -> tame E ok w w'.
Proof.
  unfold println. destruct (sink E (tick w) (line ++ nl)) eqn:S; intros H; injection H as <- <-; (exists [EvWrite (line ++ nl)]; split; [reflexivity|]).
  - apply good_one. exact S.
  - apply good_nil.
Qed.
Lemma loop_minds n E : forall evs r r' qs ns x, process_loop n E r evs = (r', qs, ns, x) -> reported ns = [] -> ~ In NtPanic ns -> x <> LeBudget -> tame E true (e_w (r_eval r)) (e_w (r_eval r')).
Proof.
  induction evs as [|ev evs IH]; intros r r' qs ns x H Hr Hp Hx; cbn [process_loop] in H; [injection H as <- <- <- <-; apply tame_refl|]. destruct ev as [line| | |].
  - destruct (rt_eval n E true r (clean line)) as [r1 q] eqn:He. apply rt_eval_minds in He. destruct q.
    + destruct (process_loop n E r1 evs) as [[[r2 qs2] ns2] x2] eqn:Hl. injection H as <- <- <- <-. eapply tame_trans; [exact He|]. exact (IH _ _ _ _ _ Hl Hr Hp Hx).
    + injection H as <- <- <- <-. exact He.
    + destruct (process_loop n E r1 evs) as [[[r2 qs2] ns2] x2]. injection H as <- <- <- <-. discriminate.
    + injection H as <- <- <- <-. elim Hp. left. reflexivity.
    + injection H as <- <- <- <-. elim Hx. reflexivity.
  - destruct (process_loop n E r evs) as [[[r2 qs2] ns2] x2] eqn:Hl. injection H as <- <- <- <-. refine (IH _ _ _ _ _ Hl Hr _ Hx). intros I. apply Hp. right. exact I.
  - destruct (println E (e_w (r_eval r)) (s_ "quit")) as [w [|]] eqn:Hw; apply println_minds in Hw; injection H as <- <- <- <-; [exact Hw|]. elim Hp. left. reflexivity.
  - destruct (println E (e_w (r_eval r)) (s_ "quit")) as [w [|]] eqn:Hw; apply println_minds in Hw.
    + destruct (process_loop n E (rt_with_w r w) evs) as [[[r2 qs2] ns2] x2] eqn:Hl. injection H as <- <- <- <-. eapply tame_trans; [exact Hw|]. apply (IH _ _ _ _ _ Hl Hr); [|exact Hx]. intros I. apply Hp. right. exact I.
    + injection H as <- <- <- <-. elim Hp. right. left. reflexivity.
Qed.
(** an interactive run that reports no error on stderr had no failure *)
Theorem C80_quiet_session :
  forall n E H evs, let p := process n E H MRepl evs in
  reported (p_err p) = [] -> ~ In NtPanic (p_err p) -> p_status p <> StBudget -> run_good E 3 (w_log (p_world p)).
Proof.
  intros n E H evs. cbv zeta. unfold process, process_repl.
  assert (N : run_good E 3 []) by (intros [|i] ev Q; discriminate).
  destruct (logger_ok H); [|intros; exact N]. destruct (editor_ok H); [|intros; exact N].
  destruct (printlns E (mk_world [] []) welcome_lines) as [w ok] eqn:Hw.
  assert (G : ok = true -> all_good E 0 (w_log w) /\ length (w_log w) = 3).
  { intros ->. unfold welcome_lines in Hw. cbn [printlns] in Hw. unfold println in Hw.
    repeat match type of Hw with context [sink ?e ?i ?t] => destruct (sink e i t) eqn:?; cbn [andb] in Hw; [|discriminate Hw] end. injection Hw as <-.
    split; [|reflexivity]. cbn [w_log app]. intros [|[|[|i]]] ev Q; try (injection Q as <-; assumption). destruct i; discriminate. }
  destruct ok; [|intros Hr Hp Hs; elim Hp; left; reflexivity]. destruct (G eq_refl) as [G1 G2]. clear G Hw.
  destruct (process_loop n E (rt_start E w) evs) as [[[r qs] ns] x] eqn:Hl.
  assert (M : reported ns = [] -> ~ In NtPanic ns -> x <> LeBudget -> run_good E 3 (w_log (e_w (r_eval r)))).
  { intros A B C. destruct (loop_minds _ _ _ _ _ _ _ _ Hl A B C) as (m & D & F). destruct (start_log E w) as (l & K & L). unfold tick in F. rewrite K in D, F. rewrite D, <- G2. apply run_good_from; assumption. }
  destruct x; [destruct (save_ok H)| | |]; cbn [p_err p_status p_world]; intros Hr Hp Hs.
  - apply M; [exact Hr|exact Hp|discriminate].
  - unfold reported in Hr. rewrite flat_map_app in Hr. cbn [flat_map] in Hr. rewrite app_nil_r in Hr. apply M; [exact Hr| |discriminate]. intros I. apply Hp, in_or_app. left. exact I.
  - apply M; [exact Hr|exact Hp|discriminate].
  - apply M; [exact Hr|exact Hp|discriminate].
  - elim Hs. reflexivity.
Qed.
Print Assumptions C80_quiet_session.

(** ** Not vacuous *)
(** a pipe that breaks at the second line, a directory that is not btrfs, and a kernel that refuses *)
Definition broken_pipe : env := mk_env true (fun _ _ _ => IoErr) (fun _ p => if str_eqb p (s_ "/mnt") then OpDir 3 (Some btrfs_type) else OpDir 4 (Some 61267)%Z) (fun i _ => if i =? 1 then SkErr 0 else SkOk) None.
Definition overflowing : env := mk_env true (fun _ _ _ => IoOverflow 524289 (repeat 255%N 32)) (fun _ _ => OpDir 3 (Some btrfs_type)) (fun _ _ => SkOk) None.
Example C80_example :
  let run E (c : string) := rt_eval 40 E false (rt_new E) (s_ c) in
  snd (run broken_pipe "print 1;"%string) = ROk /\
  (forall r q, run broken_pipe "print 1; print 2; print 3;"%string = (r, q) -> q <> ROk /\ length (w_log (e_w (r_eval r))) = 2) /\
  (forall r q, run broken_pipe "filesystem ""/mnt""; search(ROOT_TREE_OBJECTID, key(0, 0, 0, 0)); print 1;"%string = (r, q) -> q <> ROk) /\
  (forall r q, run broken_pipe "filesystem ""/home""; print 1;"%string = (r, q) -> q <> ROk /\ length (w_log (e_w (r_eval r))) = 1) /\
  (forall r q, run overflowing "filesystem ""/mnt""; x = search(1, key(0, 255, 0, 18446744073709551615)); print 1;"%string = (r, q) -> q <> ROk).
Proof.
  cbv zeta. split; [vm_compute; reflexivity|]. split; [|split; [|split]]; intros r q H; vm_compute in H; injection H as <- <-; repeat split; discriminate.
Qed.
