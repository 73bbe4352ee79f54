(** Proofs for C77. *)
From Verif Require Import Base Ast Pom Parse Structs Definitions Value Variables Semantics Fs Eval Runtime Input Main Process Lib Spec_Run Spec_Text Spec_Session Spec_Safe Spec_Driver Spec_Process
  Proof_Vars Proof_Run Proof_Session Proof_Parse Proof_Safe Proof_Driver Proof_Sim.
From Coq Require Import Lia.
Arguments s_ s%string_scope.

Lemma start_new E : rt_start E (mk_world [] []) = rt_new E.
Proof. reflexivity. Qed.
Lemma println_reliable E w l : reliable E -> println E w l = (mk_world (w_log w ++ [EvWrite (l ++ nl)]) (w_out w ++ l ++ nl), true).
Proof. intros HR. unfold println. rewrite HR. reflexivity. Qed.
Lemma welcome_reliable E : reliable E -> printlns E (mk_world [] []) welcome_lines = (greeted, true).
Proof. intros HR. unfold welcome_lines. cbn [printlns]. rewrite !(println_reliable E _ _ HR). reflexivity. Qed.
Lemma out_grows n E inter r cmd r' q : rt_eval n E inter r cmd = (r', q) -> exists u, w_out (e_w (r_eval r')) = w_out (e_w (r_eval r)) ++ u.
Proof.
  intros H. pose proof (rt_eval_q E inter appended silent_appended appended_trans n r cmd r' q (fun l st _ _ _ s t s' q' => do_write_appended E s t s' q') H) as (l & u & _ & Q & _). exists u. exact Q.
Qed.

(** ** The loop, input by input *)
Lemma loop_hears n E (HR : reliable E) r x r' out err : hears n E r x r' out err -> forall evs,
  exists q, process_loop n E r (x :: evs) = let '(r2, qs, ns, y) := process_loop n E r' evs in (r2, q ++ qs, err ++ ns, y).
Proof.
  intros H evs. destruct H as [r l r' out H1 H2|r l r' out e H1 H2|r|r r' H1 H2 H3 H4 H5]; cbn [process_loop].
  - rewrite H1. destruct (process_loop n E r' evs) as [[[r2 qs] ns] y]. exists [ROk]. reflexivity.
  - rewrite H1. destruct (process_loop n E r' evs) as [[[r2 qs] ns] y]. exists [RErr e]. reflexivity.
  - destruct (process_loop n E r evs) as [[[r2 qs] ns] y]. exists []. reflexivity.
  - rewrite (println_reliable E _ _ HR).
    assert (X : rt_with_w r (mk_world (w_log (e_w (r_eval r)) ++ [EvWrite (s_ "quit" ++ nl)]) (w_out (e_w (r_eval r)) ++ s_ "quit" ++ nl)) = r').
    { destruct r' as [m [vs f [lg o]]], r as [m0 [vs0 f0 [lg0 o0]]]. cbn [r_sem r_eval e_vars e_fs e_w w_log w_out rt_with_w with_w] in *. subst. reflexivity. }
    rewrite X. destruct (process_loop n E r' evs) as [[[r2 qs] ns] y]. exists []. reflexivity.
Qed.
Lemma loop_listens n E (HR : reliable E) r xs r' out err : listens n E r xs r' out err -> forall evs,
  exists q, process_loop n E r (xs ++ evs) = let '(r2, qs, ns, y) := process_loop n E r' evs in (r2, q ++ qs, err ++ ns, y).
Proof.
  induction 1 as [r|r x r1 o1 n1 xs r2 o2 n2 H _ IH]; intros evs.
  - exists []. cbn [app]. destruct (process_loop n E r evs) as [[[r2 qs] ns] y]. reflexivity.
  - cbn [app]. destruct (loop_hears n E HR _ _ _ _ _ H (xs ++ evs)) as (q1 & H1). rewrite H1. destruct (IH evs) as (q2 & H2). rewrite H2.
    destruct (process_loop n E r2 evs) as [[[r3 qs] ns] y]. exists (q1 ++ q2). rewrite !app_assoc. reflexivity.
Qed.
Lemma listens_out n E r xs r' out err : listens n E r xs r' out err -> w_out (e_w (r_eval r')) = w_out (e_w (r_eval r)) ++ out.
Proof.
  induction 1 as [r|r x r1 o1 n1 xs r2 o2 n2 H _ IH]; [rewrite app_nil_r; reflexivity|]. rewrite IH, app_assoc. f_equal.
  destruct H; try assumption. rewrite app_nil_r. reflexivity.
Qed.
Definition plain_end n E r evs (y : loop_end) (res : rt * list eres * list notice) : Prop :=
  match y with
  | LeWaiting => exists out, listens n E r evs (fst (fst res)) out (snd res)
  | LeBreak => exists pre x post r0 out, evs = pre ++ x :: post /\ listens n E r pre r0 out (snd res) /\
      ((x = RlEof /\ e_w (r_eval (fst (fst res))) = mk_world (w_log (e_w (r_eval r0)) ++ [EvWrite quit_line]) (w_out (e_w (r_eval r0)) ++ quit_line)) \/
       exists l, x = RlLine l /\ rt_eval n E true r0 (clean l) = (fst (fst res), RQuit))
  | LePanic => exists pre l post r0 p out ns, evs = pre ++ RlLine l :: post /\ listens n E r pre r0 out ns /\ snd res = ns ++ [NtPanic] /\ rt_eval n E true r0 (clean l) = (fst (fst res), RPanic p)
  | LeBudget => exists pre l post r0 out, evs = pre ++ RlLine l :: post /\ listens n E r pre r0 out (snd res) /\ rt_eval n E true r0 (clean l) = (fst (fst res), RFuel)
  end.
Lemma plain_step n E r x r1 o1 n1 evs y r2 qs ns q : hears n E r x r1 o1 n1 -> plain_end n E r1 evs y (r2, qs, ns) -> plain_end n E r (x :: evs) y (r2, q, n1 ++ ns).
Proof.
  intros H HP. destruct y; cbn [plain_end fst snd] in *.
  - destruct HP as (pre & z & post & r0 & out & E1 & HL & HZ). exists (x :: pre), z, post, r0, (o1 ++ out). split; [rewrite E1; reflexivity|]. split; [econstructor; eassumption|exact HZ].
  - destruct HP as (pre & z & post & r0 & p & out & ns' & E1 & HL & HN & HZ). exists (x :: pre), z, post, r0, p, (o1 ++ out), (n1 ++ ns'). split; [rewrite E1; reflexivity|]. split; [econstructor; eassumption|]. split; [rewrite HN, app_assoc; reflexivity|exact HZ].
  - destruct HP as (out & HL). exists (o1 ++ out). econstructor; eassumption.
  - destruct HP as (pre & z & post & r0 & out & E1 & HL & HZ). exists (x :: pre), z, post, r0, (o1 ++ out). split; [rewrite E1; reflexivity|]. split; [econstructor; eassumption|exact HZ].
Qed.
Lemma loop_cases n E (HR : reliable E) evs : forall r, let '(r2, qs, ns, y) := process_loop n E r evs in plain_end n E r evs y (r2, qs, ns).
Proof.
  induction evs as [|x evs IH]; intros r; [exists []; constructor|]. destruct x as [l| | |]; cbn [process_loop].
  - destruct (rt_eval n E true r (clean l)) as [r' q] eqn:He. destruct (out_grows _ _ _ _ _ _ _ He) as (u & Hu). destruct q as [| |e|p|].
    + specialize (IH r'). destruct (process_loop n E r' evs) as [[[r2 qs] ns] y]. apply (plain_step n E r (RlLine l) r' u [] evs y r2 qs ns); [constructor; assumption|exact IH].
    + exists [], (RlLine l), evs, r, []. split; [reflexivity|]. split; [constructor|]. right. exists l. split; [reflexivity|exact He].
    + specialize (IH r'). destruct (process_loop n E r' evs) as [[[r2 qs] ns] y]. apply (plain_step n E r (RlLine l) r' u [NtError e] evs y r2 qs ns); [constructor; assumption|exact IH].
    + exists [], l, evs, r, p, [], []. split; [reflexivity|]. split; [constructor|]. split; [reflexivity|exact He].
    + exists [], l, evs, r, []. split; [reflexivity|]. split; [constructor|exact He].
  - specialize (IH r). destruct (process_loop n E r evs) as [[[r2 qs] ns] y]. apply (plain_step n E r RlInterrupted r [] [NtHint] evs y r2 qs ns); [constructor|exact IH].
  - rewrite (println_reliable E _ _ HR). exists [], RlEof, evs, r, []. split; [reflexivity|]. split; [constructor|]. left. split; reflexivity.
  - rewrite (println_reliable E _ _ HR). set (r1 := rt_with_w r _). specialize (IH r1). destruct (process_loop n E r1 evs) as [[[r2 qs] ns] y].
    apply (plain_step n E r RlError r1 quit_line [NtReadError] evs y r2 qs ns); [constructor; reflexivity|exact IH].
Qed.

(** ** Errors are reported once *)
Lemma loop_reports n E evs : forall r, let '(r2, qs, ns, y) := process_loop n E r evs in reported ns = failures qs.
Proof.
  induction evs as [|x evs IH]; intros r; [reflexivity|]. destruct x as [l| | |]; cbn [process_loop].
  - destruct (rt_eval n E true r (clean l)) as [r' q]. specialize (IH r'). destruct (process_loop n E r' evs) as [[[r2 qs] ns] y].
    destruct q as [| |e|p|]; cbn [reported failures flat_map app] in *; try reflexivity; try exact IH. f_equal. exact IH.
  - specialize (IH r). destruct (process_loop n E r evs) as [[[r2 qs] ns] y]. exact IH.
  - destruct (println E (e_w (r_eval r)) (s_ "quit")) as [w []]; reflexivity.
  - destruct (println E (e_w (r_eval r)) (s_ "quit")) as [w []]; [|reflexivity]. specialize (IH (rt_with_w r w)). destruct (process_loop n E (rt_with_w r w) evs) as [[[r2 qs] ns] y]. exact IH.
Qed.

(** ** No aborts without overflow checks *)
Lemma inv_world r w : inv r -> inv (rt_with_w r w).
Proof. intros [A B C F]. constructor; assumption. Qed.
Lemma ok_world d s w : est_ok d s -> est_ok d (with_w s w).
Proof. intros H. exact H. Qed.
Lemma inv_start E w : inv (rt_start E w).
Proof.
  pose proof (inv_new E) as [A B C F]. unfold rt_new, rt_start, eval_new, eval_start, fs_new in *. destruct (getcwd E) as [cwd|]; constructor; assumption.
Qed.
Lemma ok_start E w : env_typed E -> est_ok 1 (eval_start E w).
Proof.
  intros HE. unfold eval_start. destruct (getcwd E) as [cwd|].
  - pose proof (fs_new_good True E HE cwd w) as G. destruct (fs_new E cwd w) as [w' r]. cbn [snd] in G.
    split; [reflexivity|]. split; [lia|]. split; [apply vars_new_ok|]. cbn. destruct r; try (intros img X; discriminate). exact G.
  - split; [reflexivity|]. split; [lia|]. split; [apply vars_new_ok|]. intros img X. discriminate.
Qed.
Lemma rt_eval_ok n E inter r cmd : env_typed E -> inv r -> est_ok 1 (r_eval r) ->
  est_ok 1 (r_eval (fst (rt_eval n E inter r cmd))) /\
  match snd (rt_eval n E inter r cmd) with RPanic p => p = PArith /\ overflow_checks E = true | _ => True end.
Proof.
  intros HE I0 Ho. unfold rt_eval. destruct (parse_total cmd) as [(l & Hp)|Hp]; rewrite Hp; [|split; [exact Ho|exact I]].
  destruct (analyze (r_sem r) l) as [sem' a] eqn:Ha. pose proof (analyze_good _ _ _ _ (len1_ne _ (inv_sem _ I0)) Ha) as (_ & _ & N).
  destruct a as [[]|e|p|]; try contradiction; [|split; [exact Ho|exact I]].
  assert (Hacc : accepted_stmts 0 l).
  { rewrite <- (inv_depth _ I0). eapply analyze_list_accepted; [|exact (len1_ne _ (inv_sem _ I0))|rewrite (inv_depth _ I0); lia|exact Ha]. apply Forall_forall. intros st _. apply analyze_stmt_accepted. }
  destruct Hacc as [Hc Hj]. apply parse_lits in Hp.
  assert (Hl : Forall (stmt_ok True) l).
  { apply stmts_ok. rewrite Forall_forall in *. intros e He. split; [apply Hp; exact He|intros _; apply Hc; exact He]. }
  destruct (run_list_good True E _ (eval_stmt_good True E inter HE n) l 1 (r_eval r) Ho Hl) as [G1 G2].
  unfold eval_prog. destruct (run_list (eval_stmt n E inter) (r_eval r) l) as [s' q]. cbn [fst snd r_eval] in *. split; [exact G1|]. destruct q; cbn in *; auto.
Qed.
Lemma loop_safe n E (HR : reliable E) (HE : env_typed E) (Ho : overflow_checks E = false) evs : forall r, inv r -> est_ok 1 (r_eval r) -> snd (process_loop n E r evs) <> LePanic.
Proof.
  induction evs as [|x evs IH]; intros r HI HK; [discriminate|]. destruct x as [l| | |]; cbn [process_loop].
  - pose proof (rt_eval_ok n E true r (clean l) HE HI HK) as [G1 G2]. pose proof (inv_step n E true r (clean l) HI) as G3. destruct (rt_eval n E true r (clean l)) as [r' q]. cbn [fst snd] in *.
    specialize (IH r' G3 G1). destruct (process_loop n E r' evs) as [[[r2 qs] ns] y]. destruct q as [| |e|p|]; try exact IH; try discriminate. destruct G2. congruence.
  - specialize (IH r HI HK). destruct (process_loop n E r evs) as [[[r2 qs] ns] y]. exact IH.
  - rewrite (println_reliable E _ _ HR). discriminate.
  - rewrite (println_reliable E _ _ HR). set (r1 := rt_with_w r _). specialize (IH r1 (inv_world _ _ HI) HK). destruct (process_loop n E r1 evs) as [[[r2 qs] ns] y]. exact IH.
Qed.

(** ** The process and the sessions of the other properties *)
Definition shifted (w0 : world) (w1 w2 : world) : Prop := w_log w2 = w_log w0 ++ w_log w1 /\ w_out w2 = w_out w0 ++ w_out w1.
Lemma shifted_tick w0 w1 w2 : shifted w0 w1 w2 -> tick w2 = tick w0 + tick w1.
Proof. intros [H _]. unfold tick. rewrite H, app_length. reflexivity. Qed.
Lemma shift_ok E w0 : sim_ok (delayed (tick w0) E) E false (shifted w0) (fun _ _ => False).
Proof.
  assert (L : forall w1 w2 ev, shifted w0 w1 w2 -> shifted w0 (log_event w1 ev) (log_event w2 ev)).
  { intros w1 w2 ev [A B]. split; [cbn; rewrite A, app_assoc; reflexivity|exact B]. }
  constructor; try (intros; contradiction).
  - reflexivity.
  - discriminate.
  - intros w1 w2 fd k H. left. split; [cbn; rewrite (shifted_tick _ _ _ H); reflexivity|apply L; exact H].
  - intros w1 w2 p H. left. split; [cbn; rewrite (shifted_tick _ _ _ H); reflexivity|apply L; exact H].
  - intros w1 w2 a b c H. apply L. exact H.
  - intros w1 w2 t H. cbv zeta. left. cbn [delayed sink]. rewrite (shifted_tick _ _ _ H). split; [reflexivity|]. destruct H as [A B].
    destruct (sink E (tick w0 + tick w1) t); (split; cbn; [rewrite A, app_assoc; reflexivity|rewrite B, app_assoc; reflexivity]).
Qed.
Definition rshift (w0 : world) (r1 r2 : rt) : Prop := rsim (shifted w0) r1 r2.
Lemma rt_eval_shift n E w0 inter r1 r2 cmd : rshift w0 r1 r2 ->
  rshift w0 (fst (rt_eval n (delayed (tick w0) E) inter r1 cmd)) (fst (rt_eval n E inter r2 cmd)) /\ snd (rt_eval n (delayed (tick w0) E) inter r1 cmd) = snd (rt_eval n E inter r2 cmd).
Proof.
  intros H. destruct (rt_eval_sim _ _ false _ _ (shift_ok E w0) inter n n r1 r2 cmd (eq_refl : budgets false n n) H) as [G|[]]. exact G.
Qed.
Lemma start_shift E w0 : rshift w0 (rt_new (delayed (tick w0) E)) (rt_start E w0).
Proof.
  unfold rt_new, rt_start, eval_new, eval_start. cbn [delayed getcwd]. destruct (getcwd E) as [cwd|].
  - unfold fs_new. cbn [delayed open_path]. replace (tick w0 + tick (mk_world [] [])) with (tick w0) by (unfold tick; cbn; lia).
    split; [reflexivity|]. split; [reflexivity|]. split; [reflexivity|]. split; [reflexivity|]. cbn. rewrite app_nil_r. reflexivity.
  - split; [reflexivity|]. split; [reflexivity|]. split; [reflexivity|]. split; cbn; rewrite app_nil_r; reflexivity.
Qed.
Definition loop_of (x : repl_end) : loop_end := match x with ReDone => LeBreak | ReCrash _ => LePanic | ReFuel => LeBudget | ReWaiting => LeWaiting end.
Lemma loop_session n E w0 (HR : reliable E) evs : (forall x, In x evs -> x <> RlError) -> forall r1 r2, rshift w0 r1 r2 ->
  let '(q1, rs, x) := repl_loop n (delayed (tick w0) E) r1 evs in
  let '(q2, qs, ns, y) := process_loop n E r2 evs in
  qs = rs /\ y = loop_of x /\ exists tail, (tail = [] \/ tail = quit_line /\ x = ReDone /\ In RlEof evs) /\ w_out (e_w (r_eval q2)) = w_out w0 ++ w_out (e_w (r_eval q1)) ++ tail /\
    w_log (e_w (r_eval q2)) = w_log w0 ++ w_log (e_w (r_eval q1)) ++ match tail with [] => [] | _ => [EvWrite tail] end.
Proof.
  assert (B : forall r1 r2, rshift w0 r1 r2 -> w_out (e_w (r_eval r2)) = w_out w0 ++ w_out (e_w (r_eval r1)) ++ [] /\ w_log (e_w (r_eval r2)) = w_log w0 ++ w_log (e_w (r_eval r1)) ++ []).
  { intros r1 r2 (_ & _ & _ & A & C). rewrite !app_nil_r. split; assumption. }
  induction evs as [|x evs IH]; intros HN r1 r2 H.
  - split; [reflexivity|]. split; [reflexivity|]. exists []. split; [left; reflexivity|apply B; exact H].
  - assert (HN' : forall x, In x evs -> x <> RlError) by (intros z Hz; apply HN; right; exact Hz). specialize (IH HN'). destruct x as [l| | |]; cbn [repl_loop process_loop].
    + destruct (rt_eval_shift n E w0 true r1 r2 (clean l) H) as [H1 H2]. destruct (rt_eval n (delayed (tick w0) E) true r1 (clean l)) as [s1 q1], (rt_eval n E true r2 (clean l)) as [s2 q2].
      cbn [fst snd] in *. subst q2. specialize (IH s1 s2 H1). destruct (repl_loop n (delayed (tick w0) E) s1 evs) as [[t1 rs] x], (process_loop n E s2 evs) as [[[t2 qs] ns] y].
      destruct q1 as [| |e|p|]; try (split; [reflexivity|]; split; [reflexivity|]; exists []; split; [left; reflexivity|apply B; exact H1]);
      (destruct IH as (I1 & I2 & tail & I3 & I4); split; [f_equal; exact I1|]; split; [exact I2|]; exists tail; split; [destruct I3 as [I3|(I3 & I5 & I6)]; [left|right; split; [|split; [|right]]]; assumption|exact I4]).
    + specialize (IH r1 r2 H). destruct (repl_loop n (delayed (tick w0) E) r1 evs) as [[t1 rs] x], (process_loop n E r2 evs) as [[[t2 qs] ns] y].
      destruct IH as (I1 & I2 & tail & I3 & I4). split; [exact I1|]; split; [exact I2|]; exists tail; split; [destruct I3 as [I3|(I3 & I5 & I6)]; [left|right; split; [|split; [|right]]]; assumption|exact I4].
    + rewrite (println_reliable E _ _ HR). split; [reflexivity|]. split; [reflexivity|]. exists quit_line. split; [right; split; [reflexivity|split; [reflexivity|left; reflexivity]]|].
      destruct H as (_ & _ & _ & A & C). cbn [rt_with_w r_eval e_w with_w w_out w_log]. rewrite A, C, <- !app_assoc. split; reflexivity.
    + elim (HN RlError); [left|]; reflexivity.
Qed.
