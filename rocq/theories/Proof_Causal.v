(** Proofs for C78 and C79. *)
From Verif Require Import Base Ast Pom Parse Structs Definitions Value Variables Semantics Fs Eval Runtime Input Main Process Lib Spec_Run Spec_Text Spec_Session Spec_Driver Spec_Process Spec_Causal
  Proof_Run Proof_Driver Proof_Sim Proof_Process.
From Coq Require Import Lia.
Arguments s_ s%string_scope.

Lemma appended_continues w w' : appended w w' -> continues w w'.
Proof. intros (l & u & A & B & _). exists l, u. split; assumption. Qed.

(** ** Causality *)
Lemma parted_right t w1 w2 w2' : parted t w1 w2 -> appended w2 w2' -> parted t w1 w2'.
Proof.
  intros (w0 & ev & H0 & H1 & l & u & H2 & H3) (l' & u' & A & B & _). exists w0, ev. split; [exact H0|]. split; [exact H1|]. exists (l ++ l'), (u ++ u').
  rewrite A, B, H2, H3, <- !app_assoc. split; reflexivity.
Qed.
Lemma parted_sym t w1 w2 : parted t w1 w2 -> parted t w2 w1.
Proof. intros (w0 & ev & H0 & H1 & H2). exists w0, ev. auto. Qed.
Lemma parted_left t w1 w2 w1' : parted t w1 w2 -> appended w1 w1' -> parted t w1' w2.
Proof. intros H H'. apply parted_sym. eapply parted_right; [apply parted_sym; exact H|exact H']. Qed.
Section Causal.
Context (t : nat) (E1 E2 : env) (HA : agree_until t E1 E2).
Lemma part_now w ev : t <= tick w -> parted t (log_event w ev) (log_event w ev).
Proof. intros H. exists w, ev. split; [exact H|]. split; exists [], []; (split; [reflexivity|rewrite app_nil_r; reflexivity]). Qed.
Lemma causal_ok : sim_ok E1 E2 false eq (parted t).
Proof.
  destruct HA as (Ho & _ & HI). constructor; try discriminate.
  - exact Ho.
  - intros w1 w2 w2'. apply parted_right.
  - intros _ w1 w2 w1'. apply parted_left.
  - intros w1 w2 fd k <-. destruct (Nat.lt_ge_cases (tick w1) t) as [L|L]; [left; split; [apply (HI _ L)|reflexivity]|right; split; [reflexivity|apply part_now; exact L]].
  - intros w1 w2 p <-. destruct (Nat.lt_ge_cases (tick w1) t) as [L|L]; [left; split; [apply (HI _ L)|reflexivity]|right; split; [reflexivity|apply part_now; exact L]].
  - intros w1 w2 a b c <-. reflexivity.
  - intros w1 w2 x <-. cbv zeta. destruct (Nat.lt_ge_cases (tick w1) t) as [L|L]; [left; destruct (HI _ L) as (_ & _ & Q); rewrite Q; split; reflexivity|right; split; [reflexivity|]].
    exists w1, (EvWrite x). split; [exact L|]. split; [destruct (sink E1 (tick w1) x)|destruct (sink E2 (tick w1) x)]; exists []; eexists; split; reflexivity.
Qed.
Lemma rsim_eq (r : rt) : rsim eq r r.
Proof. repeat split. Qed.
Lemma eq_rsim (r1 r2 : rt) : rsim eq r1 r2 -> r1 = r2.
Proof. intros (A & B & C & F). destruct r1 as [m1 [v1 f1 w1]], r2 as [m2 [v2 f2 w2]]. cbn in *. subst. reflexivity. Qed.
Lemma rt_eval_causal n inter r cmd :
  rt_eval n E1 inter r cmd = rt_eval n E2 inter r cmd \/ parted t (world_of (fst (rt_eval n E1 inter r cmd))) (world_of (fst (rt_eval n E2 inter r cmd))).
Proof.
  destruct (rt_eval_sim _ _ false _ _ causal_ok inter n n r r cmd (eq_refl : budgets false n n) (rsim_eq r)) as [[G1 G2]|G]; [left|right; exact G].
  apply eq_rsim in G1. destruct (rt_eval n E1 inter r cmd), (rt_eval n E2 inter r cmd). cbn in *. congruence.
Qed.
End Causal.
Lemma println_grows E w l : appended w (fst (println E w l)).
Proof.
  unfold println. destruct (sink E (tick w) (l ++ nl)) as [|k]; cbn [fst].
  - exists [EvWrite (l ++ nl)], (l ++ nl). split; [reflexivity|]. split; [reflexivity|]. rewrite <- (app_nil_r (l ++ nl)) at 2. apply wn_all. constructor.
  - exists [EvWrite (l ++ nl)], (firstn k (l ++ nl)). split; [reflexivity|]. split; [reflexivity|]. rewrite <- (app_nil_r (firstn k (l ++ nl))). eapply wn_cut; [symmetry; apply firstn_skipn|constructor].
Qed.
Lemma command_grows n E inter r cmd : appended (world_of r) (world_of (fst (rt_eval n E inter r cmd))).
Proof.
  destruct (rt_eval n E inter r cmd) as [r' q] eqn:H. exact (rt_eval_q E inter appended silent_appended appended_trans n r cmd r' q (fun l st _ _ _ s t s' q' => do_write_appended E s t s' q') H).
Qed.
Definition loop_world (p : rt * list eres * list notice * loop_end) : world := world_of (fst (fst (fst p))).
Lemma loop_grows n E evs : forall r, appended (world_of r) (loop_world (process_loop n E r evs)).
Proof.
  induction evs as [|x evs IH]; intros r; [apply appended_refl|]. destruct x as [l| | |]; cbn [process_loop].
  - pose proof (command_grows n E true r (clean l)) as G. destruct (rt_eval n E true r (clean l)) as [r' q]. cbn [fst] in G. specialize (IH r'). destruct (process_loop n E r' evs) as [[[r2 qs] ns] y].
    destruct q; try exact G; (eapply appended_trans; [exact G|exact IH]).
  - specialize (IH r). destruct (process_loop n E r evs) as [[[r2 qs] ns] y]. exact IH.
  - pose proof (println_grows E (e_w (r_eval r)) (s_ "quit")) as G. destruct (println E (e_w (r_eval r)) (s_ "quit")) as [w []]; exact G.
  - pose proof (println_grows E (e_w (r_eval r)) (s_ "quit")) as G. destruct (println E (e_w (r_eval r)) (s_ "quit")) as [w []]; [|exact G]. cbn [fst] in G. specialize (IH (rt_with_w r w)).
    destruct (process_loop n E (rt_with_w r w) evs) as [[[r2 qs] ns] y]. eapply appended_trans; [exact G|exact IH].
Qed.
Lemma printlns_grows E ls : forall w, appended w (fst (printlns E w ls)).
Proof.
  induction ls as [|l ls IH]; intros w; [apply appended_refl|]. cbn [printlns]. pose proof (println_grows E w l) as G. destruct (println E w l) as [w' []]; [|exact G]. eapply appended_trans; [exact G|apply IH].
Qed.
Lemma start_grows E w : appended w (world_of (rt_start E w)).
Proof. unfold rt_start, eval_start, world_of. destruct (getcwd E) as [c|]; cbn [r_eval]; [|apply appended_refl]. apply silent_appended. apply silent_log. discriminate. Qed.
Definition finish (H : host) (p : rt * list eres * list notice * loop_end) : proc :=
  let '(r, qs, ns, x) := p in
  match x with
  | LeBreak => if save_ok H then mk_proc (e_w (r_eval r)) qs ns true (StExit 0) else mk_proc (e_w (r_eval r)) qs (ns ++ [NtMain]) false (StExit 1)
  | LePanic => mk_proc (e_w (r_eval r)) qs ns false (StExit 101)
  | LeWaiting => mk_proc (e_w (r_eval r)) qs ns false StWaiting
  | LeBudget => mk_proc (e_w (r_eval r)) qs ns false StBudget
  end.
Lemma finish_world H p : p_world (finish H p) = loop_world p.
Proof. destruct p as [[[r qs] ns] []]; try reflexivity. cbn [finish]. destruct (save_ok H); reflexivity. Qed.
Lemma repl_finish n E H evs : process_repl n E H evs =
  if editor_ok H then let '(w, ok) := printlns E (mk_world [] []) welcome_lines in
    if ok then finish H (process_loop n E (rt_start E w) evs) else mk_proc w [] [NtPanic] false (StExit 101)
  else mk_proc (mk_world [] []) [] [NtMain] false (StExit 1).
Proof.
  unfold process_repl. destruct (editor_ok H); [|reflexivity]. destruct (printlns E (mk_world [] []) welcome_lines) as [w []]; [|reflexivity].
  destruct (process_loop n E (rt_start E w) evs) as [[[r qs] ns] []]; reflexivity.
Qed.

Section Causal2.
Context (t : nat) (E1 E2 : env) (HA : agree_until t E1 E2).
Lemma println_causal w l : println E1 w l = println E2 w l \/ parted t (fst (println E1 w l)) (fst (println E2 w l)).
Proof.
  unfold println. destruct (Nat.lt_ge_cases (tick w) t) as [L|L].
  - left. destruct HA as (_ & _ & HI). destruct (HI _ L) as (_ & _ & Q). rewrite Q. reflexivity.
  - right. exists w, (EvWrite (l ++ nl)). split; [exact L|]. split; [destruct (sink E1 (tick w) (l ++ nl))|destruct (sink E2 (tick w) (l ++ nl))]; exists []; eexists; split; reflexivity.
Qed.
Lemma printlns_causal ls : forall w, printlns E1 w ls = printlns E2 w ls \/ parted t (fst (printlns E1 w ls)) (fst (printlns E2 w ls)).
Proof.
  induction ls as [|l ls IH]; intros w; [left; reflexivity|]. cbn [printlns]. destruct (println_causal w l) as [G|G].
  - rewrite G. destruct (println E2 w l) as [w' []]; [apply IH|left; reflexivity].
  - right. destruct (println E1 w l) as [w1 b1], (println E2 w l) as [w2 b2]. cbn [fst] in *.
    assert (A1 : appended w1 (fst (if b1 then printlns E1 w1 ls else (w1, false)))) by (destruct b1; [apply printlns_grows|apply appended_refl]).
    assert (A2 : appended w2 (fst (if b2 then printlns E2 w2 ls else (w2, false)))) by (destruct b2; [apply printlns_grows|apply appended_refl]).
    eapply parted_left; [|exact A1]. eapply parted_right; [exact G|exact A2].
Qed.
Lemma start_causal w : rt_start E1 w = rt_start E2 w \/ parted t (world_of (rt_start E1 w)) (world_of (rt_start E2 w)).
Proof.
  unfold rt_start, eval_start. destruct HA as (_ & Hc & HI). rewrite Hc. destruct (getcwd E2) as [c|]; [|left; reflexivity]. unfold fs_new. destruct (Nat.lt_ge_cases (tick w) t) as [L|L].
  - left. destruct (HI _ L) as (_ & Q & _). rewrite Q. reflexivity.
  - right. apply part_now. exact L.
Qed.
Lemma loop_causal n evs : forall r, process_loop n E1 r evs = process_loop n E2 r evs \/ parted t (loop_world (process_loop n E1 r evs)) (loop_world (process_loop n E2 r evs)).
Proof.
  induction evs as [|x evs IH]; intros r; [left; reflexivity|]. destruct x as [l| | |]; cbn [process_loop].
  - destruct (rt_eval_causal t E1 E2 HA n true r (clean l)) as [G|G].
    + rewrite G. destruct (rt_eval n E2 true r (clean l)) as [r' q]. destruct (IH r') as [I|I]; [rewrite I; left; reflexivity|].
      destruct (process_loop n E1 r' evs) as [[[r2 qs] ns] y], (process_loop n E2 r' evs) as [[[r3 qs'] ns'] y']. destruct q; first [left; reflexivity|right; exact I].
    + right. destruct (rt_eval n E1 true r (clean l)) as [r1 q1], (rt_eval n E2 true r (clean l)) as [r2 q2]. cbn [fst] in G.
      pose proof (loop_grows n E1 evs r1) as A1. pose proof (loop_grows n E2 evs r2) as A2.
      destruct (process_loop n E1 r1 evs) as [[[r3 qs] ns] y], (process_loop n E2 r2 evs) as [[[r4 qs'] ns'] y'].
      assert (B1 : appended (world_of r1) (loop_world (match q1 with ROk => (r3, q1 :: qs, ns, y) | RQuit => (r1, [q1], [], LeBreak) | RErr e => (r3, q1 :: qs, NtError e :: ns, y) | RPanic _ => (r1, [q1], [NtPanic], LePanic) | RFuel => (r1, [q1], [], LeBudget) end)))
        by (destruct q1; first [exact A1|apply appended_refl]).
      assert (B2 : appended (world_of r2) (loop_world (match q2 with ROk => (r4, q2 :: qs', ns', y') | RQuit => (r2, [q2], [], LeBreak) | RErr e => (r4, q2 :: qs', NtError e :: ns', y') | RPanic _ => (r2, [q2], [NtPanic], LePanic) | RFuel => (r2, [q2], [], LeBudget) end)))
        by (destruct q2; first [exact A2|apply appended_refl]).
      eapply parted_left; [|exact B1]. eapply parted_right; [exact G|exact B2].
  - destruct (IH r) as [I|I]; [rewrite I; left; reflexivity|]. destruct (process_loop n E1 r evs) as [[[r2 qs] ns] y], (process_loop n E2 r evs) as [[[r3 qs'] ns'] y']. right. exact I.
  - destruct (println_causal (e_w (r_eval r)) (s_ "quit")) as [G|G]; [rewrite G; left; reflexivity|]. right.
    destruct (println E1 (e_w (r_eval r)) (s_ "quit")) as [w1 []], (println E2 (e_w (r_eval r)) (s_ "quit")) as [w2 []]; exact G.
  - destruct (println_causal (e_w (r_eval r)) (s_ "quit")) as [G|G].
    + rewrite G. destruct (println E2 (e_w (r_eval r)) (s_ "quit")) as [w []]; [|left; reflexivity]. destruct (IH (rt_with_w r w)) as [I|I]; [rewrite I; left; reflexivity|].
      destruct (process_loop n E1 (rt_with_w r w) evs) as [[[r2 qs] ns] y], (process_loop n E2 (rt_with_w r w) evs) as [[[r3 qs'] ns'] y']. right. exact I.
    + right. destruct (println E1 (e_w (r_eval r)) (s_ "quit")) as [w1 b1], (println E2 (e_w (r_eval r)) (s_ "quit")) as [w2 b2]. cbn [fst] in G.
      pose proof (loop_grows n E1 evs (rt_with_w r w1)) as A1. pose proof (loop_grows n E2 evs (rt_with_w r w2)) as A2.
      destruct (process_loop n E1 (rt_with_w r w1) evs) as [[[r3 qs] ns] y], (process_loop n E2 (rt_with_w r w2) evs) as [[[r4 qs'] ns'] y'].
      assert (B1 : appended w1 (loop_world (if b1 then (r3, qs, NtReadError :: ns, y) else (rt_with_w r w1, [], [NtReadError; NtPanic], LePanic)))) by (destruct b1; [exact A1|apply appended_refl]).
      assert (B2 : appended w2 (loop_world (if b2 then (r4, qs', NtReadError :: ns', y') else (rt_with_w r w2, [], [NtReadError; NtPanic], LePanic)))) by (destruct b2; [exact A2|apply appended_refl]).
      eapply parted_left; [|exact B1]. eapply parted_right; [exact G|exact B2].
Qed.
Lemma repl_causal n H evs : process_repl n E1 H evs = process_repl n E2 H evs \/ parted t (p_world (process_repl n E1 H evs)) (p_world (process_repl n E2 H evs)).
Proof.
  rewrite !repl_finish. destruct (editor_ok H); [|left; reflexivity]. destruct (printlns_causal welcome_lines (mk_world [] [])) as [G|G].
  - rewrite G. destruct (printlns E2 (mk_world [] []) welcome_lines) as [w []]; [|left; reflexivity]. destruct (start_causal w) as [S|S].
    + rewrite S. destruct (loop_causal n evs (rt_start E2 w)) as [L|L]; [rewrite L; left; reflexivity|right]. rewrite !finish_world. exact L.
    + right. rewrite !finish_world. eapply parted_left; [|apply loop_grows]. eapply parted_right; [exact S|apply loop_grows].
  - right. assert (A : forall E w b, appended w (p_world (if b : bool then finish H (process_loop n E (rt_start E w) evs) else mk_proc w [] [NtPanic] false (StExit 101)))).
    { intros E w []; [|apply appended_refl]. rewrite finish_world. eapply appended_trans; [apply start_grows|apply loop_grows]. }
    destruct (printlns E1 (mk_world [] []) welcome_lines) as [w1 b1], (printlns E2 (mk_world [] []) welcome_lines) as [w2 b2]. cbn [fst] in G.
    eapply parted_left; [|apply A]. eapply parted_right; [exact G|apply A].
Qed.
Lemma script_causal n c : process_script n E1 c = process_script n E2 c \/ parted t (p_world (process_script n E1 c)) (p_world (process_script n E2 c)).
Proof.
  unfold process_script. destruct c as [c|]; [|left; reflexivity].
  assert (P : forall E r q, let p := match q with ROk | RQuit => mk_proc (e_w (r_eval r)) [q] [] false (StExit 0) | RErr e => mk_proc (e_w (r_eval r)) [q] [NtError e; NtMain] false (StExit 1)
      | RPanic _ => mk_proc (e_w (r_eval r)) [q] [NtPanic] false (StExit 101) | RFuel => mk_proc (e_w (r_eval r)) [q] [] false StBudget end in (E : env) = E -> p_world p = world_of r) by (intros E r []; reflexivity).
  destruct (start_causal (mk_world [] [])) as [S|S].
  - rewrite S. destruct (rt_eval_causal t E1 E2 HA n false (rt_start E2 (mk_world [] [])) (strip_comments c)) as [G|G]; [rewrite G; left; reflexivity|right].
    destruct (rt_eval n E1 false (rt_start E2 (mk_world [] [])) (strip_comments c)) as [r1 q1], (rt_eval n E2 false (rt_start E2 (mk_world [] [])) (strip_comments c)) as [r2 q2].
    rewrite (P E1 r1 q1 eq_refl), (P E2 r2 q2 eq_refl). exact G.
  - right. pose proof (command_grows n E1 false (rt_start E1 (mk_world [] [])) (strip_comments c)) as A1. pose proof (command_grows n E2 false (rt_start E2 (mk_world [] [])) (strip_comments c)) as A2.
    destruct (rt_eval n E1 false (rt_start E1 (mk_world [] [])) (strip_comments c)) as [r1 q1], (rt_eval n E2 false (rt_start E2 (mk_world [] [])) (strip_comments c)) as [r2 q2].
    rewrite (P E1 r1 q1 eq_refl), (P E2 r2 q2 eq_refl). eapply parted_left; [|exact A1]. eapply parted_right; [exact S|exact A2].
Qed.
Lemma process_causal n H m evs : process n E1 H m evs = process n E2 H m evs \/ parted t (p_world (process n E1 H m evs)) (p_world (process n E2 H m evs)).
Proof. unfold process. destruct (logger_ok H); [|left; reflexivity]. destruct m as [c|]; [apply script_causal|apply repl_causal]. Qed.
End Causal2.
Lemma parted_first t w1 w2 : parted t w1 w2 -> firstn (S t) (w_log w1) = firstn (S t) (w_log w2) /\ t < tick w1 /\ t < tick w2.
Proof.
  intros (w0 & ev & H0 & (l1 & u1 & A1 & _) & (l2 & u2 & A2 & _)). unfold tick in *. rewrite A1, A2, !app_length. cbn [length]. split; [|lia].
  change (ev :: l1) with ([ev] ++ l1). change (ev :: l2) with ([ev] ++ l2). rewrite !app_assoc, !(firstn_app (S t)), app_length. cbn [length].
  replace (S t - (length (w_log w0) + 1)) with 0 by lia. rewrite !firstn_O. reflexivity.
Qed.

(** ** Budgets *)
Lemma budget_ok E : sim_ok E E true eq appended.
Proof.
  constructor; try discriminate.
  - reflexivity.
  - intros w1 w2 w2'. apply appended_trans.
  - intros _ w1 w2 w2' <- H. exact H.
  - intros w1 w2 fd k <-. left. split; reflexivity.
  - intros w1 w2 p <-. left. split; reflexivity.
  - intros w1 w2 a b c <-. reflexivity.
  - intros w1 w2 x <-. left. split; reflexivity.
Qed.
Lemma rt_eval_budget n m E inter r cmd : n <= m ->
  rt_eval n E inter r cmd = rt_eval m E inter r cmd \/ snd (rt_eval n E inter r cmd) = RFuel /\ appended (world_of (fst (rt_eval n E inter r cmd))) (world_of (fst (rt_eval m E inter r cmd))).
Proof.
  intros Hn. destruct (rt_eval_sim _ _ true _ _ (budget_ok E) inter n m r r cmd (Hn : budgets true n m) (rsim_eq r)) as [[G1 G2]|G].
  - left. apply eq_rsim in G1. destruct (rt_eval n E inter r cmd), (rt_eval m E inter r cmd). cbn in *. congruence.
  - assert (M : snd (rt_eval n E inter r cmd) = RFuel \/ rt_eval n E inter r cmd = rt_eval m E inter r cmd).
    { clear G. unfold rt_eval. destruct (parse cmd) as [l|e|p|]; try (right; reflexivity). destruct (analyze (r_sem r) l) as [sem' [[]|e|p|]]; try (right; reflexivity). unfold eval_prog.
      pose proof (run_list_mono _ _ l (eval_stmt_mono E inter n m Hn) (r_eval r)) as Q. destruct (run_list (eval_stmt n E inter) (r_eval r) l) as [s1 q1]. unfold smono in Q. cbn [snd] in Q.
      destruct q1; try (right; rewrite Q by discriminate; reflexivity). left. reflexivity. }
    destruct M as [M|M]; [right; split; [exact M|exact G]|left; exact M].
Qed.
Lemma loop_budget n m E evs : n <= m -> forall r,
  process_loop n E r evs = process_loop m E r evs \/ snd (process_loop n E r evs) = LeBudget /\ appended (loop_world (process_loop n E r evs)) (loop_world (process_loop m E r evs)).
Proof.
  intros Hn. induction evs as [|x evs IH]; intros r; [left; reflexivity|]. destruct x as [l| | |]; cbn [process_loop].
  - destruct (rt_eval_budget n m E true r (clean l) Hn) as [G|[G1 G2]].
    + rewrite G. destruct (rt_eval m E true r (clean l)) as [r' q]. destruct (IH r') as [I|I]; [rewrite I; left; reflexivity|].
      destruct (process_loop n E r' evs) as [[[r2 qs] ns] y], (process_loop m E r' evs) as [[[r3 qs'] ns'] y']. destruct q; first [left; reflexivity|right; exact I].
    + right. pose proof (loop_grows m E evs (fst (rt_eval m E true r (clean l)))) as A.
      destruct (rt_eval n E true r (clean l)) as [r1 q1], (rt_eval m E true r (clean l)) as [r2 q2]. cbn [fst snd] in *. subst q1. cbn [snd]. split; [reflexivity|]. unfold loop_world at 1. cbn [fst].
      destruct (process_loop m E r2 evs) as [[[r3 qs] ns] y]. destruct q2; first [exact G2|eapply appended_trans; [exact G2|exact A]].
  - destruct (IH r) as [I|I]; [rewrite I; left; reflexivity|]. destruct (process_loop n E r evs) as [[[r2 qs] ns] y], (process_loop m E r evs) as [[[r3 qs'] ns'] y']. right. exact I.
  - left. reflexivity.
  - destruct (println E (e_w (r_eval r)) (s_ "quit")) as [w []]; [|left; reflexivity]. destruct (IH (rt_with_w r w)) as [I|I]; [rewrite I; left; reflexivity|].
    destruct (process_loop n E (rt_with_w r w) evs) as [[[r2 qs] ns] y], (process_loop m E (rt_with_w r w) evs) as [[[r3 qs'] ns'] y']. right. exact I.
Qed.
Lemma process_budget n k E H m evs : n <= k ->
  process n E H m evs = process k E H m evs \/ p_status (process n E H m evs) = StBudget /\ continues (p_world (process n E H m evs)) (p_world (process k E H m evs)).
Proof.
  intros Hn. unfold process. destruct (logger_ok H); [|left; reflexivity]. destruct m as [[c|]|]; cbn [process_script].
  - destruct (rt_eval_budget n k E false (rt_start E (mk_world [] [])) (strip_comments c) Hn) as [G|[G1 G2]]; [rewrite G; left; reflexivity|right].
    destruct (rt_eval n E false (rt_start E (mk_world [] [])) (strip_comments c)) as [r1 q1], (rt_eval k E false (rt_start E (mk_world [] [])) (strip_comments c)) as [r2 q2]. cbn [fst snd] in *. subst q1.
    split; [reflexivity|]. apply appended_continues. destruct q2; exact G2.
  - left. reflexivity.
  - rewrite !repl_finish. destruct (editor_ok H); [|left; reflexivity]. destruct (printlns E (mk_world [] []) welcome_lines) as [w []]; [|left; reflexivity].
    destruct (loop_budget n k E evs Hn (rt_start E w)) as [G|[G1 G2]]; [rewrite G; left; reflexivity|right]. rewrite !finish_world. split; [|apply appended_continues; exact G2].
    destruct (process_loop n E (rt_start E w) evs) as [[[r2 qs] ns] y]. cbn [snd] in G1. subst y. reflexivity.
Qed.
