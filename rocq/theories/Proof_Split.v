(** Proofs for C68. *)
From Verif Require Import Base Ast Pom Parse Value Variables Semantics Fs Eval Runtime Lib Spec_Grammar Spec_Render Proof_Parse Proof_Complete Proof_Complete2 Proof_Complete3 Proof_Render.
From Coq Require Import Lia.

Lemma ws_join a b : ws a -> ws b -> ws (a ++ b).
Proof. unfold ws. intros. apply Forall_app. auto. Qed.
Section Start.
Variable ok : str -> Prop.
Lemma stmt_ws w s st : ws w -> g_stmt ok s st -> g_stmt ok (w ++ s) st.
Proof.
  intros Hw H. destruct H as [w0 s st w' t H0 H1 H2 H3|w0 s st t H0 H1 H2]; rewrite app_assoc; [apply g_simple_stmt|apply g_block_stmt]; auto using ws_join.
Qed.
Lemma stmts_app s l : g_stmts ok s l -> forall w s' l', ws w -> g_stmts ok s' l' -> exists w', ws w' /\
  ((exists u, g_stmts ok u (l ++ l') /\ s ++ w ++ s' = u ++ w')).
Proof.
  intros H. induction H as [|s st sr l Hs Hr IH]; intros w s' l' Hw H'.
  - destruct H' as [|s' st' sr l' Hs Hr]; [exists w; split; [exact Hw|]; exists []; split; [constructor|cbn; rewrite app_nil_r; reflexivity]|].
    exists []. split; [constructor|]. exists ((w ++ s') ++ sr). split; [constructor; [apply stmt_ws; assumption|assumption]|]. rewrite app_nil_r, <- app_assoc. reflexivity.
  - destruct (IH w s' l' Hw H') as (w' & Hw' & u & Hu & E). exists w'. split; [exact Hw'|]. exists (s ++ u). split; [cbn; constructor; assumption|]. rewrite <- !app_assoc. rewrite E. reflexivity.
Qed.
Lemma program_app t1 p1 t2 p2 : g_program ok t1 p1 -> g_program ok t2 p2 -> g_program ok (t1 ++ t2) (p1 ++ p2).
Proof.
  intros [s l w H Hw] [s' l' w2 H' Hw2]. destruct (stmts_app s l H w s' l' Hw H') as (w' & Hw' & u & Hu & E).
  replace ((s ++ w) ++ s' ++ w2) with (u ++ (w' ++ w2)) by (rewrite !app_assoc; rewrite <- E; rewrite !app_assoc; reflexivity).
  constructor; [exact Hu|apply ws_join; assumption].
Qed.
Lemma programs_concat ts : Forall (fun t => exists p, g_program ok t p) ts -> exists p, g_program ok (concat ts) p.
Proof.
  intros H. induction H as [|t ts [p Hp] Ht [ps IH]]; [exists []; apply (g_prog ok [] [] []); constructor|]. exists (p ++ ps). cbn. apply program_app; assumption.
Qed.
End Start.
Lemma rt_eval_empty n E inter r : rt_eval n E inter r [] = (r, ROk).
Proof. unfold rt_eval. replace (parse []) with (Ok (A:=list stmt) []) by (vm_compute; reflexivity). cbn. destruct r; reflexivity. Qed.
Lemma run_list_app ev l l' : forall s, run_list ev s (l ++ l') = match run_list ev s l with (s', IOk) => run_list ev s' l' | p => p end.
Proof. induction l as [|st l IH]; intros s; [reflexivity|]. cbn. destruct (ev s st) as [s' [| | | | | |]]; try reflexivity. apply IH. Qed.
Lemma analyze_app l l' : forall s, analyze s (l ++ l') = sbind (analyze s l) (fun s' => analyze s' l').
Proof.
  unfold analyze, analyze_stmts. induction l as [|st l IH]; intros s; [destruct s; reflexivity|]. cbn. destruct (analyze_stmt s st) as [s' [[]| | |]]; cbn; try reflexivity. apply IH.
Qed.
Lemma into_ok q : into_eval_result q = ROk <-> q = IOk.
Proof. destruct q; cbn; split; intros H; try discriminate; reflexivity. Qed.
Lemma split_ok n E inter r t1 p1 t2 p2 r2 : g_program unambiguous_start t1 p1 -> g_program unambiguous_start t2 p2 ->
  (rt_eval n E inter r (t1 ++ t2) = (r2, ROk) <->
   exists r1, rt_eval n E inter r t1 = (r1, ROk) /\ rt_eval n E inter r1 t2 = (r2, ROk)).
Proof.
  intros H1 H2. pose proof (parse_complete _ _ (program_app _ _ _ _ _ H1 H2)) as P. apply parse_complete in H1. apply parse_complete in H2.
  unfold rt_eval at 1 2. rewrite P, H1, analyze_app. destruct (analyze (r_sem r) p1) as [sem1 [[]|e|p|]] eqn:A1; cbv beta iota delta [sbind fst snd].
  2-4: split; [intros X; discriminate|intros (r1 & X & _); discriminate].
  unfold eval_prog. rewrite run_list_app. cbv beta iota. destruct (run_list (eval_stmt n E inter) (r_eval r) p1) as [s1 q1] eqn:R1.
  assert (D : q1 = IOk \/ q1 <> IOk) by (destruct q1; auto; right; discriminate). destruct D as [->|Nq].
  - cbn [into_eval_result]. split.
    + intros X. exists (mk_rt sem1 s1). split; [reflexivity|]. unfold rt_eval. rewrite H2. cbn [r_sem r_eval].
      destruct (analyze sem1 p2) as [sem2 [[]|e|p|]]; try (injection X as _ X; discriminate). exact X.
    + intros (r1 & X & Y). injection X as <-. unfold rt_eval in Y. rewrite H2 in Y. cbn [r_sem r_eval] in Y.
      destruct (analyze sem1 p2) as [sem2 [[]|e|p|]]; try (injection Y as _ Y; discriminate). exact Y.
  - assert (NR : into_eval_result q1 <> ROk) by (rewrite into_ok; exact Nq). split.
    + intros X. exfalso. destruct (analyze sem1 p2) as [sem2 [[]|e|p|]]; try discriminate. destruct q1; try congruence; injection X as _ X; congruence.
    + intros (r1 & X & _). injection X as _ X. congruence.
Qed.
Lemma split_stop n E inter r t1 p1 t2 p2 r1 q1 : g_program unambiguous_start t1 p1 -> g_program unambiguous_start t2 p2 ->
  rt_eval n E inter r t1 = (r1, q1) -> q1 <> ROk -> snd (analyze (r_sem r) (p1 ++ p2)) = Ok tt ->
  exists r', rt_eval n E inter r (t1 ++ t2) = (r', q1) /\ r_eval r' = r_eval r1.
Proof.
  intros H1 H2 R N A. pose proof (parse_complete _ _ (program_app _ _ _ _ _ H1 H2)) as P. apply parse_complete in H1.
  unfold rt_eval in R. unfold rt_eval. rewrite P. rewrite H1 in R. rewrite analyze_app in *. destruct (analyze (r_sem r) p1) as [sem1 [[]|e|p|]] eqn:A1; cbv beta iota delta [sbind fst snd] in *; try discriminate.
  destruct (analyze sem1 p2) as [sem2 a2]. cbn [snd] in A. subst a2. unfold eval_prog in *. rewrite run_list_app.
  destruct (run_list (eval_stmt n E inter) (r_eval r) p1) as [s1 q] eqn:R1. injection R as <- <-. cbn [r_eval].
  destruct q; try (eexists; split; reflexivity). elim N; reflexivity.
Qed.
Lemma split_reject n E inter r t1 p1 t2 p2 e : g_program unambiguous_start t1 p1 -> g_program unambiguous_start t2 p2 ->
  snd (analyze (r_sem r) (p1 ++ p2)) = Err e -> exists r', rt_eval n E inter r (t1 ++ t2) = (r', RErr e) /\ r_eval r' = r_eval r.
Proof.
  intros H1 H2 A. pose proof (parse_complete _ _ (program_app _ _ _ _ _ H1 H2)) as P. unfold rt_eval. rewrite P.
  destruct (analyze (r_sem r) (p1 ++ p2)) as [sem2 a2]. cbn [snd] in A. subst a2. eexists. split; reflexivity.
Qed.
