(** Proofs for C91. *)
From Verif Require Import Base Ast Pom Parse Value Variables Semantics Fs Eval Runtime Input Main Process Lib Spec_Grammar Spec_Input Spec_Session Spec_Text Spec_Echo Spec_Driver Spec_Process Spec_Lines
  Proof_Session Proof_Parse Proof_Complete Proof_Complete2 Proof_Complete3 Proof_Render Proof_Split Proof_Input Proof_Echo Proof_Process.
From Coq Require Import Lia.
Arguments s_ s%string_scope.
Local Notation program := (g_program unambiguous_start).

(** ** Programs without their text *)
Definition run_prog n E inter (r : rt) (p : list stmt) : rt * eres :=
  let '(sem', res) := analyze (r_sem r) p in
  match res with
  | Ok _ => let '(s', q) := eval_prog n E inter (r_eval r) p in (mk_rt sem' s', q)
  | Err e => (mk_rt sem' (r_eval r), RErr e)
  | Panic x => (mk_rt sem' (r_eval r), RPanic x)
  | Fuel => (mk_rt sem' (r_eval r), RFuel)
  end.
Lemma rt_eval_prog n E inter r cmd p : parse cmd = Ok p -> rt_eval n E inter r cmd = run_prog n E inter r p.
Proof.
  intros H. unfold rt_eval, run_prog. rewrite H. destruct (analyze (r_sem r) p) as [sem' [[]|e|x|]]; reflexivity.
Qed.
Inductive runs n E inter : rt -> list (list stmt) -> rt -> eres -> Prop :=
| ru_end r : runs n E inter r [] r ROk
| ru_next r p ps r1 r' q : run_prog n E inter r p = (r1, ROk) -> runs n E inter r1 ps r' q -> runs n E inter r (p :: ps) r' q
| ru_stop r p ps r' q : run_prog n E inter r p = (r', q) -> q <> ROk -> runs n E inter r (p :: ps) r' q.
Lemma run_nil n E inter r : run_prog n E inter r [] = (r, ROk).
Proof. unfold run_prog, analyze. rewrite analyze_stmts_nil. cbn. destruct r; reflexivity. Qed.
Lemma runs_accepted n E inter ps : forall r rz qz, run_prog n E inter r (concat ps) = (rz, qz) -> snd (analyze (r_sem r) (concat ps)) = Ok tt ->
  exists r', runs n E inter r ps r' qz /\ r_eval r' = r_eval rz /\ (qz = ROk -> r' = rz).
Proof.
  induction ps as [|p ps IH]; intros r rz qz HR HA; cbn [concat] in *.
  - rewrite run_nil in HR. injection HR as <- <-. exists r. split; [constructor|]. split; [reflexivity|]. intros _; reflexivity.
  - rewrite analyze_app in HA. unfold run_prog in HR. rewrite analyze_app in HR. destruct (analyze (r_sem r) p) as [s1 [[]|e|x|]] eqn:A1; cbv beta iota delta [sbind fst snd] in *; try discriminate.
    unfold eval_prog in HR. rewrite run_list_app in HR. destruct (run_list (eval_stmt n E inter) (r_eval r) p) as [e1 q1] eqn:R1.
    assert (R2 : run_prog n E inter r p = (mk_rt s1 e1, into_eval_result q1)) by (unfold run_prog, eval_prog; rewrite A1, R1; reflexivity).
    destruct (analyze s1 (concat ps)) as [s2 a2] eqn:A2. cbn [snd] in HA. subst a2.
    assert (D : q1 = IOk \/ q1 <> IOk) by (destruct q1; auto; right; discriminate). destruct D as [-> | Nq].
    + destruct (IH (mk_rt s1 e1) rz qz) as (r' & H1 & H2 & H3).
      * unfold run_prog, eval_prog. cbn [r_sem r_eval]. rewrite A2. exact HR.
      * cbn [r_sem]. rewrite A2. reflexivity.
      * exists r'. split; [eapply ru_next; [exact R2|exact H1]|]. split; assumption.
    + exists (mk_rt s1 e1). assert (HR2 : (mk_rt s2 e1, into_eval_result q1) = (rz, qz)) by (destruct q1; try exact HR; elim Nq; reflexivity). injection HR2 as <- <-.
      assert (N : into_eval_result q1 <> ROk) by (rewrite into_ok; exact Nq).
      split; [apply ru_stop; [exact R2|exact N]|]. split; [reflexivity|]. intros X. elim (N X).
Qed.
Lemma runs_rejected n E inter ps : forall r, snd (analyze (r_sem r) (concat ps)) <> Ok tt -> exists r' q, runs n E inter r ps r' q /\ q <> ROk.
Proof.
  induction ps as [|p ps IH]; intros r HA; cbn [concat] in *.
  - elim HA. unfold analyze. rewrite analyze_stmts_nil. reflexivity.
  - destruct (run_prog n E inter r p) as [r1 q1] eqn:R1. assert (D : q1 = ROk \/ q1 <> ROk) by (destruct q1; auto; right; discriminate). destruct D as [-> | N].
    + destruct (IH r1) as (r' & q & H1 & H2).
      * rewrite analyze_app in HA. unfold run_prog in R1. destruct (analyze (r_sem r) p) as [s1 [[]|e|x|]] eqn:A1; try discriminate.
        destruct (eval_prog n E inter (r_eval r) p) as [s' q]. injection R1 as <- _. exact HA.
      * exists r', q. split; [eapply ru_next; eassumption|exact H2].
    + exists r1, q1. split; [apply ru_stop; assumption|exact N].
Qed.
Lemma rejected_state n E inter r p rz qz : s_vars (r_sem r) <> [] -> run_prog n E inter r p = (rz, qz) -> snd (analyze (r_sem r) p) <> Ok tt ->
  r_eval rz = r_eval r /\ exists e, qz = RErr e.
Proof.
  intros H0 HR HA. unfold run_prog in HR. destruct (analyze (r_sem r) p) as [s1 a] eqn:A. destruct (analyze_good _ _ _ _ H0 A) as (_ & _ & NC).
  destruct a as [[]|e|x|]; try (elim NC; fail); [elim HA; reflexivity|]. injection HR as <- <-. split; [reflexivity|]. exists e. reflexivity.
Qed.
(** ** Interactive mode *)
Lemma runs_alike n E (HE : steady E) cs ps : Forall2 (fun c p => parse c = Ok p) cs ps -> forall r r' q, runs n E false r ps r' q ->
  forall r0, alike r r0 -> exists r0', runs n E true r0 ps r0' q /\ alike r' r0'.
Proof.
  intros H. induction H as [|c p cs ps Hc _ IH]; intros r r' q HR r0 HA; inversion HR; subst.
  - exists r0. split; [constructor|exact HA].
  - destruct (rt_eval_sim E HE n r r0 c HA) as [S1 S2]. rewrite !(rt_eval_prog _ _ _ _ _ _ Hc) in *. match goal with X : run_prog _ _ _ r p = _ |- _ => rewrite X in S1, S2 end.
    cbn [fst snd] in *. destruct (run_prog n E true r0 p) as [r01 q01] eqn:R0. cbn [fst snd] in *. subst q01.
    match goal with X : runs _ _ _ _ ps _ _ |- _ => destruct (IH _ _ _ X _ S2) as (r0' & I1 & I2) end. exists r0'. split; [eapply ru_next; eassumption|exact I2].
  - destruct (rt_eval_sim E HE n r r0 c HA) as [S1 S2]. rewrite !(rt_eval_prog _ _ _ _ _ _ Hc) in *. match goal with X : run_prog _ _ _ r p = _ |- _ => rewrite X in S1, S2 end.
    cbn [fst snd] in *. destruct (run_prog n E true r0 p) as [r01 q01] eqn:R0. cbn [fst snd] in *. subst q01. exists r01. split; [apply ru_stop; assumption|exact S2].
Qed.
(** ** The text of a line *)
Lemma commented_prefix l k : commented l k -> exists c, l = k ++ c /\ (c = [] \/ exists t, c = s_ "#" ++ t).
Proof.
  induction 1 as [|t|c l l' _ _ _ (d & -> & H)|body l l' _ _ (d & -> & H)].
  - exists []. auto.
  - exists (s_ "#" ++ t). split; [reflexivity|]. right. exists t. reflexivity.
  - exists d. split; [reflexivity|exact H].
  - exists d. split; [rewrite <- !app_assoc; reflexivity|exact H].
Qed.
Lemma code_prefix l k : code_of l k -> exists c, l = k ++ c /\ (c = [] \/ exists t, c = s_ "#" ++ t).
Proof. intros [[H _]|[-> _]]; [apply commented_prefix; exact H|]. exists []. rewrite app_nil_r. auto. Qed.
Lemma strip_line_text t k : ~ In 10%N t -> code_of t k -> strip_comments t = k.
Proof.
  intros H10 H. destruct t as [|c t].
  - destruct (code_prefix _ _ H) as (d & E & _). symmetry in E. apply app_eq_nil in E. destruct E as [-> _]. reflexivity.
  - apply (strip_comments_spec _ [c :: t] [k]); [constructor; [discriminate|exact H10]|]. constructor; [exact H|constructor].
Qed.
Lemma clean_text t k : ~ In 10%N t -> code_of t k -> clean t = k \/ clean t = k ++ s_ ";".
Proof.
  intros H10 H. unfold clean. rewrite (strip_line_text _ _ H10 H). assert (U : ~ continued k).
  { intros (a & b & E). destruct (code_prefix _ _ H) as (d & -> & _). apply H10. rewrite E, !in_app_iff. left. right. left. right. left. reflexivity. }
  destruct (fixup_spec _ _ (unfolded_id _ U)) as [F1 F2]. destruct (ends_dec k) as [D|D]; [left; apply F1; exact D|right; apply F2; exact D].
Qed.
Section Start.
Variable ok : str -> Prop.
Lemma semis_snoc t w : g_semis t -> ws w -> g_semis (t ++ w ++ s_ ";").
Proof.
  intros H Hw. induction H as [|w0 s H0 _ IH]; [apply (gs_cons w []); [exact Hw|constructor]|]. rewrite <- !app_assoc. apply gs_cons; [exact H0|exact IH].
Qed.
Lemma stmt_semi s st w : g_stmt ok s st -> ws w -> g_stmt ok (s ++ w ++ s_ ";") st.
Proof.
  intros H Hw. destruct H as [w0 s st w' t H0 H1 H2 H3|w0 s st t H0 H1 H2]; rewrite <- !app_assoc; [apply g_simple_stmt|apply g_block_stmt]; auto using semis_snoc.
Qed.
Lemma stmts_semi s l w : g_stmts ok s l -> l <> [] -> ws w -> g_stmts ok (s ++ w ++ s_ ";") l.
Proof.
  intros H N Hw. induction H as [|s st sr l Hs Hr IH]; [elim N; reflexivity|]. destruct l as [|st2 l].
  - inversion Hr; subst. rewrite app_nil_r. rewrite <- (app_nil_r (s ++ w ++ s_ ";")). constructor; [apply stmt_semi; assumption|constructor].
  - rewrite <- app_assoc. constructor; [exact Hs|]. apply IH. discriminate.
Qed.
Lemma program_semi k p : g_program ok k p -> p <> [] -> g_program ok (k ++ s_ ";") p.
Proof.
  intros [s l w H Hw] N. rewrite <- app_assoc, <- (app_nil_r (s ++ w ++ s_ ";")). constructor; [apply stmts_semi; assumption|constructor].
Qed.
Lemma program_nil k p : g_program ok k p -> p = [] -> ws k.
Proof. intros [s l w H Hw] ->. inversion H; subst. exact Hw. Qed.
End Start.
Lemma clean_parses t k p : ~ In 10%N t -> code_of t k -> program k p -> p <> [] -> parse (clean t) = Ok p.
Proof.
  intros H10 H P N. apply parse_complete. destruct (clean_text t k H10 H) as [-> | ->]; [exact P|apply program_semi; assumption].
Qed.
Lemma blank_parses t : only_comment t -> parse (clean t) = Err EParse.
Proof.
  intros (H10 & w & c & -> & Hw & Hc). rewrite in_app_iff in H10. destruct (clean_blank w c Hw Hc) as [P1 P2]; try tauto. apply parse_semicolon; assumption.
Qed.
Lemma blank_line t k p : ~ In 10%N t -> code_of t k -> program k p -> p = [] -> only_comment t.
Proof.
  intros H10 H P N. split; [exact H10|]. destruct (code_prefix _ _ H) as (c & -> & Hc). exists k, c. split; [reflexivity|]. split; [eapply program_nil; eassumption|exact Hc].
Qed.
(** ** Groups of lines *)
Lemma spaced_app a b : a <> [] -> b <> [] -> spaced (a ++ b) = spaced a ++ s_ " " ++ spaced b.
Proof.
  intros Ha Hb. induction a as [|x a IH]; [elim Ha; reflexivity|]. destruct a as [|y a]; [destruct b as [|z b]; [elim Hb; reflexivity|]; reflexivity|].
  change (spaced ((x :: y :: a) ++ b)) with (x ++ [32%N] ++ spaced ((y :: a) ++ b)). rewrite IH by discriminate. change (spaced (x :: y :: a)) with (x ++ [32%N] ++ spaced (y :: a)). rewrite <- !app_assoc. reflexivity.
Qed.
Lemma program_blank k p : program k p -> program (k ++ s_ " ") p.
Proof.
  intros H. rewrite <- (app_nil_r p). apply program_app; [exact H|]. apply (g_prog _ [] [] (s_ " ")); [constructor|]. constructor; [left; reflexivity|constructor].
Qed.
Lemma covers_text ls ts : covers ls ts -> exists ks ps, Forall2 code_of ls ks /\ program (spaced ks) (concat ps) /\
  Forall2 (fun t p => ~ In 10%N t /\ exists k, code_of t k /\ program k p) ts ps.
Proof.
  induction 1 as [|ls t ks p ls' ts' H1 H2 H3 H4 H5 _ (ks' & ps & I1 & I2 & I3)].
  - exists [], []. split; [constructor|]. split; [|constructor]. apply (g_prog _ [] [] []); constructor.
  - exists (ks ++ ks'), (p :: ps). split; [apply Forall2_app; assumption|]. split; [|constructor; [split; [exact H3|exists (spaced ks); auto]|exact I3]].
    cbn [concat]. destruct ks' as [|k' ks'].
    + rewrite app_nil_r. rewrite <- (app_nil_r (spaced ks)). apply program_app; [exact H5|exact I2].
    + rewrite spaced_app; [|intros ->; inversion H2; subst; elim H1; reflexivity|discriminate]. rewrite app_assoc. apply program_app; [apply program_blank; exact H5|exact I2].
Qed.
(** ** Together *)
Lemma lines_parse ts ps : Forall2 (fun t p => ~ In 10%N t /\ exists k, code_of t k /\ program k p) ts ps -> exists cs, Forall2 (fun c p => parse c = Ok p) cs ps.
Proof.
  induction 1 as [|t p ts ps (_ & k & _ & Hp) _ (cs & IH)]; [exists []; constructor|]. exists (k :: cs). constructor; [apply parse_complete; exact Hp|exact IH].
Qed.
Lemma runs_typed n E ts ps : Forall2 (fun t p => ~ In 10%N t /\ exists k, code_of t k /\ program k p) ts ps -> forall r r' q, runs n E true r ps r' q -> typed n E r ts r' q.
Proof.
  induction 1 as [|t p ts ps (H10 & k & Hk & Hp) _ IH]; intros r r' q HR.
  - inversion HR; subst. constructor.
  - assert (D : p = [] \/ p <> []) by (destruct p; auto; right; discriminate). destruct D as [-> | N].
    + assert (HB : only_comment t) by (eapply blank_line; [exact H10|exact Hk|exact Hp|reflexivity]). apply ty_blank; [exact HB|unfold rt_eval; rewrite (blank_parses t HB); reflexivity|].
      inversion HR; subst; match goal with X : run_prog _ _ _ r [] = _ |- _ => rewrite run_nil in X; injection X as <- end; [apply IH; assumption|congruence].
    + assert (P : parse (clean t) = Ok p) by (eapply clean_parses; eassumption).
      assert (HB : ~ only_comment t) by (intros B; rewrite (blank_parses t B) in P; discriminate).
      inversion HR; subst; [eapply ty_line; [exact HB|rewrite (rt_eval_prog _ _ _ _ _ _ P); eassumption|apply IH; assumption]|apply ty_stop; [exact HB|rewrite (rt_eval_prog _ _ _ _ _ _ P); assumption|assumption]].
Qed.
Lemma script_typed n E (HE : steady E) text ls ts r r0 rz qz : has_lines text ls -> covers ls ts -> s_vars (r_sem r) <> [] -> alike r r0 ->
  rt_eval n E false r (strip_comments text) = (rz, qz) -> exists r' q, typed n E r0 ts r' q /\
  (q = qz /\ same_but_echo (r_eval rz) (r_eval r') \/ r_eval rz = r_eval r /\ (exists e, qz = RErr e) /\ q <> ROk).
Proof.
  intros HL HC H0 HA HR. destruct (covers_text _ _ HC) as (ks & ps & H1 & H2 & H3). rewrite (strip_comments_spec _ _ _ HL H1) in HR.
  rewrite (rt_eval_prog _ _ _ _ _ _ (parse_complete _ _ H2)) in HR. destruct (lines_parse _ _ H3) as (cs & Hcs).
  destruct (analyze (r_sem r) (concat ps)) as [sz [[]|e|x|]] eqn:A.
  - destruct (runs_accepted _ _ _ _ _ _ _ HR) as (r1 & R1 & R2 & _); [rewrite A; reflexivity|]. destruct (runs_alike n E HE _ _ Hcs _ _ _ R1 _ HA) as (r' & R3 & [_ X1 X2 X3]).
    exists r', qz. split; [eapply runs_typed; eassumption|]. left. split; [reflexivity|]. rewrite <- R2. split; assumption.
  - destruct (runs_rejected n E false ps r) as (r1 & q & R1 & R2); [rewrite A; discriminate|]. destruct (runs_alike n E HE _ _ Hcs _ _ _ R1 _ HA) as (r' & R3 & _).
    exists r', q. split; [eapply runs_typed; eassumption|]. right. destruct (rejected_state _ _ _ _ _ _ _ H0 HR) as [Y1 Y2]; [rewrite A; discriminate|]. auto.
  - destruct (rejected_state _ _ _ _ _ _ _ H0 HR) as [Y1 Y2]; [rewrite A; discriminate|]. destruct (runs_rejected n E false ps r) as (r1 & q & R1 & R2); [rewrite A; discriminate|]. destruct (runs_alike n E HE _ _ Hcs _ _ _ R1 _ HA) as (r' & R3 & _).
    exists r', q. split; [eapply runs_typed; eassumption|]. right. auto.
  - destruct (rejected_state _ _ _ _ _ _ _ H0 HR) as [Y1 Y2]; [rewrite A; discriminate|]. destruct (runs_rejected n E false ps r) as (r1 & q & R1 & R2); [rewrite A; discriminate|]. destruct (runs_alike n E HE _ _ Hcs _ _ _ R1 _ HA) as (r' & R3 & _).
    exists r', q. split; [eapply runs_typed; eassumption|]. right. auto.
Qed.
Lemma typed_one n E r ts r1 q1 : typed n E r ts r1 q1 -> forall r2 q2, typed n E r ts r2 q2 -> r1 = r2 /\ q1 = q2.
Proof.
  induction 1 as [r|r t ts r' q B1 B2 _ IH|r t ts ra r' q B1 B2 _ IH|r t ts r' q B1 B2 N]; intros r2 q2 T; inversion T; subst; try tauto; try (split; congruence).
  - apply IH; assumption.
  - match goal with X : rt_eval _ _ _ r _ = _ |- _ => rewrite X in B2; injection B2 as <- end. apply IH; assumption.
Qed.
Lemma runs_same n E cs ps : Forall2 (fun c p => parse c = Ok p) cs ps -> ~ has_expression_statement (concat ps) -> forall r r' q, runs n E false r ps r' q -> runs n E true r ps r' q.
Proof.
  intros H. induction H as [|c p cs ps Hc _ IH]; intros NE r r' q HR.
  - inversion HR; subst; constructor.
  - assert (S : run_prog n E true r p = run_prog n E false r p).
    { rewrite <- !(rt_eval_prog _ _ _ _ _ _ Hc). apply rt_eval_same. intros l Hl (st & e & X & Y). rewrite Hc in Hl. injection Hl as <-. apply NE. exists st, e. split; [cbn; apply in_or_app; left; exact X|exact Y]. }
    inversion HR; subst; [eapply ru_next; [rewrite S; eassumption|apply IH; [|assumption]]|apply ru_stop; [rewrite S; assumption|assumption]].
    intros (st & e & X & Y). apply NE. exists st, e. split; [cbn; apply in_or_app; right; exact X|exact Y].
Qed.
Lemma script_typed_same n E text ls ts r rz qz : has_lines text ls -> covers ls ts -> s_vars (r_sem r) <> [] ->
  (forall l, parse (strip_comments text) = Ok l -> ~ has_expression_statement l) ->
  rt_eval n E false r (strip_comments text) = (rz, qz) -> exists r' q, typed n E r ts r' q /\
  (q = qz /\ r_eval r' = r_eval rz /\ (qz = ROk -> r' = rz) \/ r_eval rz = r_eval r /\ (exists e, qz = RErr e) /\ q <> ROk).
Proof.
  intros HL HC H0 HN HR. destruct (covers_text _ _ HC) as (ks & ps & H1 & H2 & H3). rewrite (strip_comments_spec _ _ _ HL H1) in HR, HN.
  specialize (HN _ (parse_complete _ _ H2)). rewrite (rt_eval_prog _ _ _ _ _ _ (parse_complete _ _ H2)) in HR. destruct (lines_parse _ _ H3) as (cs & Hcs).
  assert (D : snd (analyze (r_sem r) (concat ps)) = Ok tt \/ snd (analyze (r_sem r) (concat ps)) <> Ok tt) by (destruct (snd (analyze (r_sem r) (concat ps))) as [[]|e|x|]; auto; right; discriminate).
  destruct D as [A|A].
  - destruct (runs_accepted _ _ _ _ _ _ _ HR A) as (r1 & R1 & R2 & R3). exists r1, qz. split; [eapply runs_typed; [exact H3|eapply runs_same; eassumption]|]. left. auto.
  - destruct (runs_rejected n E false ps r A) as (r1 & q & R1 & R2). exists r1, q. split; [eapply runs_typed; [exact H3|eapply runs_same; eassumption]|]. right.
    destruct (rejected_state _ _ _ _ _ _ _ H0 HR A) as [Y1 Y2]. auto.
Qed.

(** ** The processes *)
Definition only_parse_errors (err : list notice) : Prop := Forall (fun x => x = NtError EParse) err.
Lemma typed_listens n E r ts r' q : typed n E r ts r' q ->
  (q = ROk -> exists out err, listens n E r (map RlLine ts) r' out err /\ only_parse_errors err /\ (Forall (fun t => ~ only_comment t) ts -> err = [])) /\
  (q = RQuit -> exists pre l post r1 out err, ts = pre ++ l :: post /\ listens n E r (map RlLine pre) r1 out err /\ only_parse_errors err /\
     (Forall (fun t => ~ only_comment t) ts -> err = []) /\ rt_eval n E true r1 (clean l) = (r', RQuit)).
Proof.
  induction 1 as [r|r t ts r' q B1 B2 _ [I1 I2]|r t ts ra r' q B1 B2 _ [I1 I2]|r t ts r' q B1 B2 N].
  - split; [|discriminate]. intros _. exists [], []. split; [constructor|]. split; [constructor|]. intros _; reflexivity.
  - assert (Hh : hears n E r (RlLine t) r [] [NtError EParse]) by (apply he_bad; [exact B2|rewrite app_nil_r; reflexivity]). split; intros Q.
    + destruct (I1 Q) as (out & err & H1 & H2 & H3). exists ([] ++ out), ([NtError EParse] ++ err). split; [cbn [map]; eapply li_cons; eassumption|]. split; [constructor; [reflexivity|exact H2]|].
      intros F. inversion F; tauto.
    + destruct (I2 Q) as (pre & l & post & r1 & out & err & -> & H1 & H2 & H3 & H4). exists (t :: pre), l, post, r1, ([] ++ out), ([NtError EParse] ++ err).
      split; [reflexivity|]. split; [cbn [map]; eapply li_cons; eassumption|]. split; [constructor; [reflexivity|exact H2]|]. split; [|exact H4]. intros F. inversion F; tauto.
  - destruct (out_grows _ _ _ _ _ _ _ B2) as (u & Hu). assert (Hh : hears n E r (RlLine t) ra u []) by (apply he_good; assumption). split; intros Q.
    + destruct (I1 Q) as (out & err & H1 & H2 & H3). exists (u ++ out), ([] ++ err). split; [cbn [map]; eapply li_cons; eassumption|]. split; [exact H2|]. intros F. inversion F; auto.
    + destruct (I2 Q) as (pre & l & post & r1 & out & err & -> & H1 & H2 & H3 & H4). exists (t :: pre), l, post, r1, (u ++ out), ([] ++ err).
      split; [reflexivity|]. split; [cbn [map]; eapply li_cons; eassumption|]. split; [exact H2|]. split; [|exact H4]. intros F. inversion F; auto.
  - split; [intros ->; elim N; reflexivity|]. intros ->. exists [], t, ts, r, [], []. split; [reflexivity|]. split; [constructor|]. split; [constructor|]. split; [reflexivity|exact B2].
Qed.
Lemma echoed_wrote w w' t : echoed w w' -> echoed w (wrote w' t).
Proof. apply ec_echo. Qed.
Lemma start_alike E : steady E -> alike (rt_new E) (first_state E).
Proof.
  intros HE. rewrite <- start_new. unfold first_state, rt_start, eval_start. set (w0 := mk_world [] []).
  assert (G : echoed w0 greeted).
  { change greeted with (wrote (wrote (wrote w0 (s_ "btrd (the btrfs debugger) v0.5.3
")) (s_ "Type 'help' for help
")) nl). repeat apply ec_echo. constructor. }
  destruct (getcwd E) as [cwd|]; [|split; try reflexivity; exact G]. destruct (stable_open E HE cwd w0 greeted G) as [S1 S2].
  destruct (fs_new E cwd w0) as [w1 r1], (fs_new E cwd greeted) as [w2 r2]. cbn [fst snd] in *. subst r2. split; try reflexivity. exact S2.
Qed.
