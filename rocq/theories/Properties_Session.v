(** C17-C20: the analyser and sessions. *)
From Verif Require Import Base Ast Pom Parse Value Variables Semantics Fs Eval Runtime Demo
  Spec_Session Proof_Session Spec_Grammar Proof_Parse.
Arguments s_ s%string_scope.

(** ** C17 *)
Theorem C17_rejected_input_has_no_effect :
  forall E h r n inter cmd, session E h r ->
  (forall l, parse cmd <> Ok l) \/ (exists l, parse cmd = Ok l /\ snd (analyze (r_sem r) l) <> Ok tt) ->
  exists e r', rt_eval n E inter r cmd = (r', RErr e) /\ r_eval r' = r_eval r.
Proof.
  intros E h r n inter cmd Hs [Hp|(l & Hp & Ha)].
  - destruct (parse_total cmd) as [[l Hl]|He]; [elim (Hp l Hl)|]. unfold rt_eval. rewrite He. eauto.
  - destruct (session_analyze E h r l Hs) as (sem' & a & Hal & [->|[e ->]]).
    + rewrite Hal in Ha. elim Ha; reflexivity.
    + exists e. eapply rejected; eassumption.
Qed.
Print Assumptions C17_rejected_input_has_no_effect.

(** Conversely nothing runs unless the command parsed and passed the analysis. *)
Theorem C17_only_accepted_input_has_effects :
  forall n E inter r cmd, r_eval (fst (rt_eval n E inter r cmd)) <> r_eval r ->
  exists l sem', parse cmd = Ok l /\ analyze (r_sem r) l = (sem', Ok tt) /\
    r_eval (fst (rt_eval n E inter r cmd)) = fst (eval_prog n E inter (r_eval r) l).
Proof.
  intros n E inter r cmd H. unfold rt_eval in *. destruct (parse cmd) as [l| | |]; try (elim H; reflexivity).
  destruct (analyze (r_sem r) l) as [sem' [[]| | |]] eqn:Ha; try (elim H; reflexivity).
  exists l, sem'. destruct (eval_prog n E inter (r_eval r) l). auto.
Qed.
Print Assumptions C17_only_accepted_input_has_effects.

Example C17_example :
  snd (demo_run true false "print 1; print y;") = RErr (EUnknownVariable (s_ "y")) /\
  demo_out (demo_run true false "print 1; print y;") = [] /\
  snd (demo_run true false "print 1; print (2;") = RErr EParse /\
  demo_out (demo_run true false "print 1; print (2;") = [].
Proof. vm_compute. auto. Qed.

(** ** C18 *)
Theorem C18_analyser_recovers :
  forall E h r, session E h r ->
  s_depth (r_sem r) = 0%Z /\ length (s_vars (r_sem r)) = 1 /\ length (e_vars (r_eval r)) = 1.
Proof. intros E h r H. apply session_inv in H. destruct H; auto. Qed.
Print Assumptions C18_analyser_recovers.

Theorem C18_top_level_jumps_are_rejected :
  forall E h r n inter cmd l, session E h r ->
  parse cmd = Ok l -> In SBreak l \/ In SContinue l ->
  exists e r', rt_eval n E inter r cmd = (r', RErr e) /\ r_eval r' = r_eval r.
Proof. exact jump_rejected. Qed.
Print Assumptions C18_top_level_jumps_are_rejected.

(** a session whose second command fails inside two nested loops *)
Example C18_example :
  let E := demo_env true in
  let r1 := fst (rt_eval 300 E false (rt_new E) (s_ "x = 1;")) in
  let p := rt_eval 300 E false r1 (s_ "while true { for i in hist() { print nosuch; } }") in
  let q := rt_eval 300 E false (fst p) (s_ "x = 2; break;") in
  session E [s_ "x = 1;"; s_ "while true { for i in hist() { print nosuch; } }"] (fst p) /\
  snd p = RErr (EUnknownVariable (s_ "nosuch")) /\ snd q = RErr (EJumpOutsideLoop (s_ "break")) /\
  vars_get (s_ "x") (e_vars (r_eval (fst q))) = Some (VInt 1).
Proof.
  cbv zeta. split; [|vm_compute; auto].
  apply (ses_step _ [s_ "x = 1;"]). apply (ses_step _ []). constructor.
Qed.

(** ** C19 *)
Theorem C19_analyser_never_rejects_a_defined_variable :
  forall E h r l sem' x, session E h r ->
  analyze (r_sem r) l = (sem', Err (EUnknownVariable x)) ->
  vars_get x (e_vars (r_eval r)) = None.
Proof. exact unknown_reported. Qed.
Print Assumptions C19_analyser_never_rejects_a_defined_variable.

(** every expression over defined variables (without casts and with identifiers as field
    names, as the parser builds them) passes the analysis *)
Fixpoint plain (e : expr) : Prop :=
  match e with
  | EIdent _ | EInt _ | EBool _ | EStr _ => True
  | EParen e | EUn _ e => plain e
  | EField e f => plain e /\ (exists x, f = EIdent x)
  | EIndex e i => plain e /\ plain i
  | EBin _ l r => plain l /\ plain r
  | ECall f args => plain f /\ (fix all l := match l with [] => True | a :: l => plain a /\ all l end) args
  | ECast _ _ => False
  end.
Theorem C19_defined_variables_can_be_used :
  forall E h r e, session E h r -> plain e ->
  (forall x, In x (reads e) -> vars_get x (e_vars (r_eval r)) <> None) ->
  exists sem', analyze (r_sem r) [SPrint e] = (sem', Ok tt).
Proof.
  intros E h r e Hs He Hr. apply session_inv in Hs.
  assert (H : forall x, In x (reads e) -> knows (s_vars (r_sem r)) x) by (intros x Hx; apply (inv_knows _ Hs), Hr, Hx).
  assert (Ha : analyze_expr (s_vars (r_sem r)) e = Ok tt).
  { clear Hr. revert He H. generalize (s_vars (r_sem r)) as v. intros v. induction e using expr_ind'; cbn [plain reads analyze_expr]; intros He Hk; auto.
    - specialize (Hk x (or_introl eq_refl)). unfold knows in Hk. destruct (vars_get x v); [reflexivity|congruence].
    - destruct He as [He [y ->]]. auto.
    - destruct He. rewrite IHe1, IHe2; auto; intros; apply Hk, in_or_app; auto.
    - destruct He as [He1 He2]. rewrite IHe; auto; [|intros; apply Hk, in_or_app; auto].
      assert (Hk' : forall x, In x (flat_map reads args) -> knows v x) by (intros; apply Hk, in_or_app; auto). clear IHe Hk He1.
      cbn [bind]. induction args as [|a args IH]; [reflexivity|]. cbn in *. inversion H as [|? ? Ha Hargs]; subst. destruct He2 as [Hp He2].
      rewrite Ha; auto; [|intros; apply Hk', in_or_app; auto]. cbn. apply IH; auto. intros; apply Hk', in_or_app; auto.
    - destruct He. rewrite IHe1, IHe2; auto; intros; apply Hk, in_or_app; auto.
    - contradiction. }
  unfold analyze. rewrite analyze_stmts_cons, analyze_stmt_eq. unfold sbind. rewrite Ha. eexists. reflexivity.
Qed.
Print Assumptions C19_defined_variables_can_be_used.

Example C19_example :
  let E := demo_env true in
  let r1 := fst (rt_eval 300 E false (rt_new E) (s_ "x = 1; if x == 1 { y = 2; x = y; }")) in
  vars_get (s_ "x") (e_vars (r_eval r1)) = Some (VInt 2) /\
  snd (rt_eval 300 E false r1 (s_ "print x + len(hist());")) = ROk /\
  snd (rt_eval 300 E false r1 (s_ "print y;")) = RErr (EUnknownVariable (s_ "y")).
Proof. vm_compute. auto. Qed.

(** ** C20 *)
(** If x has never been assigned by an earlier top-level statement and is read before it is
    assigned in the sense of Spec_Session.v, the command is rejected and nothing runs.
    Missing with respect to C20: the analyser adds the assigned name before analysing the
    right-hand side (x = x;), the then and else branches share one scope, and names assigned
    by rejected or failed commands stay known: see [C20_refuted]. *)
Theorem C20_use_before_assignment_partial :
  forall E h r n inter cmd l x,
  session E h r ->
  vars_get x (e_vars (r_eval (rt_new E))) = None ->
  (forall c l e, In c h -> parse c = Ok l -> ~ In (SAssign (EIdent x) e) l) ->
  parse cmd = Ok l -> read_before_assigned x l ->
  exists e r', rt_eval n E inter r cmd = (r', RErr e) /\ r_eval r' = r_eval r.
Proof. exact use_before_assignment. Qed.
Print Assumptions C20_use_before_assignment_partial.

Example C20_example :
  exists l, parse (s_ "print 1; if true { z = 1; } a = hist() + z;") = Ok l /\ read_before_assigned (s_ "z") l.
Proof.
  eexists. split; [vm_compute; reflexivity|].
  apply rb_later; [discriminate|]. apply rb_later; [discriminate|]. apply rb_assign; [discriminate|]. right. left. reflexivity.
Qed.

(** The full claim fails: commands that read a never-assigned variable run statements
    (here a print) before failing. *)
Theorem C20_refuted :
  ~ (forall E h r n inter cmd r' x, session E h r ->
       rt_eval n E inter r cmd = (r', RErr (EUnknownVariable x)) -> r_eval r' = r_eval r).
Proof.
  intros H. set (E := demo_env true). set (p := rt_eval 300 E false (rt_new E) (s_ "print 1; x = x;")).
  specialize (H E [] (rt_new E) 300 false (s_ "print 1; x = x;") (fst p) (s_ "x") (ses_new E)).
  assert (Hp : p = (fst p, RErr (EUnknownVariable (s_ "x")))) by (vm_compute; reflexivity).
  specialize (H Hp). apply (f_equal (fun e => length (w_out (e_w e)))) in H. vm_compute in H. discriminate H.
Qed.
Print Assumptions C20_refuted.
Example C20_refuted_if_else :
  demo_out (demo_run true false "if false { y = 1; } else { print 7; print y; }") = s_ "7
".
Proof. vm_compute. reflexivity. Qed.
Example C20_refuted_after_rejection :
  let E := demo_env true in
  let p := rt_eval 300 E false (rt_new E) (s_ "y = nosuch;") in
  let q := rt_eval 300 E false (fst p) (s_ "print 7; print y;") in
  snd p = RErr (EUnknownVariable (s_ "nosuch")) /\ snd q = RErr (EUnknownVariable (s_ "y")) /\
  w_out (e_w (r_eval (fst q))) = s_ "7
".
Proof. vm_compute. auto. Qed.
