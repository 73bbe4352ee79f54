(** Proofs for C72 and C73. *)
From Verif Require Import Base Ast Pom Parse Structs Definitions Value Variables Semantics Fs Eval Runtime Lib Spec_Vars Spec_Run Spec_Session Spec_Safe Spec_Frame
  Proof_Vars Proof_Run Proof_Session.
Require Import Lia.
Arguments s_ s%string_scope.

(** ** Frame *)
Section Frame.
Context (x : str).
Definition keeps {A} (v v' : vars A) : Prop := forall j, binding v' j x = binding v j x.
Lemma keeps_refl {A} (v : vars A) : keeps v v. Proof. intros j. reflexivity. Qed.
Lemma keeps_trans {A} (a b c : vars A) : keeps a b -> keeps b c -> keeps a c.
Proof. intros H1 H2 j. rewrite H2. apply H1. Qed.
Lemma keeps_insert {A} y (a : A) v v' : y <> x -> vars_insert y a v = Some v' -> keeps v v'.
Proof.
  intros Hne H j. pose proof (vars_insert_spec y a v) as P. rewrite H in P.
  destruct P as [(i & _ & (_ & _ & Hs) & _)|(_ & (_ & _ & Hs) & _)]; apply Hs; congruence.
Qed.
Lemma keeps_replace {A} y (a : A) v v' : y <> x -> vars_replace y a v = Some v' -> keeps v v'.
Proof. intros Hne H. apply (keeps_insert y a); [exact Hne|]. unfold vars_insert. rewrite H. reflexivity. Qed.
Lemma keeps_lhs K E vs f e : ~ In x (target e) -> forall g w w' vs', lhs_assign K E vs f e g w = (w', Ok vs') -> keeps vs vs'.
Proof.
  induction e as [y| | | |e IH|e IHe fld IHf|e IHe i IHi| | | | ]; intros Hx g w w' vs' H; cbn [lhs_assign target] in *; try (unfold mret in H; discriminate).
  - unfold mret in H. apply (f_equal snd) in H. cbn [snd] in H. destruct (vars_get y vs); cbn [ok_or] in H; [|discriminate]. simpl in H. destruct (g v) as [v'| | |]; try discriminate. simpl in H.
    destruct (vars_replace y v' vs) as [r|] eqn:Hr; try discriminate. injection H as <-. apply (keeps_replace y v'); [|exact Hr]. intros ->. apply Hx. left. reflexivity.
  - destruct fld; try discriminate. exact (IHe Hx _ _ _ _ H).
  - unfold mbind, mret in H. destruct (eval_expr K E vs f i w) as [w1 [iv| | |]]; try discriminate. destruct (as_integer iv); try discriminate. exact (IHe Hx _ _ _ _ H).
Qed.

Definition kp (s : est) (p : est * ires) : Prop := keeps (e_vars s) (e_vars (fst p)).
Definition kev (ev : est -> stmt -> est * ires) (st : stmt) : Prop := forall s, kp s (ev s st).
Lemma kp_with k E s e c : (forall u v, e_vars u = e_vars s -> kp u (c u v)) -> kp s (with_expr k E s e c).
Proof.
  intros Hc. unfold with_expr. destruct (eval_expr k E (e_vars s) (e_fs s) e (e_w s)) as [w r]. destruct r; try apply keeps_refl. exact (Hc (with_w s w) a eq_refl).
Qed.
Lemma kp_write E s t : kp s (do_write E s t).
Proof. unfold do_write. destruct (sink E (tick (e_w s)) t); apply keeps_refl. Qed.
Lemma kp_list ev l : Forall (kev ev) l -> forall s, kp s (run_list ev s l).
Proof.
  induction 1 as [|st l Hst _ IH]; intros s; [apply keeps_refl|]. cbn [run_list]. fold (run_list ev). specialize (Hst s). destruct (ev s st) as [s1 r].
  destruct r; try exact Hst. exact (keeps_trans _ _ _ Hst (IH s1)).
Qed.
Lemma kp_while ev ke E c b k : Forall (kev ev) b -> forall s, kp s (while_loop ev ke E k c b s).
Proof.
  intros Hb. induction k as [|k IH]; intros s; cbn [while_loop]; [apply keeps_refl|]. apply kp_with. intros u v _.
  destruct (as_boolean v) as [[]|e|p|]; try apply keeps_refl. pose proof (kp_list ev b Hb u) as H. destruct (run_list ev u b) as [s1 r].
  destruct r; try exact H; exact (keeps_trans _ _ _ H (IH s1)).
Qed.
Lemma kp_insert y v s : y <> x -> kp s (est_insert y v s).
Proof. intros Hne. unfold est_insert. destruct (vars_insert y v (e_vars s)) eqn:H; [|apply keeps_refl]. exact (keeps_insert y v _ _ Hne H). Qed.
Lemma kp_for ev y b items : y <> x -> Forall (kev ev) b -> forall s, kp s (for_loop ev y b items s).
Proof.
  intros Hne Hb. induction items as [|v items IH]; intros s; cbn [for_loop]; [apply keeps_refl|]. pose proof (kp_insert y v s Hne) as H. destruct (est_insert y v s) as [s1 r].
  destruct r; try exact H. pose proof (kp_list ev b Hb s1) as H2. destruct (run_list ev s1 b) as [s2 r]. pose proof (keeps_trans _ _ _ H H2) as H3.
  destruct r; try exact H3; exact (keeps_trans _ _ _ H3 (IH s2)).
Qed.
Lemma kp_scope s b : (forall u, kp u (b u)) -> kp s (in_scope s b).
Proof.
  intros Hb. unfold in_scope. specialize (Hb (with_vars s (push_scope (e_vars s)))) as H. unfold kp in H. cbn [with_vars e_vars] in H.
  destruct (b (with_vars s (push_scope (e_vars s)))) as [s1 r]. cbn [fst] in H. destruct (e_vars s1) as [|m v'] eqn:Hv; cbn [pop_scope].
  - intros j. cbn [fst]. rewrite Hv. specialize (H (S j)). unfold binding in *. cbn [push_scope nth_error] in H. destruct j; exact H.
  - intros j. exact (H (S j)).
Qed.
Lemma not_in_flat l : ~ In x (flat_map may_assign l) -> forall st, In st l -> ~ In x (may_assign st).
Proof. intros H st Hin Hx. apply H. apply in_flat_map. eauto. Qed.
Lemma stmt_keeps E inter n : forall st, ~ In x (may_assign st) -> kev (eval_stmt n E inter) st.
Proof.
  induction n as [|n IH]; intros st Hx s; [apply keeps_refl|].
  assert (IHl : forall l, ~ In x (flat_map may_assign l) -> Forall (kev (eval_stmt n E inter)) l).
  { intros l Hl. apply Forall_forall. intros y Hy. apply IH. exact (not_in_flat l Hl y Hy). }
  destruct st as [lhs rhs|c tb fb|c b|i rg b| | | | |e|e|e]; cbn [eval_stmt may_assign] in *; try apply keeps_refl.
  - apply kp_with. intros u v _.
    assert (G : kp u (let '(w, r) := lhs_assign n E (e_vars u) (e_fs u) lhs (fun _ => Ok v) (e_w u) in match r with Ok vs => (mk_est vs (e_fs u) w, IOk) | _ => (with_w u w, ires_of r) end)).
    { destruct (lhs_assign n E (e_vars u) (e_fs u) lhs (fun _ => Ok v) (e_w u)) as [w r] eqn:Hl. destruct r; try apply keeps_refl. exact (keeps_lhs _ _ _ _ _ Hx _ _ _ _ Hl). }
    destruct lhs; try exact G. apply kp_insert. intros ->. apply Hx. left. reflexivity.
  - assert (Ht : ~ In x (flat_map may_assign tb) /\ ~ In x (flat_map may_assign fb)) by (split; intros H; apply Hx; apply in_or_app; tauto). destruct Ht as [Ht Hf].
    apply kp_scope. intros u. apply kp_with. intros u' v _. destruct (as_boolean v) as [[]|e|p|]; try apply keeps_refl; apply kp_list; apply IHl; assumption.
  - apply kp_scope. intros u. apply kp_while. apply IHl. exact Hx.
  - assert (Ht : ~ In x (target i) /\ ~ In x (flat_map may_assign b)) by (split; intros H; apply Hx; apply in_or_app; tauto). destruct Ht as [Ht Hf].
    apply kp_scope. intros u. destruct i; try apply keeps_refl. apply kp_with. intros u' v _. destruct (as_vec v) as [items|e|p|]; try apply keeps_refl. apply kp_for; [|apply IHl; exact Hf].
    intros ->. apply Ht. left. reflexivity.
  - apply kp_write.
  - apply kp_with. intros u v _. destruct (as_string true v) as [p|e0|p|]; try apply keeps_refl. destruct (fs_new E p (e_w u)) as [w r]. destruct r; apply keeps_refl.
  - apply kp_with. intros u v _. destruct (print_text n (overflow_checks E) v); try apply keeps_refl. apply kp_write.
  - apply kp_with. intros u v _. destruct inter; [apply kp_write|apply keeps_refl].
Qed.
Lemma command_keeps E inter n r cmd l : parse cmd = Ok l -> ~ In x (flat_map may_assign l) ->
  keeps (e_vars (r_eval r)) (e_vars (r_eval (fst (rt_eval n E inter r cmd)))).
Proof.
  intros Hp Hx. unfold rt_eval. rewrite Hp. destruct (analyze (r_sem r) l) as [sem' a]. destruct a; try apply keeps_refl. unfold eval_prog.
  pose proof (kp_list (eval_stmt n E inter) l) as H. destruct (run_list (eval_stmt n E inter) (r_eval r) l) as [s1 q] eqn:Hr. cbn [fst r_eval].
  specialize (H ltac:(apply Forall_forall; intros st Hst; apply stmt_keeps; exact (not_in_flat l Hx st Hst)) (r_eval r)). unfold kp in H. rewrite Hr in H. exact H.
Qed.
End Frame.
