(** Proofs about predefined names. *)
From Verif Require Import Base Ast Pom Parse Structs Definitions Value Variables Semantics Fs Eval Runtime Lib Spec_Run Spec_Text Spec_Session Spec_Constants Proof_Vars Proof_Run Proof_Session.
From Coq Require Import Lia.
Arguments s_ s%string_scope.

(** ** Statements that do not assign x keep it *)
Definition bindings {A} (x : str) (v : vars A) : list (option A) := map (assoc x) v.
Lemma bindings_get {A} x (v v' : vars A) : bindings x v = bindings x v' -> vars_get x v = vars_get x v'.
Proof.
  revert v'; induction v as [|m v IH]; intros [|m' v'] H; try discriminate; [reflexivity|]. injection H as H1 H2. cbn [vars_get]. rewrite H1, (IH v' H2). reflexivity.
Qed.
Lemma assoc_insert_other {A} x y (a : A) m : y <> x -> assoc x (scope_insert y a m) = assoc x m.
Proof.
  intros H. induction m as [|[z b] m IH]; cbn [scope_insert assoc].
  - destruct (str_eqb y x) eqn:E; [apply str_eqb_eq in E; congruence|reflexivity].
  - destruct (str_eqb z y) eqn:E; cbn [assoc].
    + apply str_eqb_eq in E. subst z. destruct (str_eqb y x) eqn:E2; [apply str_eqb_eq in E2; congruence|reflexivity].
    + destruct (str_eqb z x); [reflexivity|exact IH].
Qed.
Lemma bindings_replace {A} x y (a : A) v v' : y <> x -> vars_replace y a v = Some v' -> bindings x v' = bindings x v.
Proof.
  intros H. revert v'; induction v as [|m v IH]; intros v' E; [discriminate|]. cbn [vars_replace] in E. destruct (assoc y m).
  - injection E as <-. cbn. f_equal. apply assoc_insert_other. exact H.
  - destruct (vars_replace y a v) as [r|]; [|discriminate]. injection E as <-. cbn. f_equal. apply IH. reflexivity.
Qed.
Lemma bindings_insert {A} x y (a : A) v v' : y <> x -> vars_insert y a v = Some v' -> bindings x v' = bindings x v.
Proof.
  intros H E. unfold vars_insert in E. destruct (vars_replace y a v) as [r|] eqn:Er; [injection E as <-; eapply bindings_replace; eassumption|].
  destruct v as [|m v]; [discriminate|]. injection E as <-. cbn. f_equal. apply assoc_insert_other. exact H.
Qed.
Lemma lhs_root K E vs f e : forall g w w' vs', lhs_assign K E vs f e g w = (w', Ok vs') -> exists y v, root_var e = Some y /\ vars_replace y v vs = Some vs'.
Proof.
  induction e; intros g w w' vs' H; cbn [lhs_assign] in H; try (unfold mret in H; discriminate).
  - unfold mret in H. injection H as _ H. apply bind_ok_inv in H. destruct H as (v & _ & H). apply bind_ok_inv in H. destruct H as (v' & _ & H). exists x, v'. split; [reflexivity|].
    destruct (vars_replace x v' vs); [injection H as ->; reflexivity|discriminate].
  - destruct e2; try (unfold mret in H; discriminate). cbn [root_var]. eapply IHe1. exact H.
  - unfold mbind in H. destruct (eval_expr K E vs f e2 w) as [w1 [v|er|p|]]; try discriminate. unfold mret in H. destruct (as_integer v) as [z|er|p|]; try discriminate. cbn [root_var]. eapply IHe1. exact H.
Qed.

Section Keep.
Context (E : env) (inter : bool) (x : str).
Definition keeps (s s' : est) : Prop := bindings x (e_vars s') = bindings x (e_vars s).
Definition kev (ev : est -> stmt -> est * ires) : Prop := forall s st s' r, ~ alters x st -> ev s st = (s', r) -> keeps s s'.
Lemma keeps_refl s : keeps s s. Proof. reflexivity. Qed.
Lemma keeps_trans a b c : keeps a b -> keeps b c -> keeps a c. Proof. unfold keeps. congruence. Qed.
Lemma keeps_same s s' : e_vars s' = e_vars s -> keeps s s'. Proof. unfold keeps. congruence. Qed.
Lemma with_expr_k k s e c s' r : (forall s1 v, e_vars s1 = e_vars s -> c s1 v = (s', r) -> keeps s1 s') -> with_expr k E s e c = (s', r) -> keeps s s'.
Proof.
  unfold with_expr. intros Hc H. destruct (eval_expr k E (e_vars s) (e_fs s) e (e_w s)) as [w q]. destruct q as [v|er|p|]; try (injection H as <- _; apply keeps_same; reflexivity).
  exact (Hc (with_w s w) v eq_refl H).
Qed.
Lemma run_list_k ev l : kev ev -> (forall st, In st l -> ~ alters x st) -> forall s s' r, run_list ev s l = (s', r) -> keeps s s'.
Proof.
  intros Hev. induction l as [|st l IH]; intros Hl s s' r H; cbn [run_list] in H; [injection H as <- _; apply keeps_refl|].
  destruct (ev s st) as [s1 q] eqn:H1. apply Hev in H1; [|apply Hl; left; reflexivity]. destruct q; try (injection H as <- _; exact H1).
  eapply keeps_trans; [exact H1|]. eapply IH; [|exact H]. intros u Hu. apply Hl. right. exact Hu.
Qed.
Lemma while_k ev ke k c b : kev ev -> (forall st, In st b -> ~ alters x st) -> forall s s' r, while_loop ev ke E k c b s = (s', r) -> keeps s s'.
Proof.
  intros Hev Hb. induction k as [|k IH]; intros s s' r H; cbn [while_loop] in H; [injection H as <- _; apply keeps_refl|].
  revert H. apply with_expr_k. intros s1 v _ H. destruct (as_boolean v) as [[|]|e|p|]; try (injection H as <- _; apply keeps_refl).
  destruct (run_list ev s1 b) as [s2 q] eqn:H2. apply run_list_k in H2; [|exact Hev|exact Hb].
  destruct q; try (injection H as <- _; exact H2); (eapply keeps_trans; [exact H2|exact (IH _ _ _ H)]).
Qed.
Lemma insert_k y v s s' r : y <> x -> est_insert y v s = (s', r) -> keeps s s'.
Proof.
  intros Hy. unfold est_insert. destruct (vars_insert y v (e_vars s)) as [vs|] eqn:Hi; intros H; injection H as <- _; [|apply keeps_refl]. unfold keeps. cbn. eapply bindings_insert; eassumption.
Qed.
Lemma for_k ev y b items : y <> x -> kev ev -> (forall st, In st b -> ~ alters x st) -> forall s s' r, for_loop ev y b items s = (s', r) -> keeps s s'.
Proof.
  intros Hy Hev Hb. induction items as [|v items IH]; intros s s' r H; cbn [for_loop] in H; [injection H as <- _; apply keeps_refl|].
  destruct (est_insert y v s) as [s1 q1] eqn:H1. apply (insert_k y v s s1 q1 Hy) in H1.
  destruct q1; try (injection H as <- _; exact H1). destruct (run_list ev s1 b) as [s2 q] eqn:H2. apply run_list_k in H2; [|exact Hev|exact Hb]. pose proof (keeps_trans _ _ _ H1 H2) as H3.
  destruct q; try (injection H as <- _; exact H3); (eapply keeps_trans; [exact H3|exact (IH _ _ _ H)]).
Qed.
Lemma in_scope_k s b s' r : (forall s0 s1 q, b s0 = (s1, q) -> keeps s0 s1) -> in_scope s b = (s', r) -> keeps s s'.
Proof.
  unfold in_scope. intros Hb H. destruct (b _) as [s1 q] eqn:H1. apply Hb in H1. unfold keeps in H1. cbn in H1. unfold pop_scope in H. destruct (e_vars s1) as [|m v] eqn:Ev; [discriminate|].
  injection H as <- _. unfold keeps. cbn in *. injection H1 as _ H1. exact H1.
Qed.
Lemma not_alters_sub st u : ~ alters x st -> (forall v, In v (substmts u) -> In v (substmts st)) -> ~ alters x u.
Proof. intros H Hs (v & H1 & H2). apply H. exists v. split; [apply Hs; exact H1|exact H2]. Qed.
Lemma eval_stmt_k n : kev (eval_stmt n E inter).
Proof.
  induction n as [|n IH]; intros s st s' r HN H; cbn [eval_stmt] in H; [injection H as <- _; apply keeps_refl|].
  destruct st as [lhs rhs|c tb fb|c b|i re b| | | | |e|e|e].
  - revert H. apply with_expr_k. intros s1 v _ H.
    assert (G : (let '(w, r) := lhs_assign n E (e_vars s1) (e_fs s1) lhs (fun _ => Ok v) (e_w s1) in match r with Ok vs => (mk_est vs (e_fs s1) w, IOk) | _ => (with_w s1 w, ires_of r) end) = (s', r) -> keeps s1 s').
    { clear H. intros H. destruct (lhs_assign n E (e_vars s1) (e_fs s1) lhs (fun _ => Ok v) (e_w s1)) as [w q] eqn:Hl. destruct q as [vs|er|p|]; injection H as <- _; try (apply keeps_same; reflexivity).
      apply lhs_root in Hl. destruct Hl as (y & v' & Hr & Hv). unfold keeps. cbn. eapply bindings_replace; [|exact Hv]. intros ->. apply HN. exists (SAssign lhs rhs). split; [left; reflexivity|]. left. eauto. }
    destruct lhs; try exact (G H). eapply insert_k; [|exact H]. intros ->. apply HN. eexists. split; [left; reflexivity|]. left. eauto.
  - revert H. apply in_scope_k. intros s0 s1 q. apply with_expr_k. intros s2 v _ H. destruct (as_boolean v) as [t|e|p|]; try (injection H as <- _; apply keeps_refl).
    eapply run_list_k; [exact IH| |exact H]. intros u Hu. eapply not_alters_sub; [exact HN|]. intros z Hz. cbn [substmts]. right. apply in_app_iff. destruct t; [left|right]; apply in_flat_map; exists u; auto.
  - revert H. apply in_scope_k. intros s0 s1 q H. eapply while_k; [exact IH| |exact H]. intros u Hu. eapply not_alters_sub; [exact HN|]. intros z Hz. cbn [substmts]. right. apply in_flat_map; exists u; auto.
  - revert H. apply in_scope_k. intros s0 s1 q H. destruct i as [y| | | | | | | | | |]; try (injection H as <- _; apply keeps_refl). revert H. apply with_expr_k. intros s2 v _ H.
    destruct (as_vec v) as [items|e|p|]; try (injection H as <- _; apply keeps_refl). eapply for_k; [|exact IH| |exact H].
    + intros ->. apply HN. eexists. split; [left; reflexivity|]. right. eauto.
    + intros u Hu. eapply not_alters_sub; [exact HN|]. intros z Hz. cbn [substmts]. right. apply in_flat_map; exists u; auto.
  - injection H as <- _. apply keeps_refl.
  - injection H as <- _. apply keeps_refl.
  - apply keeps_same. eapply do_write_vars. exact H.
  - injection H as <- _. apply keeps_refl.
  - revert H. apply with_expr_k. intros s1 v _ H. destruct (as_string true v) as [p|e1|p|]; try (injection H as <- _; apply keeps_refl).
    destruct (fs_new E p (e_w s1)) as [w q]. destruct q; injection H as <- _; apply keeps_same; reflexivity.
  - revert H. apply with_expr_k. intros s1 v _ H. destruct (print_text n (overflow_checks E) v) as [t|e1|p|]; try (injection H as <- _; apply keeps_refl). apply keeps_same. eapply do_write_vars. exact H.
  - revert H. apply with_expr_k. intros s1 v _ H. destruct inter; [apply keeps_same; eapply do_write_vars; exact H|injection H as <- _; apply keeps_refl].
Qed.
End Keep.

Lemma rt_eval_keeps n E inter r cmd x : (forall l st, parse cmd = Ok l -> In st l -> ~ alters x st) ->
  vars_get x (e_vars (r_eval (fst (rt_eval n E inter r cmd)))) = vars_get x (e_vars (r_eval r)).
Proof.
  intros H. unfold rt_eval. destruct (parse cmd) as [l|e|p|] eqn:Hp; try reflexivity. destruct (analyze (r_sem r) l) as [sem' a]. destruct a as [[]|e|p|]; try reflexivity.
  unfold eval_prog. destruct (run_list (eval_stmt n E inter) (r_eval r) l) as [s' q] eqn:Hr. cbn [fst r_eval]. apply bindings_get. eapply run_list_k; [apply eval_stmt_k| |exact Hr]. intros st Hst. apply (H l); [reflexivity|exact Hst].
Qed.
Lemma session_keeps E h r x : session E h r -> (forall cmd l st, In cmd h -> parse cmd = Ok l -> In st l -> ~ alters x st) ->
  vars_get x (e_vars (r_eval r)) = vars_get x (vars_new VInt VFun).
Proof.
  induction 1 as [|h r n inter cmd _ IH]; intros H; [cbn [rt_new r_eval]; rewrite eval_new_vars; reflexivity|].
  rewrite rt_eval_keeps; [apply IH; intros c l st Hc; apply H; apply in_app_iff; left; exact Hc|]. intros l st. apply H. apply in_app_iff. right. left. reflexivity.
Qed.
(** the analyser never forgets a name *)
Lemma session_remembers E h r x : session E h r -> vars_get x (vars_new VInt VFun) <> None -> vars_get x (s_vars (r_sem r)) <> None.
Proof.
  intros Hs Hx. induction Hs as [|h r n inter cmd Hs IH].
  - cbn. exact (proj1 (knows_same _ _ x (vars_new_names VInt VFun (fun _ => tt) (fun _ => tt))) Hx).
  - unfold rt_eval. destruct (parse cmd) as [l|e|p|]; try exact IH. destruct (analyze (r_sem r) l) as [sem' a] eqn:Ha.
    assert (K : vars_get x (s_vars sem') <> None).
    { pose proof (analyze_good _ _ _ _ (len1_ne _ (inv_sem _ (session_inv _ _ _ Hs))) Ha) as (_ & G & _). eapply knows_grows; [exact G|exact IH]. }
    destruct a as [[]|e|p|]; try exact K. destruct (eval_prog n E inter (r_eval r) l) as [ev' q]. exact K.
Qed.
(** the initial table *)
Lemma initial_constants : forallb (fun c => str_eqb (fst c) (s_ "BTRFS_BALANCE_OBJECTID") ||
  match vars_get (fst c) (vars_new VInt VFun) with Some (VInt z) => (z =? snd c)%Z | _ => false end) kernel_constants = true.
Proof. vm_compute. reflexivity. Qed.
Lemma initial_complete : forallb (fun c => existsb (fun k => str_eqb (fst k) (fst c)) kernel_constants) CONSTANTS = true.
Proof. vm_compute. reflexivity. Qed.
