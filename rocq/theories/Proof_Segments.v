(** A property of sequences of interactions that holds for those of the operations and is kept by
    concatenation holds for the interactions of every command. *)
From Verif Require Import Base Ast Pom Parse Structs Definitions Value Variables Semantics Fs Eval Runtime Spec_Run.
From Coq Require Import Lia.

Section Segments.
Context (E : env) (P : nat -> list event -> Prop)
  (P_nil : forall i, P i []) (P_app : forall i a b, P i a -> P (i + length a) b -> P i (a ++ b))
  (P_open : forall i p, P i [EvOpen p]) (P_write : forall i t, P i [EvWrite t]).
Definition seg (w w' : world) : Prop := exists l, w_log w' = w_log w ++ l /\ P (length (w_log w)) l.
Context (P_search : forall K f tree key w w' r, eval_search K E f tree key w = (w', r) -> seg w w').
Lemma seg_refl w : seg w w.
Proof. exists []. split; [symmetry; apply app_nil_r|apply P_nil]. Qed.
Lemma seg_trans a b c : seg a b -> seg b c -> seg a c.
Proof. intros (l & A & B) (m & C & D). exists (l ++ m). rewrite C, A, app_assoc. split; [reflexivity|]. rewrite A, app_length in D. apply P_app; assumption. Qed.
Definition mseg {A} (m : M A) : Prop := forall w w' r, m w = (w', r) -> seg w w'.
Lemma mseg_ret {A} (r : res A) : mseg (mret r).
Proof. intros w w' r' H. injection H as <- <-. apply seg_refl. Qed.
Lemma mseg_bind {A B} (m : M A) (g : A -> M B) : mseg m -> (forall a, mseg (g a)) -> mseg (mbind m g).
Proof.
  intros Hm Hg w w' r H. unfold mbind in H. destruct (m w) as [w1 [a|e|p|]] eqn:H1; apply Hm in H1; try (injection H as <- <-; exact H1). eapply seg_trans; [exact H1|]. exact (Hg a _ _ _ H).
Qed.
Lemma mseg_search K f tree key : mseg (eval_search K E f tree key).
Proof. intros w w' r H. eapply P_search. exact H. Qed.
Lemma mseg_expr K vs f : forall e, mseg (eval_expr K E vs f e).
Proof.
  fix IH 1. intros e. destruct e as [x|z|b|s|e|e fld|e i|fe args|op l r|op e|t e]; cbn [eval_expr]; try apply mseg_ret.
  - apply IH.
  - apply mseg_bind; [apply IH|intros v]. apply mseg_bind; [apply mseg_ret|intros [[nm ky] fl]]. destruct fld; apply mseg_ret.
  - repeat (first [apply mseg_ret|apply mseg_bind; [first [apply IH|apply mseg_ret]|intros ?]]).
  - apply mseg_bind; [apply IH|intros fv]. apply mseg_bind; [apply mseg_ret|intros fn].
    destruct fn; repeat match goal with |- mseg match ?l with [] => _ | _ => _ end => destruct l end; try apply mseg_ret;
    repeat (first [apply mseg_ret|apply mseg_search|apply mseg_bind; [first [apply IH|apply mseg_ret]|intros ?]]).
    destruct a0 as [[nm ky] fl]. destruct ky as [[[? ?] ?]|]; apply mseg_ret.
  - destruct op; repeat (first [apply mseg_ret|apply mseg_bind; [first [apply IH|apply mseg_ret]|intros ?]]);
    match goal with |- context [if ?x then _ else _] => destruct x end;
    repeat (first [apply mseg_ret|apply mseg_bind; [first [apply IH|apply mseg_ret]|intros ?]]).
  - apply mseg_bind; [apply IH|intros v; apply mseg_ret].
  - apply mseg_bind; [apply IH|intros v]. apply mseg_bind; [apply mseg_ret|intros z]. destruct (z <? 0)%Z; apply mseg_ret.
Qed.
Lemma mseg_lhs K vs f e : forall g, mseg (lhs_assign K E vs f e g).
Proof.
  induction e; intros g; cbn [lhs_assign]; try apply mseg_ret.
  - destruct e2; try apply mseg_ret. apply IHe1.
  - apply mseg_bind; [apply mseg_expr|intros v]. apply mseg_bind; [apply mseg_ret|intros z]. apply IHe1.
Qed.
Lemma mseg_open p : mseg (fs_new E p).
Proof. intros w w' r H. unfold fs_new in H. injection H as <- <-. exists [EvOpen p]. split; [reflexivity|apply P_open]. Qed.
Definition sseg (b : est -> est * ires) : Prop := forall s s' r, b s = (s', r) -> seg (e_w s) (e_w s').
Definition evseg (ev : est -> stmt -> est * ires) : Prop := forall st, sseg (fun s => ev s st).
Lemma ss_end r : sseg (fun s => (s, r)).
Proof. intros s s' r' H. injection H as <- <-. apply seg_refl. Qed.
Lemma ss_expr k e c : (forall v, sseg (fun s => c s v)) -> sseg (fun s => with_expr k E s e c).
Proof.
  intros Hc s s' r H. unfold with_expr in H. destruct (eval_expr k E (e_vars s) (e_fs s) e (e_w s)) as [w [v|x|p|]] eqn:He; apply mseg_expr in He; try (injection H as <- <-; exact He).
  eapply seg_trans; [exact He|]. exact (Hc v (with_w s w) s' r H).
Qed.
Lemma ss_list ev l : evseg ev -> sseg (fun s => run_list ev s l).
Proof.
  intros He. induction l as [|st l IH]; intros s s' r H; cbn [run_list] in H; [injection H as <- <-; apply seg_refl|]. destruct (ev s st) as [s1 q] eqn:H1. apply (He st) in H1.
  destruct q; try (injection H as <- <-; exact H1). eapply seg_trans; [exact H1|exact (IH _ _ _ H)].
Qed.
Lemma ss_while ev ke k c b : evseg ev -> sseg (while_loop ev ke E k c b).
Proof.
  intros He. induction k as [|k IH]; intros s s' r H; cbn [while_loop] in H; [injection H as <- <-; apply seg_refl|]. revert s s' r H. apply (ss_expr ke c). intros v s s' r H.
  destruct (as_boolean v) as [[|]|e|p|]; try (injection H as <- <-; apply seg_refl). destruct (run_list ev s b) as [s2 q] eqn:H2. apply (ss_list ev b He) in H2.
  destruct q; try (injection H as <- <-; exact H2); (eapply seg_trans; [exact H2|exact (IH _ _ _ H)]).
Qed.
Lemma ss_insert x v : sseg (est_insert x v).
Proof. intros s s' r. unfold est_insert. destruct (vars_insert x v (e_vars s)); intros H; injection H as <- <-; apply seg_refl. Qed.
Lemma ss_for ev x b items : evseg ev -> sseg (for_loop ev x b items).
Proof.
  intros He. induction items as [|v items IH]; intros s s' r H; cbn [for_loop] in H; [injection H as <- <-; apply seg_refl|].
  destruct (est_insert x v s) as [s1 q1] eqn:H1. apply ss_insert in H1. destruct q1; try (injection H as <- <-; exact H1).
  destruct (run_list ev s1 b) as [s2 q] eqn:H2. apply (ss_list ev b He) in H2. assert (T : seg (e_w s) (e_w s2)) by (eapply seg_trans; [exact H1|exact H2]).
  destruct q; try (injection H as <- <-; exact T); (eapply seg_trans; [exact T|exact (IH _ _ _ H)]).
Qed.
Lemma ss_scope b : sseg b -> sseg (fun s => in_scope s b).
Proof.
  intros Hb s s' r H. unfold in_scope in H. destruct (b (with_vars s (push_scope (e_vars s)))) as [s1 q] eqn:H1. apply Hb in H1. cbn [with_vars e_w] in H1.
  destruct (pop_scope (e_vars s1)); injection H as <- <-; exact H1.
Qed.
Lemma ss_write t : sseg (fun s => do_write E s t).
Proof. intros s s' r H. unfold do_write in H. destruct (sink E (tick (e_w s)) t) as [|k]; injection H as <- <-; (exists [EvWrite t]; split; [reflexivity|apply P_write]). Qed.
Lemma ss_stmt inter n : evseg (eval_stmt n E inter).
Proof.
  induction n as [|n IH]; intros st; cbn [eval_stmt]; [apply ss_end|]. destruct st as [lhs rhs|c tb fb|c b|i re b| | | | |e|e|e].
  - apply ss_expr. intros v.
    assert (X : sseg (fun u => let '(w, r) := lhs_assign n E (e_vars u) (e_fs u) lhs (fun _ => Ok v) (e_w u) in match r with Ok vs => (mk_est vs (e_fs u) w, IOk) | _ => (with_w u w, ires_of r) end)).
    { intros u s' r H. destruct (lhs_assign n E (e_vars u) (e_fs u) lhs (fun _ => Ok v) (e_w u)) as [w [a|e|p|]] eqn:Hl; apply mseg_lhs in Hl; injection H as <- <-; exact Hl. }
    destruct lhs; try exact X. apply ss_insert.
  - apply ss_scope, ss_expr. intros v. destruct (as_boolean v) as [t|x|p|]; try apply ss_end. apply ss_list. exact IH.
  - apply ss_scope, ss_while. exact IH.
  - apply ss_scope. destruct i; try apply ss_end. apply ss_expr. intros v. destruct (as_vec v) as [items|y|p|]; try apply ss_end. apply ss_for. exact IH.
  - apply ss_end.
  - apply ss_end.
  - apply ss_write.
  - apply ss_end.
  - apply ss_expr. intros v. destruct (as_string true v) as [p|x|p|]; try apply ss_end. intros u s' r H.
    destruct (fs_new E p (e_w u)) as [w [f|x|q|]] eqn:Hf; apply mseg_open in Hf; injection H as <- <-; exact Hf.
  - apply ss_expr. intros v. destruct (print_text n (overflow_checks E) v) as [t|x|p|]; try apply ss_end. apply ss_write.
  - apply ss_expr. intros v. destruct inter; [apply ss_write|apply ss_end].
Qed.
Lemma rt_eval_seg n inter r cmd r' q : rt_eval n E inter r cmd = (r', q) -> seg (e_w (r_eval r)) (e_w (r_eval r')).
Proof.
  intros H. unfold rt_eval in H. destruct (parse cmd) as [l|e|p|]; try (injection H as <- <-; apply seg_refl).
  destruct (analyze (r_sem r) l) as [sem' [[]|e|p|]]; try (injection H as <- <-; apply seg_refl). unfold eval_prog in H.
  destruct (run_list (eval_stmt n E inter) (r_eval r) l) as [s' q'] eqn:Hr. apply (ss_list _ l (ss_stmt inter n)) in Hr. injection H as <- <-. exact Hr.
Qed.
Lemma new_seg : seg (mk_world [] []) (e_w (r_eval (rt_new E))).
Proof. cbn [rt_new r_eval]. unfold eval_new. destruct (getcwd E) as [c|]; [|apply seg_refl]. exists [EvOpen c]. split; [reflexivity|apply P_open]. Qed.
End Segments.
