(** Proofs for C81. *)
From Verif Require Import Base Ast Pom Parse Structs Definitions Value Variables Semantics Fs Eval Runtime Lib Spec_Run Spec_Session Spec_Laws Proof_Run Proof_Session.
From Coq Require Import Lia.
Arguments s_ s%string_scope.

Lemma same_refl e : same_expr e e.
Proof. split; reflexivity. Qed.
Lemma same_sym a b : same_expr a b -> same_expr b a.
Proof. intros [A B]. split; intros; symmetry; auto. Qed.
Lemma same_trans a b c : same_expr a b -> same_expr b c -> same_expr a c.
Proof. intros [A B] [C D]. split; intros; [rewrite A; apply C|rewrite B; apply D]. Qed.
Lemma bind_ext {A B} (m m' : M A) (g g' : A -> M B) w : (forall u, m u = m' u) -> (forall a u, g a u = g' a u) -> mbind m g w = mbind m' g' w.
Proof. intros Hm Hg. unfold mbind. rewrite Hm. destruct (m' w) as [w1 [a|e|p|]]; [apply Hg|reflexivity..]. Qed.


Section Congruence.
Context (R : expr -> expr -> Prop) (HR : forall a b, R a b -> same_expr a b).
Lemma same_paren a b : same_expr a b -> same_expr (EParen a) (EParen b).
Proof. intros [A B]. split; intros; cbn [analyze_expr eval_expr]; auto. Qed.
Lemma same_field a b x : same_expr a b -> same_expr (EField a x) (EField b x).
Proof.
  intros [A B]. split; intros; cbn [analyze_expr eval_expr]; [destruct x; auto|]. apply bind_ext; [intros; apply B|]. intros v u. apply bind_ext; [reflexivity|]. intros [[n k] fl] u'. destruct x; reflexivity.
Qed.
Lemma same_index a b i j : same_expr a b -> same_expr i j -> same_expr (EIndex a i) (EIndex b j).
Proof.
  intros [A B] [C D]. split; intros; cbn [analyze_expr eval_expr]; [rewrite A, C; reflexivity|]. apply bind_ext; [intros; apply B|]. intros v u. apply bind_ext; [reflexivity|]. intros l u'. apply bind_ext; [intros; apply D|reflexivity].
Qed.
Lemma same_un op a b : same_expr a b -> same_expr (EUn op a) (EUn op b).
Proof. intros [A B]. split; intros; cbn [analyze_expr eval_expr]; [auto|]. apply bind_ext; [intros; apply B|reflexivity]. Qed.
Lemma same_cast t a b : same_expr a b -> same_expr (ECast t a) (ECast t b).
Proof. intros [A B]. split; intros; cbn [analyze_expr eval_expr]; [destruct t; auto; rewrite A; reflexivity|]. apply bind_ext; [intros; apply B|reflexivity]. Qed.
Lemma same_bin op a b c d : same_expr a b -> same_expr c d -> same_expr (EBin op a c) (EBin op b d).
Proof.
  intros [A B] [C D]. split; intros; cbn [analyze_expr eval_expr]; [rewrite A, C; reflexivity|].
  destruct op; (apply bind_ext; [intros; apply B|intros v u]);
  try (apply bind_ext; [intros; apply D|reflexivity]);
  (apply bind_ext; [reflexivity|intros z u']); try (apply bind_ext; [intros; apply D|reflexivity]);
  destruct z; try reflexivity; (apply bind_ext; [intros; apply D|reflexivity]).
Qed.
Lemma same_call f g l m : same_expr f g -> Forall2 same_expr l m -> same_expr (ECall f l) (ECall g m).
Proof.
  intros [A B] H. split.
  - intros v. cbn [analyze_expr]. rewrite A. destruct (analyze_expr v g); try reflexivity. cbn [bind]. clear A B. induction H as [|x y l m [C _] _ IH]; [reflexivity|]. rewrite C. destruct (analyze_expr v y); try reflexivity. exact IH.
  - intros K E vs f0 w. cbn [eval_expr]. apply bind_ext; [intros; apply B|intros v u]. apply bind_ext; [reflexivity|intros fn u']. destruct fn.
    all: do 5 (try match goal with H : Forall2 _ _ _ |- _ => inversion H; subst; clear H end; try reflexivity).
    all: repeat match goal with H : same_expr _ _ |- _ => destruct H as [_ H] end.
    all: repeat first [reflexivity | apply bind_ext; [intros; first [reflexivity|auto]|intros ? ?]].
Qed.
Scheme swapped_mind := Minimality for swapped Sort Prop with swapped_all_mind := Minimality for swapped_all Sort Prop.
Combined Scheme swapped_both from swapped_mind, swapped_all_mind.
Lemma swapped_same : (forall a b, swapped R a b -> same_expr a b) /\ (forall l m, swapped_all R l m -> Forall2 same_expr l m).
Proof.
  apply swapped_both; intros; auto using same_refl, same_paren, same_field, same_index, same_call, same_bin, same_un, same_cast.
Qed.
Lemma target_analysis a b : swapped_target R a b -> forall v, analyze_expr v a = analyze_expr v b.
Proof.
  induction 1 as [e|a b x H IH|a b i j H IH Hi]; intros v; cbn [analyze_expr]; [reflexivity|destruct x; auto|]. rewrite IH. destruct (proj1 swapped_same _ _ Hi) as [A _]. rewrite A. reflexivity.
Qed.
Lemma target_shape a b : swapped_target R a b -> a = b \/ (forall x, a <> EIdent x) /\ (forall x, b <> EIdent x).
Proof. destruct 1; [left; reflexivity|right; split; discriminate..]. Qed.
Lemma target_eval a b : swapped_target R a b -> forall k E vs f g w, lhs_assign k E vs f a g w = lhs_assign k E vs f b g w.
Proof.
  induction 1 as [e|a b x H IH|a b i j H IH Hi]; intros k E vs f g w; cbn [lhs_assign]; [reflexivity|destruct x; auto|]. destruct (proj1 swapped_same _ _ Hi) as [_ B].
  apply bind_ext; [intros; apply B|intros v u]. apply bind_ext; [reflexivity|intros z u']. apply IH.
Qed.
Lemma with_expr_ext k E s a b c d : same_expr a b -> (forall s v, c s v = d s v) -> with_expr k E s a c = with_expr k E s b d.
Proof. intros [_ B] H. unfold with_expr. rewrite B. destruct (eval_expr k E (e_vars s) (e_fs s) b (e_w s)) as [w [v| | |]]; try reflexivity. apply H. Qed.
Scheme sstmt_mind := Minimality for swapped_stmt Sort Prop with sstmts_mind := Minimality for swapped_stmts Sort Prop.
Combined Scheme sstmt_both from sstmt_mind, sstmts_mind.
Lemma sbind_ext p k k' : (forall s, k s = k' s) -> sbind p k = sbind p k'.
Proof. intros H. unfold sbind. destruct (snd p); auto. Qed.
Lemma swapped_analysis : (forall s t, swapped_stmt R s t -> forall m, analyze_stmt m s = analyze_stmt m t) /\ (forall l k, swapped_stmts R l k -> forall m, analyze_stmts m l = analyze_stmts m k).
Proof.
  assert (X : forall a b v, swapped R a b -> analyze_expr v a = analyze_expr v b) by (intros a b v H; apply (proj1 swapped_same a b H)).
  apply sstmt_both.
  - reflexivity.
  - intros l m a b Hl Ha s. rewrite !analyze_stmt_eq. destruct (target_shape _ _ Hl) as [->|[N1 N2]].
    + apply sbind_ext. intros s'. rewrite (X _ _ _ Ha). reflexivity.
    + destruct l; try (elim (N1 x); reflexivity); destruct m; try (elim (N2 x); reflexivity); rewrite (target_analysis _ _ Hl); apply sbind_ext; intros s'; rewrite (X _ _ _ Ha); reflexivity.
  - intros c d t u f g Hc _ Ht _ Hf s. rewrite !analyze_stmt_eq. cbv zeta. rewrite (X _ _ _ Hc). f_equal. apply sbind_ext. intros s1. rewrite Ht. apply sbind_ext. intros s2. apply Hf.
  - intros c d b b' Hc _ Hb s. rewrite !analyze_stmt_eq. cbv zeta. rewrite (X _ _ _ Hc). f_equal. apply sbind_ext. exact Hb.
  - intros i r r' b b' Hr _ Hb s. rewrite !analyze_stmt_eq. cbv zeta. f_equal. destruct i; try reflexivity. apply sbind_ext. intros s1. rewrite (X _ _ _ Hr). apply sbind_ext. exact Hb.
  - intros a b Ha s. rewrite !analyze_stmt_eq, (X _ _ _ Ha). reflexivity.
  - intros a b Ha s. rewrite !analyze_stmt_eq, (X _ _ _ Ha). reflexivity.
  - reflexivity.
  - intros s t l m Hs IHs Hl IHl k. rewrite !analyze_stmts_cons, IHs. apply sbind_ext. exact IHl.
Qed.
Lemma run_list_ext ev l m : Forall2 (fun s t => forall u, ev u s = ev u t) l m -> forall s, run_list ev s l = run_list ev s m.
Proof.
  induction 1 as [|x y l m H _ IH]; intros s; [reflexivity|]. cbn [run_list]. rewrite H. destruct (ev s y) as [s1 []]; try reflexivity. apply IH.
Qed.
Lemma in_scope_ext s b b' : (forall u, b u = b' u) -> in_scope s b = in_scope s b'.
Proof. intros H. unfold in_scope. rewrite H. reflexivity. Qed.
Lemma while_ext ev ke E c d b b' : same_expr c d -> (forall s, run_list ev s b = run_list ev s b') -> forall k s, while_loop ev ke E k c b s = while_loop ev ke E k d b' s.
Proof.
  intros Hc Hb. induction k as [|k IH]; intros s; [reflexivity|]. cbn [while_loop]. apply with_expr_ext; [exact Hc|]. intros s1 v. destruct (as_boolean v) as [[|]| | |]; try reflexivity. rewrite Hb.
  destruct (run_list ev s1 b') as [s2 []]; try reflexivity; apply IH.
Qed.
Lemma for_ext ev x b b' : (forall s, run_list ev s b = run_list ev s b') -> forall items s, for_loop ev x b items s = for_loop ev x b' items s.
Proof.
  intros Hb. induction items as [|v items IH]; intros s; [reflexivity|]. cbn [for_loop]. destruct (est_insert x v s) as [s1 []]; try reflexivity. rewrite Hb. destruct (run_list ev s1 b') as [s2 []]; try reflexivity; apply IH.
Qed.
Lemma swapped_runs inter E : forall n, (forall s t, swapped_stmt R s t -> forall u, eval_stmt n E inter u s = eval_stmt n E inter u t).
Proof.
  assert (X : forall a b, swapped R a b -> same_expr a b) by exact (proj1 swapped_same).
  induction n as [|n IH]; intros s t H u; [reflexivity|].
  assert (L : forall l m, swapped_stmts R l m -> forall v, run_list (eval_stmt n E inter) v l = run_list (eval_stmt n E inter) v m).
  { intros l m Hl. apply run_list_ext. induction Hl; constructor; auto. }
  destruct H as [s|l m a b Hl Ha|c d t u' f g Hc Ht Hf|c d b b' Hc Hb|i r r' b b' Hr Hb|a b Ha|a b Ha]; cbn [eval_stmt].
  - reflexivity.
  - apply with_expr_ext; [auto|]. intros s v. destruct (target_shape _ _ Hl) as [->|[N1 N2]]; [reflexivity|]. destruct l; try (elim (N1 x); reflexivity); destruct m; try (elim (N2 x); reflexivity); rewrite (target_eval _ _ Hl); reflexivity.
  - apply in_scope_ext. intros s. apply with_expr_ext; [auto|]. intros s1 v. destruct (as_boolean v) as [[|]| | |]; try reflexivity; apply L; assumption.
  - apply in_scope_ext. intros s. apply while_ext; auto.
  - apply in_scope_ext. intros s. destruct i; try reflexivity. apply with_expr_ext; [auto|]. intros s1 v. destruct (as_vec v); try reflexivity. apply for_ext. auto.
  - apply with_expr_ext; auto.
  - apply with_expr_ext; auto.
Qed.
Lemma swapped_command n E inter r c c' p q : parse c = Ok p -> parse c' = Ok q -> swapped_stmts R p q -> rt_eval n E inter r c = rt_eval n E inter r c'.
Proof.
  intros Hp Hq H. unfold rt_eval. rewrite Hp, Hq. unfold analyze. rewrite (proj2 swapped_analysis _ _ H). destruct (analyze_stmts (r_sem r) q) as [sem' [[]| | |]]; try reflexivity.
  unfold eval_prog. rewrite (run_list_ext (eval_stmt n E inter) p q); [reflexivity|]. clear Hp Hq. induction H; constructor; auto. intros u. apply swapped_runs. assumption.
Qed.
End Congruence.

(** ** Parentheses *)
Lemma bare_same e : same_expr e (bare e).
Proof.
  induction e as [x|z|b|s|e IH|e f IHe IHf|e i IHe IHi|f args IHf IHa|op l r IHl IHr|op e IH|t e IHt IHe] using expr_ind'; cbn [bare]; auto using same_refl, same_field, same_index, same_bin, same_un, same_cast.
  apply same_call; [exact IHf|]. induction IHa; cbn [map]; constructor; auto.
Qed.
Lemma bare_swapped e : swapped (fun a b => b = bare a) e (bare e).
Proof. apply sw_here. reflexivity. Qed.
Lemma bare_target_swapped e : swapped_target (fun a b => b = bare a) e (bare_target e).
Proof. induction e; cbn [bare_target]; constructor; auto using bare_swapped. Qed.
Lemma bare_stmts_swapped : forall s, swapped_stmt (fun a b => b = bare a) s (bare_stmt s).
Proof.
  assert (L : forall l, Forall (fun s => swapped_stmt (fun a b => b = bare a) s (bare_stmt s)) l -> swapped_stmts (fun a b => b = bare a) l (map bare_stmt l)) by (induction 1; cbn [map]; constructor; auto).
  induction s as [lhs e|c tb fb IHt IHf|c b IH|i rg b IH| | | | |e|e|e] using stmt_ind'; cbn [bare_stmt]; constructor; auto using bare_swapped, bare_target_swapped.
Qed.
Lemma bare_command n E inter r c c' p q : parse c = Ok p -> parse c' = Ok q -> map bare_stmt p = map bare_stmt q -> rt_eval n E inter r c = rt_eval n E inter r c'.
Proof.
  intros Hp Hq H.
  assert (HR : forall a b, b = bare a -> same_expr a b) by (intros a b ->; apply bare_same).
  assert (G : forall l, swapped_stmts (fun a b => b = bare a) l (map bare_stmt l)) by (induction l; cbn [map]; constructor; auto using bare_stmts_swapped).
  unfold rt_eval. rewrite Hp, Hq. unfold analyze. rewrite (proj2 (swapped_analysis _ HR) _ _ (G p)), (proj2 (swapped_analysis _ HR) _ _ (G q)), H.
  destruct (analyze_stmts (r_sem r) (map bare_stmt q)) as [sem' [[]| | |]]; try reflexivity. unfold eval_prog.
  assert (X : forall l s, run_list (eval_stmt n E inter) s l = run_list (eval_stmt n E inter) s (map bare_stmt l)).
  { intros l. apply run_list_ext. induction l; cbn [map]; constructor; auto. intros u. apply (swapped_runs _ HR). apply bare_stmts_swapped. }
  rewrite (X p), (X q), H. reflexivity.
Qed.
