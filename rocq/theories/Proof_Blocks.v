(** Proofs for C93: an empty scope is invisible. *)
From Verif Require Import Base Ast Pom Parse Structs Definitions Value Variables Semantics Fs Eval Runtime Lib Spec_Vars Spec_Run Spec_Session Spec_Safe Spec_Frame
  Proof_Vars Proof_Run Proof_Session Proof_Frame.
Require Import Lia.
Arguments s_ s%string_scope.
Definition eqm {A} (m1 m2 : M A) : Prop := forall w, m1 w = m2 w.
Lemma eqm_refl {A} (m : M A) : eqm m m. Proof. intros w. reflexivity. Qed.
Lemma eqm_bind {A B} (m1 m2 : M A) (g1 g2 : A -> M B) : eqm m1 m2 -> (forall a, eqm (g1 a) (g2 a)) -> eqm (mbind m1 g1) (mbind m2 g2).
Proof. intros Hm Hg w. unfold mbind. rewrite Hm. destruct (m2 w) as [w' [a| | |]]; try reflexivity. apply Hg. Qed.
Lemma eval_gets K E v1 v2 f e : (forall x, vars_get x v1 = vars_get x v2) -> eqm (eval_expr K E v1 f e) (eval_expr K E v2 f e).
Proof.
  intros Hv.
  induction e as [y| | | |e IH|e fld IHe IHf|e i IHe IHi|f0 args IHf IHa|op l r IHl IHr|op e IH|t e IHt IHe] using expr_ind'; cbn [eval_expr]; try apply eqm_refl.
  - rewrite Hv. apply eqm_refl.
  - exact IH.
  - apply eqm_bind; [exact IHe|intros v; apply eqm_refl].
  - repeat (first [apply eqm_refl|apply eqm_bind; [first [exact IHe|exact IHi|apply eqm_refl]|intros ?]]).
  - apply eqm_bind; [exact IHf|intros fv]. apply eqm_bind; [apply eqm_refl|intros fn].
    destruct fn; repeat match goal with |- eqm match ?l with [] => _ | _ => _ end _ => destruct l end; try apply eqm_refl;
    repeat match goal with H : Forall _ (_ :: _) |- _ => inversion_clear H end;
    repeat (first [apply eqm_refl|apply eqm_bind; [first [assumption|apply eqm_refl]|intros ?]]).
  - destruct op; repeat (first [apply eqm_refl|apply eqm_bind; [first [exact IHl|exact IHr|apply eqm_refl]|intros ?]]);
    match goal with |- context [if ?x then _ else _] => destruct x end;
    repeat (first [apply eqm_refl|apply eqm_bind; [first [exact IHl|exact IHr|apply eqm_refl]|intros ?]]).
  - apply eqm_bind; [exact IH|intros v; apply eqm_refl].
  - apply eqm_bind; [exact IHe|intros v; apply eqm_refl].
Qed.

(** ** Two stacks of scopes that differ in an empty scope *)
Section Hole.
Context (X : list str) (B : bool).
(** in the first stack there is an empty scope with k scopes inside; when B, the names X are bound outside of it *)
Inductive hole (k : nat) : vars value -> vars value -> Prop :=
| hole_at pre post : length pre = k -> (B = true -> forall x, In x X -> vars_get x post <> None) -> hole k (pre ++ [] :: post) (pre ++ post).
Definition room (k : nat) : Prop := B = false -> 1 <= k.
Lemma hole_get k v v' : hole k v v' -> forall x, vars_get x v = vars_get x v'.
Proof. intros [pre post _ _] x. induction pre as [|m pre IH]; cbn [app vars_get assoc]; [reflexivity|]. rewrite IH. reflexivity. Qed.
Lemma replace_some x (a : value) v : vars_get x v <> None -> vars_replace x a v <> None.
Proof. induction v as [|m v IH]; cbn [vars_get vars_replace]; [congruence|]. destruct (assoc x m); [discriminate|]. intros H. specialize (IH H). destruct (vars_replace x a v); congruence. Qed.
Definition horel (k : nat) (o o' : option (vars value)) : Prop :=
  match o, o' with Some v, Some v' => hole k v v' | None, None => True | _, _ => False end.
Lemma replace_get y (a : value) v v' x : vars_replace y a v = Some v' -> vars_get x v <> None -> vars_get x v' <> None.
Proof.
  revert v'. induction v as [|m v IH]; intros v' H; cbn [vars_replace] in H; [discriminate|]. destruct (assoc y m) eqn:A.
  - injection H as <-. cbn [vars_get]. destruct (list_eq_dec N.eq_dec y x) as [->|N]; [rewrite assoc_insert_eq; discriminate|]. rewrite assoc_insert_neq by congruence. exact (fun Q => Q).
  - destruct (vars_replace y a v) as [r|]; [|discriminate]. injection H as <-. cbn [vars_get]. destruct (assoc x m); [discriminate|]. apply IH. reflexivity.
Qed.
Lemma hole_replace k v v' x a : hole k v v' -> horel k (vars_replace x a v) (vars_replace x a v').
Proof.
  intros [pre post Hk Hb]. subst k. induction pre as [|m pre IH]; cbn [app vars_replace assoc length].
  - destruct (vars_replace x a post) as [r|] eqn:Hr; [|exact I]. apply (hole_at 0 [] r); [reflexivity|]. intros HB y Hy. apply (replace_get x a post); [exact Hr|apply Hb; assumption].
  - destruct (assoc x m); [apply (hole_at _ (scope_insert x a m :: pre) post); [reflexivity|exact Hb]|].
    destruct (vars_replace x a (pre ++ [] :: post)), (vars_replace x a (pre ++ post)); cbn [horel] in *; try tauto. destruct IH as [pre2 post2 Hl Hb2].
    apply (hole_at _ (m :: pre2) post2); [cbn [length]; congruence|exact Hb2].
Qed.
Lemma hole_insert k v v' x a : room k -> In x X -> hole k v v' -> horel k (vars_insert x a v) (vars_insert x a v').
Proof.
  intros Hr Hx H. pose proof (hole_replace k v v' x a H) as P. unfold vars_insert. destruct (vars_replace x a v) as [r|] eqn:R1, (vars_replace x a v') as [r'|] eqn:R2; cbn [horel] in P; try tauto.
  destruct H as [pre post Hk Hb]. destruct pre as [|m pre]; cbn [app] in *.
  - destruct B eqn:HB; [|specialize (Hr HB); cbn in Hk; lia]. specialize (Hb eq_refl x Hx). apply (replace_some x a) in Hb. congruence.
  - cbn [horel]. apply (hole_at _ (scope_insert x a m :: pre) post); [exact Hk|exact Hb].
Qed.
Definition sh (k : nat) (s s' : est) : Prop := hole k (e_vars s) (e_vars s') /\ e_fs s = e_fs s' /\ e_w s = e_w s'.
Definition ph (k : nat) (p p' : est * ires) : Prop := sh k (fst p) (fst p') /\ snd p = snd p'.
Lemma ph_ret k s s' r : sh k s s' -> ph k (s, r) (s', r). Proof. intros H. split; [exact H|reflexivity]. Qed.
Lemma sh_w k s s' w : sh k s s' -> sh k (with_w s w) (with_w s' w).
Proof. intros (H1 & H2 & _). split; [exact H1|split; [exact H2|reflexivity]]. Qed.
Lemma ph_with k K E s s' e c c' : sh k s s' -> (forall u u' v, sh k u u' -> ph k (c u v) (c' u' v)) -> ph k (with_expr K E s e c) (with_expr K E s' e c').
Proof.
  intros H Hc. pose proof H as (Hv & Hf & Hw). unfold with_expr. rewrite (eval_gets K E _ _ (e_fs s) e (hole_get _ _ _ Hv)), Hf, Hw.
  destruct (eval_expr K E (e_vars s') (e_fs s') e (e_w s')) as [w r]. pose proof (sh_w k s s' w H) as H'. destruct r; [apply Hc; exact H'|apply ph_ret; exact H'..].
Qed.
Lemma ph_write k E s s' t : sh k s s' -> ph k (do_write E s t) (do_write E s' t).
Proof. intros H. pose proof H as (Hv & Hf & Hw). unfold do_write. rewrite Hw. destruct (sink E (tick (e_w s')) t); (split; [split; [exact Hv|split; [exact Hf|reflexivity]]|reflexivity]). Qed.
Definition hev (k : nat) (ev : est -> stmt -> est * ires) (st : stmt) : Prop := forall s s', sh k s s' -> ph k (ev s st) (ev s' st).
Lemma ph_list k ev l : Forall (hev k ev) l -> forall s s', sh k s s' -> ph k (run_list ev s l) (run_list ev s' l).
Proof.
  induction 1 as [|st l Hst _ IH]; intros s s' H; cbn [run_list]; [apply ph_ret; exact H|]. fold (run_list ev). destruct (Hst s s' H) as [P1 P2].
  destruct (ev s st) as [s1 r], (ev s' st) as [s1' r']. cbn [fst snd] in P1, P2. subst r'. destruct r; try (apply ph_ret; exact P1). apply IH. exact P1.
Qed.
Lemma ph_while k ev ke E c b j : Forall (hev k ev) b -> forall s s', sh k s s' -> ph k (while_loop ev ke E j c b s) (while_loop ev ke E j c b s').
Proof.
  intros Hb. induction j as [|j IH]; intros s s' H; cbn [while_loop]; [apply ph_ret; exact H|]. apply ph_with; [exact H|]. intros u u' v Hu.
  destruct (as_boolean v) as [[]|e|p|]; try (apply ph_ret; exact Hu). destruct (ph_list k ev b Hb u u' Hu) as [P1 P2].
  destruct (run_list ev u b) as [s1 r], (run_list ev u' b) as [s1' r']. cbn [fst snd] in P1, P2. subst r'. destruct r; try (apply ph_ret; exact P1); apply IH; exact P1.
Qed.
Lemma ph_insert k x v s s' : room k -> In x X -> sh k s s' -> ph k (est_insert x v s) (est_insert x v s').
Proof.
  intros Hr Hx H. pose proof H as (Hv & Hf & Hw). unfold est_insert. pose proof (hole_insert k _ _ x v Hr Hx Hv) as P.
  destruct (vars_insert x v (e_vars s)), (vars_insert x v (e_vars s')); cbn [horel] in P; try tauto; [|apply ph_ret; exact H]. split; [split; [exact P|split; assumption]|reflexivity].
Qed.
Lemma ph_for k ev x b items : room k -> In x X -> Forall (hev k ev) b -> forall s s', sh k s s' -> ph k (for_loop ev x b items s) (for_loop ev x b items s').
Proof.
  intros Hr Hx Hb. induction items as [|v items IH]; intros s s' H; cbn [for_loop]; [apply ph_ret; exact H|]. destruct (ph_insert k x v s s' Hr Hx H) as [P1 P2].
  destruct (est_insert x v s) as [s1 r], (est_insert x v s') as [s1' r']. cbn [fst snd] in P1, P2. subst r'. destruct r; try (apply ph_ret; exact P1).
  destruct (ph_list k ev b Hb s1 s1' P1) as [Q1 Q2]. destruct (run_list ev s1 b) as [s2 r], (run_list ev s1' b) as [s2' r']. cbn [fst snd] in Q1, Q2. subst r'.
  destruct r; try (apply ph_ret; exact Q1); apply IH; exact Q1.
Qed.
Lemma ph_scope k s s' b b' : sh k s s' -> (forall u u', sh (S k) u u' -> ph (S k) (b u) (b' u')) -> ph k (in_scope s b) (in_scope s' b').
Proof.
  intros (Hv & Hf & Hw) Hb. unfold in_scope.
  assert (H0 : sh (S k) (with_vars s (push_scope (e_vars s))) (with_vars s' (push_scope (e_vars s')))).
  { split; [|split; [exact Hf|exact Hw]]. destruct Hv as [pre post Hk Hp]. apply (hole_at _ ([] :: pre) post); [cbn; congruence|exact Hp]. }
  destruct (Hb _ _ H0) as [(Pv & Pf & Pw) P2]. destruct (b (with_vars s (push_scope (e_vars s)))) as [s1 r], (b' (with_vars s' (push_scope (e_vars s')))) as [s1' r']. cbn [fst snd] in *. subst r'.
  destruct Pv as [pre post Hk Hp]. destruct pre as [|m pre]; [discriminate|]. cbn [app pop_scope]. split; [|reflexivity]. split; [|split; assumption].
  apply (hole_at k pre post); [cbn in Hk; congruence|exact Hp].
Qed.
Lemma hole_lhs k K E v v' f e : hole k v v' -> forall g w, let p := lhs_assign K E v f e g w in let p' := lhs_assign K E v' f e g w in
  fst p = fst p' /\ match snd p, snd p' with Ok a, Ok a' => hole k a a' | Ok _, _ => False | r, r' => r = r' end.
Proof.
  intros Hv. induction e as [y| | | |e IH|e IHe fld IHf|e IHe i IHi| | | | ]; intros g w; cbn [lhs_assign]; try (split; reflexivity).
  - unfold mret. split; [reflexivity|]. cbn [snd]. rewrite (hole_get _ _ _ Hv). destruct (vars_get y v') as [old|]; [|reflexivity]. cbn [ok_or bind]. destruct (g old) as [a|e|p|]; try reflexivity. cbn [bind].
    pose proof (hole_replace k v v' y a Hv) as P. destruct (vars_replace y a v), (vars_replace y a v'); cbn [horel] in P; try tauto; exact P || reflexivity.
  - destruct fld; try (split; reflexivity). apply IHe.
  - unfold mbind. rewrite (eval_gets K E v v' f i (hole_get _ _ _ Hv)). destruct (eval_expr K E v' f i w) as [w1 [iv| | |]]; try (split; reflexivity). unfold mret.
    destruct (as_integer iv); try (split; reflexivity). apply IHe.
Qed.
Lemma stmt_hole E inter n : forall st, incl (may_assign st) X -> forall k, room k -> hev k (eval_stmt n E inter) st.
Proof.
  induction n as [|n IH]; intros st Hx k Hr s s' H; [apply ph_ret; exact H|].
  assert (IHl : forall l, incl (flat_map may_assign l) X -> forall k, room k -> Forall (hev k (eval_stmt n E inter)) l).
  { intros l Hl k' Hr'. apply Forall_forall. intros y Hy. apply IH; [|exact Hr']. intros z Hz. apply Hl. apply in_flat_map. eauto. }
  assert (Hr2 : room (S k)) by (intros _; lia).
  destruct st as [lhs rhs|c tb fb|c b|i rg b| | | | |e|e|e]; cbn [eval_stmt may_assign] in *; try (apply ph_ret; exact H).
  - apply ph_with; [exact H|]. intros u u' v Hu.
    assert (G : ph k (let '(w, r) := lhs_assign n E (e_vars u) (e_fs u) lhs (fun _ => Ok v) (e_w u) in match r with Ok vs => (mk_est vs (e_fs u) w, IOk) | _ => (with_w u w, ires_of r) end)
                     (let '(w, r) := lhs_assign n E (e_vars u') (e_fs u') lhs (fun _ => Ok v) (e_w u') in match r with Ok vs => (mk_est vs (e_fs u') w, IOk) | _ => (with_w u' w, ires_of r) end)).
    { pose proof Hu as (Uv & Uf & Uw). pose proof (hole_lhs k n E _ _ (e_fs u) lhs Uv (fun _ => Ok v) (e_w u)) as P. cbv zeta in P. rewrite <- Uf, <- Uw.
      destruct (lhs_assign n E (e_vars u) (e_fs u) lhs (fun _ => Ok v) (e_w u)) as [w r], (lhs_assign n E (e_vars u') (e_fs u) lhs (fun _ => Ok v) (e_w u)) as [w' r']. cbn [fst snd] in P. destruct P as [<- P].
      pose proof (sh_w k u u' w Hu) as Hu'. destruct r, r'; try tauto; try discriminate; try (injection P as <-; apply ph_ret; exact Hu'); try (apply ph_ret; exact Hu').
      split; [split; [exact P|split; reflexivity]|reflexivity]. }
    destruct lhs; try exact G. apply ph_insert; [exact Hr|apply Hx; left; reflexivity|exact Hu].
  - apply ph_scope; [exact H|]. intros u u' Hu. apply ph_with; [exact Hu|]. intros t t' v Ht.
    destruct (as_boolean v) as [[]|e|p|]; try (apply ph_ret; exact Ht); apply ph_list; try exact Ht; apply IHl; try exact Hr2; intros y Hy; apply Hx; apply in_or_app; tauto.
  - apply ph_scope; [exact H|]. intros u u' Hu. apply ph_while; [apply IHl; [exact Hx|exact Hr2]|exact Hu].
  - apply ph_scope; [exact H|]. intros u u' Hu. destruct i; try (apply ph_ret; exact Hu). apply ph_with; [exact Hu|]. intros t t' v Ht.
    destruct (as_vec v) as [items|e|p|]; try (apply ph_ret; exact Ht). apply ph_for; [exact Hr2|apply Hx; left; reflexivity|apply IHl; [|exact Hr2]|exact Ht].
    intros y Hy. apply Hx. right. exact Hy.
  - apply ph_write. exact H.
  - apply ph_with; [exact H|]. intros u u' v Hu. destruct (as_string true v) as [p|e0|p|]; try (apply ph_ret; exact Hu). pose proof Hu as (Uv & Uf & Uw). rewrite Uw.
    destruct (fs_new E p (e_w u')) as [w r]. destruct r; try (apply ph_ret; apply sh_w; exact Hu). split; [split; [exact Uv|split; reflexivity]|reflexivity].
  - apply ph_with; [exact H|]. intros u u' v Hu. destruct (print_text n (overflow_checks E) v); try (apply ph_ret; exact Hu). apply ph_write. exact Hu.
  - apply ph_with; [exact H|]. intros u u' v Hu. destruct inter; [apply ph_write; exact Hu|apply ph_ret; exact Hu].
Qed.
Lemma list_hole E inter n l k s s' : incl (flat_map may_assign l) X -> room k -> sh k s s' -> ph k (run_list (eval_stmt n E inter) s l) (run_list (eval_stmt n E inter) s' l).
Proof.
  intros Hl Hr. apply ph_list. apply Forall_forall. intros y Hy. apply stmt_hole; [|exact Hr]. intros z Hz. apply Hl. apply in_flat_map. eauto.
Qed.
End Hole.
