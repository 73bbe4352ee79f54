From Verif Require Import Base Ast Value Variables Fs Eval Lib Spec_Vars.

Section Vars.
Context {A : Type}.
Implicit Types (m : scope A) (v : vars A).

Lemma assoc_insert_eq x (a : A) m : assoc x (scope_insert x a m) = Some a.
Proof.
  induction m as [|[y b] m IH]; cbn; [rewrite str_eqb_refl; reflexivity|].
  destruct (str_eqb y x) eqn:H; cbn; rewrite H; [reflexivity|exact IH].
Qed.

Lemma assoc_insert_neq x y (a : A) m : y <> x -> assoc y (scope_insert x a m) = assoc y m.
Proof.
  intros Hn. induction m as [|[z b] m IH]; cbn.
  - replace (str_eqb x y) with false by (symmetry; apply str_eqb_neq; congruence). reflexivity.
  - destruct (str_eqb z x) eqn:H; cbn.
    + apply str_eqb_eq in H; subst z.
      replace (str_eqb x y) with false by (symmetry; apply str_eqb_neq; congruence). reflexivity.
    + rewrite IH. reflexivity.
Qed.

Lemma names_insert_old x (a b : A) m : assoc x m = Some b -> map fst (scope_insert x a m) = map fst m.
Proof.
  induction m as [|[y c] m IH]; cbn; [discriminate|].
  destruct (str_eqb y x) eqn:H; cbn; [reflexivity|]. intros Hm. rewrite IH by exact Hm. reflexivity.
Qed.

Lemma names_insert_new x (a : A) m : assoc x m = None -> map fst (scope_insert x a m) = map fst m ++ [x].
Proof.
  induction m as [|[y c] m IH]; cbn; [reflexivity|].
  destruct (str_eqb y x) eqn:H; cbn; [discriminate|]. intros Hm. rewrite IH by exact Hm. reflexivity.
Qed.

Lemma assoc_In x m : assoc x m <> None <-> In x (map fst m).
Proof.
  induction m as [|[y c] m IH]; cbn; [tauto|].
  destruct (str_eqb y x) eqn:H.
  - apply str_eqb_eq in H; subst. split; [auto|congruence].
  - apply str_eqb_neq in H. rewrite IH. split; [auto|intros [Hy|Hy]; [contradiction|exact Hy]].
Qed.

Lemma vars_get_binding x v :
  (exists i, innermost_binding v x i /\ vars_get x v = binding v i x)
  \/ (unbound v x /\ vars_get x v = None).
Proof.
  induction v as [|m v IH]; cbn [vars_get].
  - right; split; [|reflexivity]. intros j; unfold binding; destruct j; reflexivity.
  - destruct (assoc x m) as [a|] eqn:H.
    + left; exists 0. unfold innermost_binding, binding; cbn [nth_error]. rewrite H.
      repeat split; try congruence. intros j Hj; inversion Hj.
    + destruct IH as [(i & [Hi1 Hi2] & Hg)|[Hu Hg]].
      * left; exists (S i). unfold innermost_binding, binding; cbn [nth_error].
        split; [split; [exact Hi1|]|exact Hg].
        intros [|j] Hj; cbn [nth_error]; [exact H|apply Hi2; lia].
      * right; split; [|exact Hg]. intros [|j]; unfold binding; cbn [nth_error]; [exact H|apply Hu].
Qed.

Lemma vars_replace_spec x (a : A) v :
  match vars_replace x a v with
  | Some v' => (exists i, innermost_binding v x i /\ set_at v v' i x a) /\ scope_names v' = scope_names v
  | None => unbound v x
  end.
Proof.
  induction v as [|m v IH]; cbn [vars_replace].
  - intros j; unfold binding; destruct j; reflexivity.
  - destruct (assoc x m) as [b|] eqn:H.
    + split.
      * exists 0. split.
        -- unfold innermost_binding, binding; cbn [nth_error]. rewrite H. split; [congruence|lia].
        -- unfold set_at, binding; cbn [length nth_error]. repeat split.
           ++ apply assoc_insert_eq.
           ++ intros [|j] y Hn; cbn [nth_error]; [|reflexivity]. apply assoc_insert_neq. congruence.
      * unfold scope_names; cbn [map]. rewrite (names_insert_old _ _ _ _ H). reflexivity.
    + destruct (vars_replace x a v) as [v'|].
      * destruct IH as [(i & [Hi1 Hi2] & Hl & Hb & Ho) Hnm]. split.
        -- exists (S i). split.
           ++ unfold innermost_binding, binding; cbn [nth_error]. split; [exact Hi1|].
              intros [|j] Hj; cbn [nth_error]; [exact H|apply Hi2; lia].
           ++ unfold set_at, binding; cbn [length nth_error]. repeat split.
              ** rewrite Hl; reflexivity.
              ** exact Hb.
              ** intros [|j] y Hn; cbn [nth_error]; [reflexivity|]. apply (Ho j y). congruence.
        -- unfold scope_names in *; cbn [map]. rewrite Hnm. reflexivity.
      * intros [|j]; unfold binding; cbn [nth_error]; [exact H|apply IH].
Qed.

Lemma vars_insert_spec x (a : A) v :
  match vars_insert x a v with
  | Some v' =>
    (exists i, innermost_binding v x i /\ set_at v v' i x a /\ scope_names v' = scope_names v)
    \/ (unbound v x /\ set_at v v' 0 x a /\
        exists m r m', v = m :: r /\ v' = m' :: r /\ map fst m' = map fst m ++ [x])
  | None => v = []
  end.
Proof.
  unfold vars_insert. pose proof (vars_replace_spec x a v) as H.
  destruct (vars_replace x a v) as [v'|].
  - left. destruct H as [(i & H1 & H2) H3]. eauto.
  - destruct v as [|m r]; [reflexivity|].
    right. split; [exact H|]. split.
    + unfold set_at, binding; cbn [length nth_error]. repeat split.
      * apply assoc_insert_eq.
      * intros [|j] y Hn; cbn [nth_error]; [|reflexivity]. apply assoc_insert_neq. congruence.
    + exists m, r, (scope_insert x a m). repeat split.
      apply names_insert_new. exact (H 0).
Qed.

Lemma vars_get_insert_eq x (a : A) v v' : vars_insert x a v = Some v' -> vars_get x v' = Some a.
Proof.
  unfold vars_insert. destruct (vars_replace x a v) as [v1|] eqn:Hr.
  - intros He; inversion He; subst. clear He. revert v' Hr.
    induction v as [|m v IH]; intros v' Hr; cbn in Hr; [discriminate|].
    destruct (assoc x m) eqn:Hm.
    + inversion Hr; subst; cbn. rewrite assoc_insert_eq. reflexivity.
    + destruct (vars_replace x a v) as [v2|]; inversion Hr; subst; cbn. rewrite Hm. apply IH; reflexivity.
  - destruct v as [|m v]; [discriminate|]. intros He; inversion He; subst; cbn.
    rewrite assoc_insert_eq; reflexivity.
Qed.

Lemma vars_get_replace_neq x y (a : A) v v' : y <> x -> vars_replace x a v = Some v' -> vars_get y v' = vars_get y v.
Proof.
  intros Hn. revert v'. induction v as [|m v IH]; intros v' Hr; cbn in Hr; [discriminate|].
  destruct (assoc x m) eqn:Hm.
  - inversion Hr; subst; cbn. rewrite assoc_insert_neq by exact Hn. reflexivity.
  - destruct (vars_replace x a v) as [v2|]; inversion Hr; subst; cbn.
    rewrite (IH v2 eq_refl). reflexivity.
Qed.

Lemma vars_get_insert_neq x y (a : A) v v' : y <> x -> vars_insert x a v = Some v' -> vars_get y v' = vars_get y v.
Proof.
  intros Hn. unfold vars_insert. destruct (vars_replace x a v) as [v1|] eqn:Hr.
  - intros He; inversion He; subst. eapply vars_get_replace_neq; eassumption.
  - destruct v as [|m v]; [discriminate|]. intros He; inversion He; subst; cbn.
    rewrite assoc_insert_neq by exact Hn. reflexivity.
Qed.
End Vars.

(** ** Which names are defined after a statement *)

(** Same scopes, except that names may have been added to the innermost one. *)
Definition grows {A} (v v' : vars A) : Prop :=
  match v, v' with
  | m :: r, m' :: r' => (exists l, map fst m' = map fst m ++ l) /\ scope_names r' = scope_names r
  | [], [] => True
  | _, _ => False
  end.

Lemma grows_refl {A} (v : vars A) : grows v v.
Proof. destruct v as [|m r]; cbn; [exact I|]. split; [exists []; rewrite app_nil_r|]; reflexivity. Qed.

Lemma grows_trans {A} (a b c : vars A) : grows a b -> grows b c -> grows a c.
Proof.
  destruct a as [|ma a], b as [|mb b], c as [|mc c]; cbn; try tauto.
  intros [[l Hl] H1] [[l' Hl'] H2]. split; [|congruence].
  exists (l ++ l'). rewrite Hl', Hl, app_assoc. reflexivity.
Qed.

Lemma grows_same {A} (v v' : vars A) : scope_names v' = scope_names v -> grows v v'.
Proof.
  destruct v as [|m r], v' as [|m' r']; cbn; intros H; try discriminate; [exact I|].
  injection H as H1 H2. split; [exists []; rewrite app_nil_r; exact H1|exact H2].
Qed.

Lemma grows_insert {A} x (a : A) v v' : vars_insert x a v = Some v' -> grows v v'.
Proof.
  intros H. pose proof (vars_insert_spec x a v) as Hs. rewrite H in Hs.
  destruct Hs as [(i & _ & _ & Hn)|(_ & _ & m & r & m' & -> & -> & Hm)].
  - apply grows_same, Hn.
  - cbn. split; [exists [x]; exact Hm|reflexivity].
Qed.

(** popping after growing a pushed scope *)
Lemma grows_pop {A} (v v' : vars A) :
  grows (push_scope v) v' -> exists v'', pop_scope v' = Some v'' /\ scope_names v'' = scope_names v.
Proof.
  destruct v' as [|m' r']; cbn; [tauto|]. intros [_ H]. exists r'. split; [reflexivity|exact H].
Qed.

Lemma lhs_assign_names k E vs f e g w w' vs' :
  lhs_assign k E vs f e g w = (w', Ok vs') -> scope_names vs' = scope_names vs.
Proof.
  revert g w. induction e; intros g w H; cbn [lhs_assign] in H; try (inversion H; discriminate).
  - unfold mret in H; inversion H as [[Hw Hr]]; clear H.
    apply bind_ok_inv in Hr. destruct Hr as (v0 & _ & Hr).
    apply bind_ok_inv in Hr. destruct Hr as (v1 & _ & Hr).
    destruct (vars_replace x v1 vs) as [v2|] eqn:Hv; cbn in Hr; inversion Hr; subst.
    pose proof (vars_replace_spec x v1 vs) as Hs. rewrite Hv in Hs. apply Hs.
  - destruct e2; try (inversion H; discriminate). eapply IHe1; exact H.
  - apply mbind_ok_inv in H. destruct H as (w1 & iv & _ & H).
    apply mbind_ok_inv in H. destruct H as (w2 & z & _ & H). eapply IHe1; exact H.
Qed.

Section Stmts.
Variables (E : env) (inter : bool).

Definition good (ev : est -> stmt -> est * ires) : Prop :=
  forall s x s' r, ev s x = (s', r) -> grows (e_vars s) (e_vars s').

Lemma with_expr_grows k s e c s' r v0 :
  with_expr k E s e c = (s', r) ->
  grows v0 (e_vars s) ->
  (forall w v s1 r1, c (with_w s w) v = (s1, r1) -> grows v0 (e_vars s1)) ->
  grows v0 (e_vars s').
Proof.
  unfold with_expr. destruct (eval_expr k E (e_vars s) (e_fs s) e (e_w s)) as [w [v|er|p|]];
    intros H H0 Hc; [eapply Hc; exact H|..]; inversion H; subst; exact H0.
Qed.

Lemma do_write_vars s t s' r : do_write E s t = (s', r) -> e_vars s' = e_vars s.
Proof. unfold do_write. destruct (sink E _ t); intros H; inversion H; reflexivity. Qed.

Lemma est_insert_grows x v s s' r : est_insert x v s = (s', r) -> grows (e_vars s) (e_vars s').
Proof.
  unfold est_insert. destruct (vars_insert x v (e_vars s)) as [vs|] eqn:Hi; intros H; inversion H; subst.
  - cbn. eapply grows_insert; exact Hi.
  - apply grows_refl.
Qed.

Lemma run_list_grows ev l s s' r : good ev -> run_list ev s l = (s', r) -> grows (e_vars s) (e_vars s').
Proof.
  intros Hg. revert s. induction l as [|x l IH]; intros s H; cbn [run_list] in H.
  - inversion H; subst; apply grows_refl.
  - destruct (ev s x) as [s1 r1] eqn:Hx. apply Hg in Hx.
    destruct r1; try (inversion H; subst; exact Hx).
    eapply grows_trans; [exact Hx|apply IH; exact H].
Qed.

Lemma while_grows ev ke k c body s s' r :
  good ev -> while_loop ev ke E k c body s = (s', r) -> grows (e_vars s) (e_vars s').
Proof.
  intros Hg. revert s s' r. induction k as [|k IH]; intros s s' r H; cbn [while_loop] in H.
  - inversion H; subst; apply grows_refl.
  - eapply with_expr_grows; [exact H|apply grows_refl|]. cbn beta.
    intros w v s1 r1 H1. destruct (as_boolean v) as [[|]| | |];
      try (inversion H1; subst; apply grows_refl).
    destruct (run_list ev (with_w s w) body) as [s2 r2] eqn:Hb.
    apply run_list_grows in Hb; [|exact Hg].
    destruct r2; try (inversion H1; subst; exact Hb);
      (eapply grows_trans; [exact Hb|eapply IH; exact H1]).
Qed.

Lemma for_grows ev x body items s s' r :
  good ev -> for_loop ev x body items s = (s', r) -> grows (e_vars s) (e_vars s').
Proof.
  intros Hg. revert s. induction items as [|v items IH]; intros s H; cbn [for_loop] in H.
  - inversion H; subst; apply grows_refl.
  - destruct (est_insert x v s) as [s1 r1] eqn:Hi. apply est_insert_grows in Hi.
    destruct r1; try (inversion H; subst; exact Hi).
    destruct (run_list ev s1 body) as [s2 r2] eqn:Hb. apply run_list_grows in Hb; [|exact Hg].
    pose proof (grows_trans _ _ _ Hi Hb) as Hib.
    destruct r2; try (inversion H; subst; exact Hib);
      (eapply grows_trans; [exact Hib|apply IH; exact H]).
Qed.

Lemma in_scope_names s b s' r :
  in_scope s b = (s', r) ->
  (forall s1 r1, b (with_vars s (push_scope (e_vars s))) = (s1, r1) ->
                 grows (push_scope (e_vars s)) (e_vars s1)) ->
  scope_names (e_vars s') = scope_names (e_vars s).
Proof.
  unfold in_scope. intros H Hb. destruct (b _) as [s1 r1] eqn:Hs.
  specialize (Hb _ _ eq_refl). apply grows_pop in Hb. destruct Hb as (v & Hp & Hn).
  rewrite Hp in H. inversion H; subst. exact Hn.
Qed.

Definition is_block (st : stmt) : Prop :=
  match st with SIf _ _ _ | SWhile _ _ | SFor _ _ _ => True | _ => False end.

Lemma block_names_step n s st s' r :
  good (eval_stmt n E inter) ->
  eval_stmt (S n) E inter s st = (s', r) -> is_block st ->
  scope_names (e_vars s') = scope_names (e_vars s).
Proof.
  intros Hg H Hb.
  destruct st; try contradiction; cbn [eval_stmt] in H; (eapply in_scope_names; [exact H|]);
    cbn beta; intros s1 r1 H1.
  - eapply with_expr_grows; [exact H1|apply grows_refl|]. cbn beta. intros w v s2 r2 H2.
    destruct (as_boolean v); try (inversion H2; subst; apply grows_refl).
    apply run_list_grows in H2; [exact H2|apply Hg].
  - apply while_grows in H1; [exact H1|apply Hg].
  - destruct ident; try (inversion H1; subst; apply grows_refl).
    eapply with_expr_grows; [exact H1|apply grows_refl|]. cbn beta. intros w v s2 r2 H2.
    destruct (as_vec v); try (inversion H2; subst; apply grows_refl).
    apply for_grows in H2; [exact H2|apply Hg].
Qed.

(** a statement other than a block can only add names to the innermost scope *)
Lemma eval_stmt_grows n : good (eval_stmt n E inter).
Proof.
  induction n as [|n IH]; intros s st s' r H; [inversion H; subst; apply grows_refl|].
  destruct st; try (apply grows_same; eapply block_names_step; [exact IH|exact H|exact I]);
      cbn [eval_stmt] in H; try (inversion H; subst; apply grows_refl).
  - eapply with_expr_grows; [exact H|apply grows_refl|]. cbn beta. intros w v s1 r1 H1.
    assert (forall q, (let '(w, r) := lhs_assign n E (e_vars (with_w s w)) (e_fs (with_w s w)) lhs q
          (e_w (with_w s w)) in
          match r with Ok vs => (mk_est vs (e_fs (with_w s w)) w, IOk) | _ => (with_w (with_w s w) w, ires_of r) end)
          = (s1, r1) -> grows (e_vars s) (e_vars s1)) as Hl.
    { intros q Hq. destruct (lhs_assign n E _ _ lhs q _) as [w2 [vs|er|p|]] eqn:He;
          inversion Hq; subst; try apply grows_refl.
      cbn. apply grows_same. eapply lhs_assign_names; exact He. }
    specialize (Hl (fun _ => Ok v)). destruct lhs; try (apply Hl; exact H1).
    apply est_insert_grows in H1; exact H1.
  - apply do_write_vars in H; rewrite H; apply grows_refl.
  - eapply with_expr_grows; [exact H|apply grows_refl|]. cbn beta. intros w v s1 r1 H1.
    destruct (as_string true v); try (inversion H1; subst; apply grows_refl).
    destruct (fs_new E a _) as [w2 [fs2|er|p|]]; inversion H1; subst; apply grows_refl.
  - eapply with_expr_grows; [exact H|apply grows_refl|]. cbn beta. intros w v s1 r1 H1.
    destruct (print_text _ _ v); try (inversion H1; subst; apply grows_refl).
    apply do_write_vars in H1. rewrite H1. apply grows_refl.
  - eapply with_expr_grows; [exact H|apply grows_refl|]. cbn beta. intros w v s1 r1 H1.
    destruct inter; [|inversion H1; subst; apply grows_refl].
    apply do_write_vars in H1. rewrite H1. apply grows_refl.
Qed.

Lemma block_names n s st s' r :
  eval_stmt n E inter s st = (s', r) -> is_block st ->
  scope_names (e_vars s') = scope_names (e_vars s).
Proof.
  destruct n; [intros H; inversion H; reflexivity|].
  apply block_names_step, eval_stmt_grows.
Qed.
End Stmts.

(** ** Assignment *)
Lemma innermost_unique {A} (v : vars A) x i j :
  innermost_binding v x i -> innermost_binding v x j -> i = j.
Proof.
  intros [Hi Hi'] [Hj Hj']. destruct (Nat.lt_trichotomy i j) as [H|[H|H]]; [|exact H|].
  - elim Hi; apply Hj', H.
  - elim Hj; apply Hi', H.
Qed.

Lemma vars_get_innermost {A} (v : vars A) x i : innermost_binding v x i -> vars_get x v = binding v i x.
Proof.
  intros H. destruct (vars_get_binding x v) as [(j & Hj & He)|[Hu _]].
  - rewrite (innermost_unique _ _ _ _ H Hj). exact He.
  - destruct H as [H _]. elim H. apply Hu.
Qed.

Lemma split_same_length {X} (l0 l1 : list X) a b r0 r1 :
  length l0 = length l1 -> l0 ++ a :: r0 = l1 ++ b :: r1 -> l0 = l1 /\ a = b /\ r0 = r1.
Proof.
  revert l1. induction l0 as [|y l0 IH]; intros [|y' l1] H1 H2; cbn in *; try discriminate.
  - repeat split; congruence.
  - injection H1 as H1. injection H2 as -> H2. destruct (IH _ H1 H2) as (-> & -> & ->). auto.
Qed.

Lemma split_same_name {X} (f0 f1 : list (str * X)) n a b r0 r1 :
  ~ In n (map fst f0) -> ~ In n (map fst f1) ->
  f0 ++ (n, a) :: r0 = f1 ++ (n, b) :: r1 -> f0 = f1 /\ a = b /\ r0 = r1.
Proof.
  revert f1. induction f0 as [|[y u] f0 IH]; intros [|[y' u'] f1] H0 H1 H; cbn in *.
  - repeat split; congruence.
  - inversion H; subst. tauto.
  - inversion H; subst. tauto.
  - injection H as -> -> H. destruct (IH f1) as (-> & -> & ->); auto.
Qed.

Lemma updated_app old p a q leaf a' new :
  at_path old p a -> updated a q leaf a' -> updated old p a' new -> updated old (p ++ q) leaf new.
Proof.
  intros Hp Hq. revert new. induction Hp as [v|l1 b l2 h p x Hp IH|nm key f1 n b f2 p x Hn Hp IH]; intros new Hu; cbn.
  - inversion Hu; subst. exact Hq.
  - inversion Hu as [|l1' b1 l2' h' p' leaf' b' Hb He1 He2 He3|]; subst.
    match goal with H : _ ++ _ = _ ++ _ |- _ => apply split_same_length in H; [|congruence];
      destruct H as (-> & -> & ->) end.
    constructor. apply IH; assumption.
  - inversion Hu as [| |nm' key' f1' n' b1 f2' p' leaf' b' Hn' Hb He1]; subst.
    match goal with H : _ ++ _ = _ ++ _ |- _ => apply split_same_name in H; [|assumption|assumption];
      destruct H as (-> & -> & ->) end.
    constructor; [assumption|]. apply IH; assumption.
Qed.

Lemma at_path_app old p a q b : at_path old p a -> at_path a q b -> at_path old (p ++ q) b.
Proof. induction 1; intros Hq; cbn; [exact Hq|constructor; auto|constructor; auto]. Qed.

Lemma assoc_update_inv {X} n (g : X -> res X) l l' :
  assoc_update n g l = Some (Ok l') ->
  exists l1 a l2 a', l = l1 ++ (n, a) :: l2 /\ ~ In n (map fst l1) /\ g a = Ok a' /\ l' = l1 ++ (n, a') :: l2.
Proof.
  revert l'. induction l as [|[m v] l IH]; intros l' H; cbn in H; [discriminate|].
  destruct (str_eqb m n) eqn:He.
  - apply str_eqb_eq in He; subst. injection H as H. apply bind_ok_inv in H. destruct H as (v' & Hv & H).
    injection H as <-. exists [], v, l, v'. cbn. tauto.
  - destruct (assoc_update n g l) as [r|]; [|discriminate]. injection H as H.
    apply bind_ok_inv in H. destruct H as (t & -> & H). injection H as <-.
    destruct (IH t eq_refl) as (l1 & a & l2 & a' & -> & Hn & Hg & ->).
    apply str_eqb_neq in He. exists ((m, v) :: l1), a, l2, a'. cbn. repeat split; try assumption.
    intros [H|H]; [congruence|contradiction].
Qed.

Lemma assoc_update_ok {X} n (g : X -> res X) l1 a l2 a' :
  ~ In n (map fst l1) -> g a = Ok a' ->
  assoc_update n g (l1 ++ (n, a) :: l2) = Some (Ok (l1 ++ (n, a') :: l2)).
Proof.
  intros Hn Hg. induction l1 as [|[m v] l1 IH]; cbn in *.
  - rewrite str_eqb_refl, Hg. reflexivity.
  - replace (str_eqb m n) with false by (symmetry; apply str_eqb_neq; tauto).
    rewrite IH by tauto. reflexivity.
Qed.

Lemma nth_error_split' {X} (l : list X) u x :
  nth_error l u = Some x -> l = firstn u l ++ x :: skipn (S u) l /\ length (firstn u l) = u.
Proof.
  revert l. induction u as [|u IH]; intros [|y l] H; cbn in *; try discriminate.
  - injection H as ->. auto.
  - destruct (IH l H) as [H1 H2]. split; [f_equal; exact H1|f_equal; exact H2].
Qed.

Lemma try_into_u_ok b z u : try_into_u b z = Ok u -> u = z /\ (0 <= z < 2 ^ b)%Z.
Proof. unfold try_into_u. destruct ((0 <=? z)%Z && (z <? 2 ^ b)%Z) eqn:H; intros He; inversion He. lia. Qed.

Lemma lhs_assign_sound k E vs f e g w w' vs' :
  lhs_assign k E vs f e g w = (w', Ok vs') ->
  exists x p i old a a' new,
    designates k E vs f e w w' x p /\ innermost_binding vs x i /\ binding vs i x = Some old /\
    at_path old p a /\ g a = Ok a' /\ updated old p a' new /\ set_at vs vs' i x new.
Proof.
  revert g w. induction e; intros g w H; cbn [lhs_assign] in H; try (inversion H; discriminate).
  - unfold mret in H; inversion H as [[Hw Hr]]; clear H; subst w'.
    apply bind_ok_inv in Hr. destruct Hr as (v0 & Hv0 & Hr).
    apply bind_ok_inv in Hr. destruct Hr as (v1 & Hg & Hr).
    destruct (vars_replace x v1 vs) as [v2|] eqn:Hv; cbn in Hr; inversion Hr; subst.
    pose proof (vars_replace_spec x v1 vs) as Hs. rewrite Hv in Hs. destruct Hs as [(i & Hi & Hset) _].
    exists x, [], i, v0, v0, v1, v1. split; [constructor|]. split; [exact Hi|].
    split; [rewrite <- (vars_get_innermost _ _ _ Hi); destruct (vars_get x vs); inversion Hv0; reflexivity|].
    split; [constructor|]. split; [exact Hg|]. split; [constructor|exact Hset].
  - destruct e2; try (inversion H; discriminate).
    apply IHe1 in H. destruct H as (y & p & i & old & a & a' & new & Hd & Hi & Hb & Hp & Hg & Hu & Hs).
    destruct a; try discriminate.
    destruct (assoc_update x g fields) as [r|] eqn:Ha; [|discriminate].
    apply bind_ok_inv in Hg. destruct Hg as (fs' & -> & Hg). injection Hg as <-.
    apply assoc_update_inv in Ha. destruct Ha as (l1 & b & l2 & b' & -> & Hn & Hgb & ->).
    exists y, (p ++ [AtField x]), i, old, b, b', new.
    split; [constructor; exact Hd|]. do 2 (split; [assumption|]).
    split; [eapply at_path_app; [exact Hp|constructor; [exact Hn|constructor]]|].
    split; [exact Hgb|]. split; [|exact Hs].
    eapply updated_app; [exact Hp| |exact Hu]. constructor; [exact Hn|constructor].
  - apply mbind_ok_inv in H. destruct H as (w1 & iv & Hiv & H).
    apply mbind_ok_inv in H. destruct H as (w2 & z & Hz & H).
    unfold mret in Hz; injection Hz as <- Hz. destruct iv as [zz| | | | |]; try discriminate. injection Hz as ->.
    apply IHe1 in H. destruct H as (y & p & i & old & a & a' & new & Hd & Hi & Hb & Hp & Hg & Hu & Hs).
    destruct a; try discriminate.
    apply bind_ok_inv in Hg. destruct Hg as (u & Hu0 & Hg).
    apply try_into_u_ok in Hu0. destruct Hu0 as [-> Hr].
    destruct (z <? zlen vec)%Z; [|discriminate].
    apply bind_ok_inv in Hg. destruct Hg as (b & Hn & Hg).
    destruct (nth_error vec (Z.to_nat z)) as [b1|] eqn:Hnth; inversion Hn; subst b1.
    apply bind_ok_inv in Hg. destruct Hg as (b' & Hgb & Hg). injection Hg as <-.
    destruct (nth_error_split' _ _ _ Hnth) as [Hsplit Hlen].
    exists y, (p ++ [AtIndex (Z.to_nat z)]), i, old, b, b', new.
    split; [econstructor; eassumption|]. do 2 (split; [assumption|]).
    change (match vec with [] => [] | _ :: l => skipn (Z.to_nat z) l end) with (skipn (S (Z.to_nat z)) vec) in Hu.
    rewrite Hsplit in Hp. remember (firstn (Z.to_nat z) vec) as l1. remember (skipn (S (Z.to_nat z)) vec) as l2.
    rewrite <- Hlen.
    split; [eapply at_path_app; [exact Hp|constructor; constructor]|].
    split; [exact Hgb|]. split; [|exact Hs].
    eapply updated_app; [exact Hp| |exact Hu]. constructor. constructor.
Qed.

Lemma at_path_split old p q a :
  at_path old (p ++ q) a -> exists b, at_path old p b /\ at_path b q a.
Proof.
  revert old. induction p as [|st p IH]; intros old Hp.
  - exists old. split; [constructor|exact Hp].
  - rewrite <- app_comm_cons in Hp. inversion Hp as [|l1 b l2 h p0 x Hb|nm key f1 n b f2 p0 x Hn Hb]; subst.
    + apply IH in Hb. destruct Hb as (c & H1 & H2). exists c. split; [constructor; exact H1|exact H2].
    + apply IH in Hb. destruct Hb as (c & H1 & H2). exists c. split; [constructor; assumption|exact H2].
Qed.

Lemma lhs_assign_complete k E vs f e g w w' x p i old a a' :
  designates k E vs f e w w' x p -> innermost_binding vs x i -> binding vs i x = Some old ->
  at_path old p a -> g a = Ok a' -> exists vs', lhs_assign k E vs f e g w = (w', Ok vs').
Proof.
  intros Hd Hi Hb. revert a a' g.
  induction Hd as [x w|e n w w' x p Hd IH|e j z w w1 w' x p He Hz Hd IH]; intros a a' g Hp Hg; cbn [lhs_assign].
  - inversion Hp; subst. unfold mret. rewrite (vars_get_innermost _ _ _ Hi), Hb. cbn. rewrite Hg. cbn.
    pose proof (vars_replace_spec x a' vs) as Hs. destruct (vars_replace x a' vs) as [vs'|].
    + exists vs'. reflexivity.
    + rewrite (Hs i) in Hb. discriminate.
  - apply at_path_split in Hp. destruct Hp as (b & Hpb & Hba).
    inversion Hba as [| |nm key f1 n' b1 f2 p' x' Hn Hb1]; subst. inversion Hb1; subst.
    eapply IH; [assumption|assumption|exact Hpb|]. cbn beta iota.
    rewrite (assoc_update_ok _ _ _ _ _ _ Hn Hg). cbn. reflexivity.
  - apply at_path_split in Hp. destruct Hp as (b & Hpb & Hba).
    inversion Hba as [|l1 b1 l2 h p' x' Hb1 Hq1 Hq2|]; subst. inversion Hb1; subst.
    assert (H : length l1 = Z.to_nat z) by assumption.
    rewrite (mbind_ok _ _ _ _ _ He). cbn [as_integer].
    rewrite (mbind_mret_ok _ _ _).
    eapply IH; [assumption|assumption|exact Hpb|]. cbn beta iota.
    unfold try_into_u. replace ((0 <=? z)%Z && (z <? 2 ^ 64)%Z) with true by lia. cbn [bind].
    assert (Hl : (z <? zlen (l1 ++ a :: l2))%Z = true) by (unfold zlen; rewrite app_length; cbn [length]; lia).
    rewrite Hl, <- H. rewrite nth_error_app2 by lia. rewrite Nat.sub_diag. cbn [nth_error ok_or bind].
    rewrite Hg. cbn [bind]. reflexivity.
Qed.

Lemma unbound_names {A} (v v' : vars A) x : scope_names v' = scope_names v -> unbound v x -> unbound v' x.
Proof.
  intros H Hu j. specialize (Hu j). unfold binding in *.
  assert (Hn : nth_error (scope_names v') j = nth_error (scope_names v) j) by (rewrite H; reflexivity).
  unfold scope_names in Hn. rewrite !nth_error_map in Hn. unfold vars, scope in *.
  destruct (nth_error v j) as [m|]; destruct (nth_error v' j) as [m'|]; cbn in Hn; try reflexivity; try discriminate Hn.
  injection Hn as Hn. destruct (assoc x m') eqn:Hm'; [|reflexivity]. exfalso.
  assert (assoc x m' <> None) by congruence. rewrite assoc_In, Hn, <- assoc_In in H0. contradiction.
Qed.

Lemma vars_get_none {A} (v : vars A) x : vars_get x v = None <-> unbound v x.
Proof.
  destruct (vars_get_binding x v) as [(i & Hi & He)|[Hu He]].
  - split; intros H; [|exfalso; apply (proj1 Hi), H]. exfalso. apply (proj1 Hi). congruence.
  - tauto.
Qed.

Lemma block_restores_scopes n E inter s st s' r :
  eval_stmt n E inter s st = (s', r) -> is_block st ->
  scope_names (e_vars s') = scope_names (e_vars s) /\
  forall k f x w, eval_expr k E (e_vars s') f (EIdent x) w = (w, Err (EUnknownVariable x))
              <-> eval_expr k E (e_vars s) f (EIdent x) w = (w, Err (EUnknownVariable x)).
Proof.
  intros H Hb. pose proof (block_names _ _ _ _ _ _ _ H Hb) as Hn. split; [exact Hn|].
  intros k f x w. cbn [eval_expr]. unfold mret.
  pose proof (unbound_names _ _ x Hn) as H1. pose proof (unbound_names _ _ x (eq_sym Hn)) as H2.
  rewrite <- !vars_get_none in H1, H2.
  destruct (vars_get x (e_vars s')), (vars_get x (e_vars s)); cbn; split; intros Hq; try reflexivity; try discriminate.
  - specialize (H1 eq_refl); discriminate.
  - specialize (H2 eq_refl); discriminate.
Qed.

Lemma assign_var n E inter s x e w1 v :
  e_vars s <> [] ->
  eval_expr n E (e_vars s) (e_fs s) e (e_w s) = (w1, Ok v) ->
  exists s', eval_stmt (S n) E inter s (SAssign (EIdent x) e) = (s', IOk)
    /\ e_fs s' = e_fs s /\ e_w s' = w1
    /\ ((exists i, innermost_binding (e_vars s) x i /\ set_at (e_vars s) (e_vars s') i x v)
        \/ (unbound (e_vars s) x /\ set_at (e_vars s) (e_vars s') 0 x v))
    /\ (forall k f w, eval_expr k E (e_vars s') f (EIdent x) w = (w, Ok v))
    /\ (forall k f w y, y <> x ->
          eval_expr k E (e_vars s') f (EIdent y) w = eval_expr k E (e_vars s) f (EIdent y) w).
Proof.
  intros Hne He. cbn [eval_stmt]. unfold with_expr. rewrite He. unfold est_insert. cbn [with_w e_vars].
  pose proof (vars_insert_spec x v (e_vars s)) as Hs.
  destruct (vars_insert x v (e_vars s)) as [vs|] eqn:Hi; [|contradiction].
  eexists. split; [reflexivity|]. split; [reflexivity|]. split; [reflexivity|]. cbn [with_vars e_vars].
  split; [|split].
  - destruct Hs as [(i & H1 & H2 & _)|(H1 & H2 & _)]; eauto.
  - intros k f w. cbn [eval_expr]. rewrite (vars_get_insert_eq _ _ _ _ Hi). reflexivity.
  - intros k f w y Hy. cbn [eval_expr]. rewrite (vars_get_insert_neq _ _ _ _ _ Hy Hi). reflexivity.
Qed.

Lemma assign_failed n E inter s lhs e w1 r :
  eval_expr n E (e_vars s) (e_fs s) e (e_w s) = (w1, r) -> (forall v, r <> Ok v) ->
  exists q, q <> IOk /\ eval_stmt (S n) E inter s (SAssign lhs e) = (with_w s w1, q).
Proof.
  intros He Hr. cbn [eval_stmt]. unfold with_expr. rewrite He.
  destruct r as [v|er|p|]; [elim (Hr v); reflexivity|..]; (eexists; split; [|reflexivity]); discriminate.
Qed.

Definition is_var (e : expr) : Prop := match e with EIdent _ => True | _ => False end.

Lemma assign_part_eq n E inter s lhs e :
  ~ is_var lhs ->
  eval_stmt (S n) E inter s (SAssign lhs e) =
  with_expr n E s e (fun s v =>
          let '(w, r) := lhs_assign n E (e_vars s) (e_fs s) lhs (fun _ => Ok v) (e_w s) in
          match r with
          | Ok vs => (mk_est vs (e_fs s) w, IOk)
          | _ => (with_w s w, ires_of r)
          end).
Proof. intros H. destruct lhs; try reflexivity. elim H; exact I. Qed.

Lemma assign_part_sound n E inter s lhs e s' r :
  ~ is_var lhs ->
  eval_stmt (S n) E inter s (SAssign lhs e) = (s', r) ->
  (r <> IOk /\ e_vars s' = e_vars s /\ e_fs s' = e_fs s) \/
  (r = IOk /\ exists v w1 x p i old new,
     eval_expr n E (e_vars s) (e_fs s) e (e_w s) = (w1, Ok v) /\
     designates n E (e_vars s) (e_fs s) lhs w1 (e_w s') x p /\
     innermost_binding (e_vars s) x i /\ binding (e_vars s) i x = Some old /\
     updated old p v new /\ set_at (e_vars s) (e_vars s') i x new /\ e_fs s' = e_fs s).
Proof.
  intros Hl H. rewrite assign_part_eq in H by exact Hl. unfold with_expr in H.
  destruct (eval_expr n E (e_vars s) (e_fs s) e (e_w s)) as [w1 [v|er|p|]] eqn:He;
    try (inversion H; subst; left; split; [discriminate|]; split; reflexivity).
  cbn [with_w e_vars e_fs e_w] in H.
  destruct (lhs_assign n E (e_vars s) (e_fs s) lhs (fun _ => Ok v) w1) as [w2 [vs|er|p|]] eqn:Ha;
    inversion H; subst; try (left; split; [discriminate|]; split; reflexivity).
  right. split; [reflexivity|]. apply lhs_assign_sound in Ha.
  destruct Ha as (x & p & i & old & a & a' & new & Hd & Hi & Hb & Hp & Hg & Hu & Hs).
  injection Hg as <-. exists v, w1, x, p, i, old, new. cbn [e_vars e_w e_fs]. tauto.
Qed.

Lemma assign_part_complete n E inter s lhs e w1 w2 v x p i old a :
  eval_expr n E (e_vars s) (e_fs s) e (e_w s) = (w1, Ok v) ->
  designates n E (e_vars s) (e_fs s) lhs w1 w2 x p ->
  innermost_binding (e_vars s) x i -> binding (e_vars s) i x = Some old ->
  at_path old p a ->
  exists s', eval_stmt (S n) E inter s (SAssign lhs e) = (s', IOk).
Proof.
  intros He Hd Hi Hb Hp.
  destruct (lhs_assign_complete n E (e_vars s) (e_fs s) lhs (fun _ => Ok v) w1 w2 x p i old a v Hd Hi Hb Hp eq_refl)
    as [vs' Hv].
  assert (Hne : e_vars s <> []) by (intros H; rewrite H in Hb; destruct i; discriminate).
  destruct lhs as [y| | | | | | | | | |]; try (rewrite assign_part_eq by (intros Hc; exact Hc);
    unfold with_expr; rewrite He; cbn [with_w e_vars e_fs e_w]; rewrite Hv; eexists; reflexivity).
  destruct (assign_var n E inter s y e w1 v Hne He) as (s' & H & _). exists s'. exact H.
Qed.
