(** Proofs for C93: the laws, and replacing blocks inside of others. *)
From Verif Require Import Base Ast Pom Parse Structs Definitions Value Variables Semantics Fs Eval Runtime Lib Spec_Vars Spec_Run Spec_Session Spec_Safe Spec_Frame
  Proof_Vars Proof_Run Proof_Session Proof_Frame Proof_Split Spec_Blocks Proof_Blocks Proof_Blocks2.
Require Import Lia.
Arguments s_ s%string_scope.
(** ** Scopes *)
Lemma hole_runs X B E inter l k s s' : incl (flat_map may_assign l) X -> room B k -> sh X B k s s' -> forall r,
  (forall t, runs_list E inter s l t r -> exists t', runs_list E inter s' l t' r /\ sh X B k t t') /\
  (forall t', runs_list E inter s' l t' r -> exists t, runs_list E inter s l t r /\ sh X B k t t').
Proof.
  intros Hl Hr H r. split; intros t [N [n Hn]]; pose proof (list_hole X B E inter n l k s s' Hl Hr H) as [P1 P2]; rewrite Hn in P1, P2; cbn [fst snd] in P1, P2.
  - destruct (run_list (eval_stmt n E inter) s' l) as [t' r'] eqn:Hn'. cbn [fst snd] in *. subst r'. exists t'. split; [split; [exact N|eauto]|exact P1].
  - destruct (run_list (eval_stmt n E inter) s l) as [t' r'] eqn:Hn'. cbn [fst snd] in *. subst r'. exists t'. split; [split; [exact N|eauto]|exact P1].
Qed.
Lemma inner E inter l s r :
  (forall t, runs_list E inter (enter (enter s)) l t r -> exists t', runs_list E inter (enter s) l t' r /\ leave (leave t) = leave t') /\
  (forall t', runs_list E inter (enter s) l t' r -> exists t, runs_list E inter (enter (enter s)) l t r /\ leave (leave t) = leave t').
Proof.
  assert (H0 : sh (flat_map may_assign l) false 1 (enter (enter s)) (enter s)).
  { split; [|split; reflexivity]. apply (hole_at _ false 1 [[]] (e_vars s)); [reflexivity|discriminate]. }
  assert (Hl : forall t t', sh (flat_map may_assign l) false 1 t t' -> leave (leave t) = leave t').
  { intros t t' (Hv & Hf & Hw). unfold leave. cbn [e_vars e_fs e_w]. rewrite Hf, Hw. destruct Hv as [pre post Hk _]. destruct pre as [|m [|? ?]]; try discriminate. reflexivity. }
  destruct (hole_runs _ false E inter l 1 _ _ (incl_refl _) (fun _ => le_n _) H0 r) as [A C]. split.
  - intros t Ht. destruct (A t Ht) as (t' & H1 & H2). eauto.
  - intros t' Ht. destruct (C t' Ht) as (t & H1 & H2). eauto.
Qed.
Lemma braces E inter l s s' r : (forall x, In x (flat_map may_assign l) -> vars_get x (e_vars s) <> None) ->
  (runs_list E inter s [SIf (EBool true) l []] s' r <-> runs_list E inter s l s' r).
Proof.
  intros Hb. assert (H0 : sh (flat_map may_assign l) true 0 (enter s) s).
  { split; [|split; reflexivity]. apply (hole_at _ true 0 [] (e_vars s)); [reflexivity|intros _; exact Hb]. }
  assert (Hl : forall t t', sh (flat_map may_assign l) true 0 t t' -> leave t = t').
  { intros t t' (Hv & Hf & Hw). unfold leave. rewrite Hf, Hw. destruct t' as [v' f' w']. cbn [e_vars e_fs e_w] in *. destruct Hv as [pre post Hk _]. destruct pre; try discriminate. reflexivity. }
  assert (Hr : room true 0) by discriminate.
  destruct (hole_runs _ true E inter l 0 _ _ (incl_refl _) Hr H0 r) as [A C]. rewrite runs_list_one, runs_if'.
  assert (Ht : evals E s (EBool true) (e_w s) (Ok (VBool true))) by (split; [discriminate|exists 0; reflexivity]). assert (Hs : with_w (enter s) (e_w s) = enter s) by reflexivity. split.
  - intros (w & o & Hc & H). destruct (cond_fun _ _ _ _ _ _ _ Hc (proj2 (cond_ok _ _ _ _ _) Ht)) as [-> ->]. destruct H as (s1 & H & ->). rewrite Hs in H.
    destruct (A s1 H) as (t' & H1 & H2). rewrite (Hl _ _ H2). exact H1.
  - intros H. exists (e_w s), (inl true). split; [apply cond_ok; exact Ht|]. rewrite Hs. destruct (C s' H) as (t & H1 & H2). exists t. split; [exact H1|]. symmetry. apply Hl. exact H2.
Qed.
(** ** Laws *)
Lemma law_and a b l : same_block [SIf (EBin OLogicalAnd a b) l []] [SIf a [SIf b l []] []].
Proof.
  intros E inter s s' r. rewrite !runs_list_one, !runs_if'. assert (Hop : lazy_op OLogicalAnd false) by (left; auto). split.
  - intros (w & o & Hc & H). apply (cond_lazy _ _ _ _ _ _ _ _ Hop) in Hc. destruct Hc as (w1 & o1 & Ha & Hc). exists w1, o1. split; [exact Ha|]. destruct o1 as [[]|q]; cbn [Bool.eqb] in Hc.
    + apply cond_enter in Hc. change (enter (with_w s w1)) with (with_w (enter s) w1) in Hc. destruct o as [t|q].
      * destruct H as (s1 & H & ->). change (with_w (enter s) w) with (enter (with_w s w)) in H. assert (H' : runs_list E inter (enter (with_w s w)) (if t then l else []) s1 r) by exact H.
        apply (inner E inter _ (with_w s w) r) in H'. destruct H' as (t2 & H' & El). exists (leave t2). split; [|symmetry; exact El]. apply runs_list_one, runs_if'. exists w, (inl t). split; [exact Hc|]. exists t2. split; [exact H'|reflexivity].
      * destruct H as [-> ->]. exists (with_w (enter s) w). split; [|destruct s; reflexivity]. apply runs_list_one, runs_if'. exists w, (inr q). split; [exact Hc|]. split; reflexivity.
    + destruct Hc as [-> ->]. exact H.
    + destruct Hc as [-> ->]. exact H.
  - intros (w1 & o1 & Ha & H). destruct o1 as [[]|q].
    + destruct H as (s1 & H & ->). apply runs_list_one, runs_if' in H. destruct H as (w & o & Hb & H). exists w, o. split.
      * apply (cond_lazy _ _ _ _ _ _ _ _ Hop). exists w1, (inl true). split; [exact Ha|]. cbn [Bool.eqb]. apply cond_enter. exact Hb.
      * destruct o as [t|q].
        -- destruct H as (s2 & H & ->). change (with_w (enter (with_w (enter s) w1)) w) with (enter (enter (with_w s w))) in H. apply (inner E inter _ (with_w s w) r) in H. destruct H as (t2 & H & El). exists t2. split; [exact H|exact El].
        -- destruct H as [-> ->]. split; [destruct s; reflexivity|reflexivity].
    + exists w1, (inl false). split; [|exact H]. apply (cond_lazy _ _ _ _ _ _ _ _ Hop). exists w1, (inl false). split; [exact Ha|]. cbn [Bool.eqb]. auto.
    + exists w1, (inr q). split; [|exact H]. apply (cond_lazy _ _ _ _ _ _ _ _ Hop). exists w1, (inr q). auto.
Qed.
Lemma law_or a b l m : same_block [SIf (EBin OLogicalOr a b) l m] [SIf a l [SIf b l m]].
Proof.
  intros E inter s s' r. rewrite !runs_list_one, !runs_if'. assert (Hop : lazy_op OLogicalOr true) by (right; auto). split.
  - intros (w & o & Hc & H). apply (cond_lazy _ _ _ _ _ _ _ _ Hop) in Hc. destruct Hc as (w1 & o1 & Ha & Hc). exists w1, o1. split; [exact Ha|]. destruct o1 as [[]|q]; cbn [Bool.eqb] in Hc.
    + destruct Hc as [-> ->]. exact H.
    + apply cond_enter in Hc. change (enter (with_w s w1)) with (with_w (enter s) w1) in Hc. destruct o as [t|q].
      * destruct H as (s1 & H & ->). change (with_w (enter s) w) with (enter (with_w s w)) in H. apply (inner E inter _ (with_w s w) r) in H. destruct H as (t2 & H' & El).
        exists (leave t2). split; [|symmetry; exact El]. apply runs_list_one, runs_if'. exists w, (inl t). split; [exact Hc|]. exists t2. split; [exact H'|reflexivity].
      * destruct H as [-> ->]. exists (with_w (enter s) w). split; [|destruct s; reflexivity]. apply runs_list_one, runs_if'. exists w, (inr q). split; [exact Hc|]. split; reflexivity.
    + destruct Hc as [-> ->]. exact H.
  - intros (w1 & o1 & Ha & H). destruct o1 as [[]|q].
    + exists w1, (inl true). split; [|exact H]. apply (cond_lazy _ _ _ _ _ _ _ _ Hop). exists w1, (inl true). split; [exact Ha|]. cbn [Bool.eqb]. auto.
    + destruct H as (s1 & H & ->). apply runs_list_one, runs_if' in H. destruct H as (w & o & Hb & H). exists w, o. split.
      * apply (cond_lazy _ _ _ _ _ _ _ _ Hop). exists w1, (inl false). split; [exact Ha|]. cbn [Bool.eqb]. apply cond_enter. exact Hb.
      * destruct o as [t|q].
        -- destruct H as (s2 & H & ->). change (with_w (enter (with_w (enter s) w1)) w) with (enter (enter (with_w s w))) in H. apply (inner E inter _ (with_w s w) r) in H. destruct H as (t2 & H & El). exists t2. split; [exact H|exact El].
        -- destruct H as [-> ->]. split; [destruct s; reflexivity|reflexivity].
    + exists w1, (inr q). split; [|exact H]. apply (cond_lazy _ _ _ _ _ _ _ _ Hop). exists w1, (inr q). auto.
Qed.
Lemma law_not c l m : always_boolean c -> same_block [SIf (EUn UNot (EParen c)) l m] [SIf c m l].
Proof.
  intros Hc E inter s s' r. rewrite !runs_list_one, !runs_if'. split.
  - intros (w & o & Ho & H). apply (cond_not _ _ _ _ _ Hc) in Ho. destruct Ho as (o1 & Ho & ->). exists w, o1. split; [exact Ho|]. destruct o1 as [[]|q]; exact H.
  - intros (w & o & Ho & H). exists w, (match o with inl t => inl (negb t) | inr q => inr q end). split; [apply (cond_not _ _ _ _ _ Hc); eauto|]. destruct o as [[]|q]; exact H.
Qed.
Lemma law_jump st l : is_jump st -> same_block (st :: l) [st].
Proof.
  intros Hj E inter s s' r. rewrite runs_list_one, runs_list_cons.
  assert (N : forall t q, runs E inter s st t q -> q <> IOk). { intros t q [Nq [n H]]. destruct n; [injection H as _ <-; congruence|]. destruct Hj as [->|[->| ->]]; cbn in H; injection H as _ <-; discriminate. }
  split.
  - intros [(s1 & H & _)|[_ H]]; [elim (N _ _ H); reflexivity|exact H].
  - intros H. right. split; [exact (N _ _ H)|exact H].
Qed.
(** ** Loops *)
(** two bodies that do the same, but one may end normally where the other continues *)
Definition alike (q q' : ires) : Prop := q = q' \/ (q = IOk /\ q' = IContinue) \/ (q = IContinue /\ q' = IOk).
Definition body_like E inter (a b : list stmt) : Prop := forall s s' q, runs_list E inter s a s' q -> exists q', runs_list E inter s b s' q' /\ alike q q'.
Lemma whiles_like E inter c a b : body_like E inter a b -> forall s s' r, whiles E inter c a s s' r -> whiles E inter c b s s' r.
Proof.
  intros Hb s s' r H. induction H as [s w H|s w s2 q s' r H H2 Hq H3 IH|s w s2 H H2|s w s2 q H H2 N1 N2 N3|s w v H H2|s w e H|s w p H].
  - apply wh_false. exact H.
  - destruct (Hb _ _ _ H2) as (q' & H2' & Ha). eapply wh_again; [exact H|exact H2'| |exact IH]. destruct Ha as [<-|[[_ ->]|[_ ->]]]; auto.
  - destruct (Hb _ _ _ H2) as (q' & H2' & [<-|[[? _]|[? _]]]); try discriminate. eapply wh_break; eassumption.
  - destruct (Hb _ _ _ H2) as (q' & H2' & [<-|[[? _]|[? _]]]); try congruence. eapply wh_abort; eassumption.
  - apply wh_not_bool; assumption.
  - apply wh_cond_err; assumption.
  - apply wh_cond_panic; assumption.
Qed.
Lemma iterates_like E inter x a b : body_like E inter a b -> forall items s s' r, iterates E inter x a items s s' r -> iterates E inter x b items s s' r.
Proof.
  intros Hb items s s' r H. induction H as [s|v items s s1 s2 q s' r H H2 Hq H3 IH|v items s s1 s2 H H2|v items s s1 s2 q H H2 N1 N2 N3].
  - apply it_done.
  - destruct (Hb _ _ _ H2) as (q' & H2' & Ha). eapply it_next; [exact H|exact H2'| |exact IH]. destruct Ha as [<-|[[_ ->]|[_ ->]]]; auto.
  - destruct (Hb _ _ _ H2) as (q' & H2' & [<-|[[? _]|[? _]]]); try discriminate. eapply it_break; eassumption.
  - destruct (Hb _ _ _ H2) as (q' & H2' & [<-|[[? _]|[? _]]]); try congruence. eapply it_abort; eassumption.
Qed.
Lemma while_like E inter c a b s s' r : body_like E inter a b -> runs_list E inter s [SWhile c a] s' r -> runs_list E inter s [SWhile c b] s' r.
Proof. rewrite !runs_list_one, !runs_while. intros Hb (s1 & H & ->). exists s1. split; [|reflexivity]. exact (whiles_like E inter c a b Hb _ _ _ H). Qed.
Lemma runs_for_other E inter i e b s s' r : (forall x, i <> EIdent x) -> runs E inter s (SFor i e b) s' r <-> s' = s /\ r = IErr EForIdent.
Proof.
  intros Hi. assert (G : forall n, eval_stmt (S n) E inter s (SFor i e b) = (s, IErr EForIdent)).
  { intros n. cbn [eval_stmt]. destruct s. destruct i; try reflexivity. elim (Hi _ eq_refl). }
  split.
  - intros [N [n H]]. destruct n; [injection H as _ <-; congruence|]. rewrite G in H. injection H as <- <-. auto.
  - intros [-> ->]. split; [discriminate|]. exists 1. apply G.
Qed.
Lemma for_like E inter i e a b s s' r : body_like E inter a b -> runs_list E inter s [SFor i e a] s' r -> runs_list E inter s [SFor i e b] s' r.
Proof.
  rewrite !runs_list_one. intros Hb. assert (D : (exists x, i = EIdent x) \/ forall x, i <> EIdent x) by (destruct i; try (right; intros; discriminate); left; eauto).
  destruct D as [[x ->]|D]; [|rewrite !runs_for_other by exact D; exact (fun H => H)]. rewrite !runs_for. intros (s1 & -> & H). exists s1. split; [reflexivity|].
  destruct H as [(w & items & h & H & H2)|H]; [|right; exact H]. left. exists w, items, h. split; [exact H|]. exact (iterates_like E inter x a b Hb _ _ _ _ H2).
Qed.
Lemma same_like E inter a b : same_block a b -> body_like E inter a b.
Proof. intros H s s' q Hq. exists q. split; [apply H; exact Hq|left; reflexivity]. Qed.
Lemma same_sym a b : same_block a b -> same_block b a. Proof. intros H E inter s s' r. symmetry. apply H. Qed.
Lemma continue_like E inter l : body_like E inter (l ++ [SContinue]) l /\ body_like E inter l (l ++ [SContinue]).
Proof.
  assert (C : forall s s' q, runs_list E inter s [SContinue] s' q <-> s' = s /\ q = IContinue).
  { intros s s' q. rewrite runs_list_one. split; [intros [N [n H]]; destruct n; cbn in H; injection H as <- <-; [congruence|auto]|]. intros [-> ->]. split; [discriminate|exists 1; reflexivity]. }
  split; intros s s' q H.
  - apply runs_list_app in H. destruct H as [(s1 & H & H2)|[N H]]; [|exists q; split; [exact H|left; reflexivity]]. apply C in H2. destruct H2 as [-> ->]. exists IOk. split; [exact H|right; right; auto].
  - assert (D : q = IOk \/ q <> IOk) by (destruct q; (left; reflexivity) || (right; discriminate)). destruct D as [->|D].
    + exists IContinue. split; [|right; left; auto]. apply runs_list_app. left. exists s'. split; [exact H|apply C; auto].
    + exists q. split; [|left; reflexivity]. apply runs_list_app. right. auto.
Qed.
Lemma law_continue_while c l : same_block [SWhile c (l ++ [SContinue])] [SWhile c l].
Proof. intros E inter s s' r. destruct (continue_like E inter l). split; apply while_like; assumption. Qed.
Lemma law_continue_for i e l : same_block [SFor i e (l ++ [SContinue])] [SFor i e l].
Proof. intros E inter s s' r. destruct (continue_like E inter l). split; apply for_like; assumption. Qed.
(** while c { l } and while true { if c {} else { break; } l } *)
Definition guarded (c : expr) (l : list stmt) : list stmt := SIf c [] [SBreak] :: l.
Lemma cond_bad E s c w q : cond E s c w (inr q) -> (exists e, q = IErr e) \/ (exists p, q = IPanic p).
Proof. intros (r & _ & H). destruct r as [v|e|p|]; try discriminate; [destruct v; try discriminate|..]; injection H as <-; eauto. Qed.
Lemma runs_break E inter s s' r : runs_list E inter s [SBreak] s' r <-> s' = s /\ r = IBreak.
Proof. rewrite runs_list_one. split; [intros [N [n H]]; destruct n; cbn in H; injection H as <- <-; [congruence|auto]|]. intros [-> ->]. split; [discriminate|exists 1; reflexivity]. Qed.
Lemma guard_runs E inter c l s s' r : runs_list E inter s (guarded c l) s' r <->
  exists w o, cond E s c w o /\ match o with inl true => runs_list E inter (with_w s w) l s' r | inl false => s' = with_w s w /\ r = IBreak | inr q => s' = with_w s w /\ r = q end.
Proof.
  unfold guarded. rewrite runs_list_cons. split.
  - intros [(s1 & H1 & H2)|[N H1]]; apply runs_if' in H1; destruct H1 as (w & o & Hc & H); exists w, o; (split; [exact Hc|]); destruct o as [[]|q].
    + destruct H as (s2 & H & ->). apply runs_list_nil in H. destruct H as [-> _]. exact H2.
    + destruct H as (s2 & H & ->). apply runs_break in H. destruct H as [_ H]. discriminate.
    + destruct H as [-> <-]. apply cond_bad in Hc. destruct Hc as [[? ?]|[? ?]]; discriminate.
    + destruct H as (s2 & H & ->). apply runs_list_nil in H. destruct H as [_ H]. contradiction.
    + destruct H as (s2 & H & ->). apply runs_break in H. destruct H as [-> ->]. split; reflexivity.
    + exact H.
  - intros (w & o & Hc & H). destruct o as [[]|q].
    + left. exists (with_w s w). split; [|exact H]. apply runs_if'. exists w, (inl true). split; [exact Hc|]. exists (with_w (enter s) w). split; [apply runs_list_nil; auto|reflexivity].
    + destruct H as [-> ->]. right. split; [discriminate|]. apply runs_if'. exists w, (inl false). split; [exact Hc|]. exists (with_w (enter s) w). split; [apply runs_break; auto|reflexivity].
    + destruct H as [-> ->]. right. split; [apply cond_bad in Hc; destruct Hc as [[? ->]|[? ->]]; discriminate|]. apply runs_if'. exists w, (inr q). split; [exact Hc|]. auto.
Qed.
Lemma true_true E s : evals E s (EBool true) (e_w s) (Ok (VBool true)).
Proof. split; [discriminate|exists 0; reflexivity]. Qed.
Lemma with_own s : with_w s (e_w s) = s. Proof. destruct s; reflexivity. Qed.
Lemma guard_1 E inter c l s s' r : whiles E inter c l s s' r -> whiles E inter (EBool true) (guarded c l) s s' r.
Proof.
  intros H. induction H as [s w H|s w s2 q s' r H H2 Hq H3 IH|s w s2 H H2|s w s2 q H H2 N1 N2 N3|s w v H H2|s w e H|s w p H].
  - eapply wh_break; [apply true_true|]. rewrite with_own. apply guard_runs. exists w, (inl false). split; [apply cond_ok; exact H|auto].
  - eapply wh_again; [apply true_true| |exact Hq|exact IH]. rewrite with_own. apply guard_runs. exists w, (inl true). split; [apply cond_ok; exact H|exact H2].
  - eapply wh_break; [apply true_true|]. rewrite with_own. apply guard_runs. exists w, (inl true). split; [apply cond_ok; exact H|exact H2].
  - eapply wh_abort; [apply true_true| |exact N1|exact N2|exact N3]. rewrite with_own. apply guard_runs. exists w, (inl true). split; [apply cond_ok; exact H|exact H2].
  - eapply wh_abort; [apply true_true| |discriminate..]. rewrite with_own. apply guard_runs. exists w, (inr (IErr (expected "boolean" v))). split; [|auto]. exists (Ok v). split; [exact H|]. destruct v; try reflexivity. elim (H2 b eq_refl).
  - eapply wh_abort; [apply true_true| |discriminate..]. rewrite with_own. apply guard_runs. exists w, (inr (IErr e)). split; [exists (Err e); auto|auto].
  - eapply wh_abort; [apply true_true| |discriminate..]. rewrite with_own. apply guard_runs. exists w, (inr (IPanic p)). split; [exists (Panic p); auto|auto].
Qed.
Lemma true_only E s w r : evals E s (EBool true) w r -> w = e_w s /\ r = Ok (VBool true).
Proof. intros H. destruct (evals_fun _ _ _ _ _ _ _ H (true_true E s)). auto. Qed.
Lemma cond_stop E inter c l s w q : cond E s c w (inr q) -> whiles E inter c l s (with_w s w) q.
Proof.
  intros (r & H & H2). destruct r as [v|e|p|]; try discriminate.
  - destruct v; try discriminate; injection H2 as <-; (apply wh_not_bool; [exact H|intros; discriminate]).
  - injection H2 as <-. apply wh_cond_err. exact H.
  - injection H2 as <-. apply wh_cond_panic. exact H.
Qed.
Lemma guard_2 E inter c l s s' r : whiles E inter (EBool true) (guarded c l) s s' r -> whiles E inter c l s s' r.
Proof.
  intros H. remember (guarded c l) as b eqn:Eb. induction H as [s w H|s w s2 q s' r H H2 Hq H3 IH|s w s2 H H2|s w s2 q H H2 N1 N2 N3|s w v H H2|s w e H|s w p H];
  destruct (true_only _ _ _ _ H) as [-> Q]; try discriminate; try (subst; rewrite with_own in H2; apply guard_runs in H2; destruct H2 as (w & o & Hc & H2)).
  - destruct o as [[]|x].
    + eapply wh_again; [apply cond_ok; exact Hc|exact H2|exact Hq|exact IH].
    + destruct H2 as [_ ->]. destruct Hq; discriminate.
    + destruct H2 as [_ ->]. apply cond_bad in Hc. destruct Hc as [[? ->]|[? ->]], Hq; discriminate.
  - destruct o as [[]|x].
    + eapply wh_break; [apply cond_ok; exact Hc|exact H2].
    + destruct H2 as [-> _]. apply wh_false. apply cond_ok. exact Hc.
    + destruct H2 as [_ <-]. apply cond_bad in Hc. destruct Hc as [[? ?]|[? ?]]; discriminate.
  - destruct o as [[]|x].
    + eapply wh_abort; [apply cond_ok; exact Hc|exact H2|assumption..].
    + destruct H2 as [_ ->]. congruence.
    + destruct H2 as [-> ->]. apply cond_stop. exact Hc.
  - injection Q as ->. elim (H2 true eq_refl).
Qed.
Lemma law_guard c l : same_block [SWhile c l] [SWhile (EBool true) (guarded c l)].
Proof.
  intros E inter s s' r. rewrite !runs_list_one, !runs_while. split; intros (s1 & H & ->); exists s1; (split; [|reflexivity]); [apply guard_1|apply guard_2]; exact H.
Qed.
(** ** Replacing *)
Lemma replacing (R : list stmt -> list stmt -> Prop) : (forall a b, R a b -> same_block a b) -> forall p q, rearranged R p q -> same_block p q.
Proof.
  intros HR p q H. induction H as [a b H|a|a b c d _ IH1 _ IH2|c t u f g _ IH1 _ IH2|c a b _ IH|i r a b _ IH|a b c _ IH1 _ IH2].
  - apply HR. exact H.
  - intros E inter s s' r. reflexivity.
  - intros E inter s s' r. rewrite !runs_list_app. split; (intros [(s1 & H & H2)|[N H]]; [left; exists s1; split; [apply IH1|apply IH2]; assumption|right; split; [exact N|apply IH1; exact H]]).
  - intros E inter s s' r. rewrite !runs_list_one, !runs_if'.
    split; intros (w & o & Hc & H); exists w, o; (split; [exact Hc|]); (destruct o as [[]|x]; [destruct H as (s1 & H & ->); exists s1; split; [apply IH1; exact H|reflexivity]|destruct H as (s1 & H & ->); exists s1; split; [apply IH2; exact H|reflexivity]|exact H]).
  - intros E inter s s' x. split; apply while_like; apply same_like; [exact IH|apply same_sym; exact IH].
  - intros E inter s s' x. split; apply for_like; apply same_like; [exact IH|apply same_sym; exact IH].
  - intros E inter s s' r. rewrite (IH1 E inter s s' r). apply IH2.
Qed.
Lemma command_ends_iff E inter r c p sem' u s q : parse c = Ok p -> analyze (r_sem r) p = (sem', Ok u) ->
  (command_ends E inter r c s q <-> exists i, runs_list E inter (r_eval r) p s i /\ into_eval_result i = q).
Proof.
  intros Hp Ha. unfold command_ends, rt_eval. rewrite Hp, Ha. unfold eval_prog. split.
  - intros [N (n & r' & H & Hs)]. destruct (run_list (eval_stmt n E inter) (r_eval r) p) as [s1 i] eqn:Hr. cbn in H. injection H as <- <-. cbn [r_eval] in Hs. subst s1.
    exists i. split; [|reflexivity]. split; [intros ->; elim N; reflexivity|eauto].
  - intros (i & [Ni [n H]] & <-). split; [destruct i; try discriminate; congruence|]. exists n. rewrite H. cbn. eauto.
Qed.

Ltac head He := repeat (match type of He with match ?x with _ => _ end = _ => destruct x eqn:? end; try discriminate He).
Lemma forms_boolean c : boolean_form c -> always_boolean c.
Proof.
  intros H E s w v [_ [k He]]. revert w v He. induction H; intros w v He; cbn [eval_expr] in He.
  10: { exact (IHboolean_form _ _ He). }
  all: unfold mbind, mret in He; head He; try (injection He as _ <-; eauto).
  all: try (match goal with H : Ok _ = Ok _ |- _ => injection H as <- end).
  all: try (injection He as _ He; cbn in He; unfold eval_unop in He; head He; injection He as <-; eauto).
  all: match goal with x : bool |- _ => destruct x; cbv beta in He; head He; injection He as _ <-; eauto end.
Qed.

(** ** The laws *)
Lemma laws a b : law a b -> same_block a b.
Proof.
  intros H. induction H as [a b l|a b l m|c l m Hc|st l Hj|c l|i e l|c l|a b _ IH].
  - apply law_and.
  - apply law_or.
  - apply law_not. apply forms_boolean. exact Hc.
  - apply law_jump. exact Hj.
  - apply law_continue_while.
  - apply law_continue_for.
  - apply law_guard.
  - apply same_sym. exact IH.
Qed.
Lemma rearranged_commands E inter r c1 p1 s1 u1 c2 p2 s2 u2 s q : rearranged law p1 p2 ->
  parse c1 = Ok p1 -> analyze (r_sem r) p1 = (s1, Ok u1) -> parse c2 = Ok p2 -> analyze (r_sem r) p2 = (s2, Ok u2) ->
  (command_ends E inter r c1 s q <-> command_ends E inter r c2 s q).
Proof.
  intros H P1 A1 P2 A2. rewrite (command_ends_iff _ _ _ _ _ _ _ _ _ P1 A1), (command_ends_iff _ _ _ _ _ _ _ _ _ P2 A2).
  split; intros (i & Hi & Hq); exists i; (split; [|exact Hq]); apply (replacing law laws _ _ H); exact Hi.
Qed.
