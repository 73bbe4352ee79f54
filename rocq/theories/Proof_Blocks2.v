(** Proofs for C93: laws of statements. *)
From Verif Require Import Base Ast Pom Parse Structs Definitions Value Variables Semantics Fs Eval Runtime Lib Spec_Vars Spec_Run Spec_Session Spec_Safe Spec_Frame
  Proof_Vars Proof_Run Proof_Session Proof_Frame Proof_Split Spec_Blocks Proof_Blocks.
Require Import Lia.
Arguments s_ s%string_scope.
(** ** Sequences *)
Lemma runs_list_one E inter s x s' r : runs_list E inter s [x] s' r <-> runs E inter s x s' r.
Proof.
  rewrite runs_list_cons. split.
  - intros [(s1 & H & H2)|[_ H]]; [|exact H]. apply runs_list_nil in H2. destruct H2 as [-> ->]. exact H.
  - intros H. assert (D : r = IOk \/ r <> IOk) by (destruct r; (left; reflexivity) || (right; discriminate)). destruct D as [->|D]; [|right; auto].
    left. exists s'. split; [exact H|apply runs_list_nil; auto].
Qed.
Lemma runs_list_app E inter l l' : forall s s' r, runs_list E inter s (l ++ l') s' r <->
  (exists s1, runs_list E inter s l s1 IOk /\ runs_list E inter s1 l' s' r) \/ (r <> IOk /\ runs_list E inter s l s' r).
Proof.
  induction l as [|x l IH]; intros s s' r; cbn [app].
  - split.
    + intros H. left. exists s. split; [apply runs_list_nil; auto|exact H].
    + intros [(s1 & H & H2)|[N H]]; apply runs_list_nil in H; destruct H as [-> ?]; [exact H2|contradiction].
  - rewrite runs_list_cons. split.
    + intros [(s1 & H & H2)|[N H]].
      * apply IH in H2. destruct H2 as [(s2 & H2 & H3)|[N H2]]; [left; exists s2; split; [apply runs_list_cons; left; eauto|exact H3]|right; split; [exact N|apply runs_list_cons; left; eauto]].
      * right. split; [exact N|]. apply runs_list_cons. right. auto.
    + intros [(s2 & H & H3)|[N H]]; apply runs_list_cons in H.
      * destruct H as [(s1 & H & H2)|[N _]]; [|congruence]. left. exists s1. split; [exact H|]. apply IH. left. eauto.
      * destruct H as [(s1 & H & H2)|[_ H]]; [left; exists s1; split; [exact H|]; apply IH; right; auto|right; auto].
Qed.
(** ** Conditions *)
Definition outcome : Type := (bool + ires)%type.
Definition oc (r : res value) : option outcome :=
  match r with
  | Ok v => match v with VBool t => Some (inl t) | _ => Some (inr (IErr (expected "boolean" v))) end
  | Err e => Some (inr (IErr e)) | Panic p => Some (inr (IPanic p)) | Fuel => None
  end.
Definition cond (E : env) (s : est) (c : expr) (w : world) (o : outcome) : Prop := exists r, evals E s c w r /\ oc r = Some o.
Lemma evals_gets E s s2 e w r : (forall x, vars_get x (e_vars s) = vars_get x (e_vars s2)) -> e_fs s = e_fs s2 -> e_w s = e_w s2 -> evals E s e w r -> evals E s2 e w r.
Proof. intros Hv Hf Hw [Hr [k H]]. split; [exact Hr|]. exists k. rewrite <- Hf, <- Hw, <- (eval_gets k E _ _ (e_fs s) e Hv). exact H. Qed.
Lemma evals_enter E s e w r : evals E (enter s) e w r <-> evals E s e w r.
Proof. split; apply evals_gets; reflexivity. Qed.
Lemma cond_gets E s s2 e w o : (forall x, vars_get x (e_vars s) = vars_get x (e_vars s2)) -> e_fs s = e_fs s2 -> e_w s = e_w s2 -> cond E s e w o -> cond E s2 e w o.
Proof. intros Hv Hf Hw (r & H & H2). exists r. split; [eapply evals_gets; eassumption|exact H2]. Qed.
Lemma cond_enter E s c w o : cond E (enter s) c w o <-> cond E s c w o.
Proof. split; apply cond_gets; reflexivity. Qed.
Lemma cond_fun E s c w o w2 o2 : cond E s c w o -> cond E s c w2 o2 -> w = w2 /\ o = o2.
Proof. intros (r & H1 & H2) (r2 & H3 & H4). destruct (evals_fun _ _ _ _ _ _ _ H1 H3) as [-> ->]. split; congruence. Qed.
Lemma cond_ok E s c w t : cond E s c w (inl t) <-> evals E s c w (Ok (VBool t)).
Proof. split; [intros (r & H & H2); destruct r as [v|e|p|]; try discriminate; destruct v; try discriminate; injection H2 as <-; exact H|intros H; exists (Ok (VBool t)); auto]. Qed.
Lemma runs_if' E inter s c a b s' r : runs E inter s (SIf c a b) s' r <->
  exists w o, cond E s c w o /\ match o with inl t => exists s1, runs_list E inter (with_w (enter s) w) (if t then a else b) s1 r /\ s' = leave s1 | inr q => s' = with_w s w /\ r = q end.
Proof.
  rewrite runs_if. split.
  - intros (s1 & -> & [(w & t & H1 & H2)|[(w & v & H1 & H2 & -> & ->)|[(w & er & H1 & -> & ->)|(w & p & H1 & -> & ->)]]]); exists w; apply evals_enter in H1.
    + exists (inl t). split; [apply cond_ok; exact H1|eauto].
    + exists (inr (IErr (expected "boolean" v))). split; [exists (Ok v); split; [exact H1|destruct v; try reflexivity; elim (H2 b0); reflexivity]|auto].
    + exists (inr (IErr er)). split; [exists (Err er); auto|auto].
    + exists (inr (IPanic p)). split; [exists (Panic p); auto|auto].
  - intros (w & [t|q] & H1 & H2).
    + destruct H2 as (s1 & H2 & ->). exists s1. split; [reflexivity|]. left. exists w, t. split; [apply evals_enter; apply cond_ok; exact H1|exact H2].
    + destruct H2 as [-> ->]. exists (with_w (enter s) w). split; [destruct s; reflexivity|]. destruct H1 as (v & H & N). apply evals_enter in H.
      destruct v as [v|er|p|]; try discriminate; right.
      * left. exists w, v. split; [exact H|]. destruct v; try discriminate; (split; [intros; discriminate|]; injection N as <-; auto).
      * right. left. injection N as <-. eauto.
      * right. right. injection N as <-. eauto.
Qed.
(** ** Operators *)
Definition condk (k : nat) (E : env) (s : est) (c : expr) : world * option outcome :=
  let '(w, r) := eval_expr k E (e_vars s) (e_fs s) c (e_w s) in (w, oc r).
Lemma cond_k E s c w o : cond E s c w o <-> exists k, condk k E s c = (w, Some o).
Proof.
  unfold cond, condk, evals. split.
  - intros (r & [_ [k H]] & H2). exists k. rewrite H, H2. reflexivity.
  - intros (k & H). destruct (eval_expr k E (e_vars s) (e_fs s) c (e_w s)) as [w' r] eqn:He. injection H as -> H. exists r. split; [split; [intros ->; discriminate|eauto]|exact H].
Qed.
Lemma condk_up k m E s c w o : condk k E s c = (w, Some o) -> k <= m -> condk m E s c = (w, Some o).
Proof.
  unfold condk. intros H Hm. destruct (eval_expr k E (e_vars s) (e_fs s) c (e_w s)) as [w' r] eqn:He. injection H as -> H.
  rewrite (expr_up _ _ _ _ _ k m _ _ He); [rewrite H; reflexivity|intros ->; discriminate|exact Hm].
Qed.
Definition lazy_op (op : binop) (stop : bool) : Prop := (op = OLogicalAnd /\ stop = false) \/ (op = OLogicalOr /\ stop = true).
Lemma condk_lazy op stop k E s a b : lazy_op op stop -> condk k E s (EBin op a b) =
  match condk k E s a with
  | (w1, Some (inl t)) => if Bool.eqb t stop then (w1, Some (inl stop)) else condk k E (with_w s w1) b
  | p => p
  end.
Proof.
  unfold condk. intros [[-> ->]|[-> ->]]; cbn [eval_expr with_w e_vars e_fs e_w]; unfold mbind, mret.
  - destruct (eval_expr k E (e_vars s) (e_fs s) a (e_w s)) as [w1 [v| | |]]; try reflexivity. destruct v; cbn [as_boolean oc]; try reflexivity. destruct b0; cbn [Bool.eqb]; try reflexivity.
    destruct (eval_expr k E (e_vars s) (e_fs s) b w1) as [w2 [v| | |]]; try reflexivity. destruct v; reflexivity.
  - destruct (eval_expr k E (e_vars s) (e_fs s) a (e_w s)) as [w1 [v| | |]]; try reflexivity. destruct v; cbn [as_boolean oc]; try reflexivity. destruct b0; cbn [Bool.eqb]; try reflexivity.
    destruct (eval_expr k E (e_vars s) (e_fs s) b w1) as [w2 [v| | |]]; try reflexivity. destruct v; reflexivity.
Qed.
Lemma cond_lazy op stop E s a b w o : lazy_op op stop -> cond E s (EBin op a b) w o <->
  exists w1 o1, cond E s a w1 o1 /\ match o1 with
    | inl t => if Bool.eqb t stop then w = w1 /\ o = inl stop else cond E (with_w s w1) b w o
    | inr q => w = w1 /\ o = inr q end.
Proof.
  intros Hop. rewrite cond_k. split.
  - intros (k & H). rewrite (condk_lazy op stop k E s a b Hop) in H. destruct (condk k E s a) as [w1 [o1|]] eqn:Ha; [|discriminate]. exists w1, o1. split; [apply cond_k; eauto|].
    destruct o1 as [t|q]; [|injection H as -> ->; auto]. destruct (Bool.eqb t stop); [injection H as -> ->; auto|apply cond_k; eauto].
  - intros (w1 & o1 & Ha & H). apply cond_k in Ha. destruct Ha as (k1 & Ha). destruct o1 as [t|q].
    + destruct (Bool.eqb t stop) eqn:Ht.
      * destruct H as [-> ->]. exists k1. rewrite (condk_lazy op stop k1 E s a b Hop), Ha, Ht. reflexivity.
      * apply cond_k in H. destruct H as (k2 & H). exists (k1 + k2). rewrite (condk_lazy op stop _ E s a b Hop), (condk_up _ (k1 + k2) _ _ _ _ _ Ha) by lia. rewrite Ht.
        apply (condk_up k2); [exact H|lia].
    + destruct H as [-> ->]. exists k1. rewrite (condk_lazy op stop k1 E s a b Hop), Ha. reflexivity.
Qed.
Lemma cond_not E s c w o : always_boolean c -> cond E s (EUn UNot (EParen c)) w o <-> exists o1, cond E s c w o1 /\ o = match o1 with inl t => inl (negb t) | inr q => inr q end.
Proof.
  intros Hc. unfold cond. split.
  - intros (r & [Hr [k H]] & H2). cbn [eval_expr] in H. unfold mbind, mret in H.
    destruct (eval_expr k E (e_vars s) (e_fs s) c (e_w s)) as [w1 r1] eqn:He.
    assert (Hev : r1 <> Fuel -> evals E s c w1 r1) by (intros N; split; [exact N|eauto]).
    destruct r1 as [v|e|p|].
    + destruct (Hc E s w1 v (Hev ltac:(discriminate))) as [t ->]. cbn in H. injection H as <- <-. injection H2 as <-. exists (inl t). split; [exists (Ok (VBool t)); split; [apply Hev; discriminate|reflexivity]|reflexivity].
    + injection H as <- <-. injection H2 as <-. exists (inr (IErr e)). split; [exists (Err e); split; [apply Hev; discriminate|reflexivity]|reflexivity].
    + injection H as <- <-. injection H2 as <-. exists (inr (IPanic p)). split; [exists (Panic p); split; [apply Hev; discriminate|reflexivity]|reflexivity].
    + injection H as <- <-. congruence.
  - intros (o1 & (r & Hev & H2) & ->). pose proof Hev as [Hr [k H]].
    exists (match r with Ok (VBool t) => Ok (VBool (negb t)) | _ => r end). destruct r as [v|e|p|].
    + destruct (Hc E s w v Hev) as [t ->]. injection H2 as <-. split; [split; [discriminate|]; exists k; cbn [eval_expr]; unfold mbind, mret; rewrite H; reflexivity|reflexivity].
    + injection H2 as <-. split; [split; [discriminate|]; exists k; cbn [eval_expr]; unfold mbind, mret; rewrite H; reflexivity|reflexivity].
    + injection H2 as <-. split; [split; [discriminate|]; exists k; cbn [eval_expr]; unfold mbind, mret; rewrite H; reflexivity|reflexivity].
    + congruence.
Qed.
