(** C54: predefined constants and functions. *)
From Verif Require Import Base Ast Pom Parse Structs Definitions Value Variables Semantics Fs Eval Runtime Spec_Run Spec_Text Spec_Session Spec_Constants Demo Lib Proof_Session Proof_Constants.
From Coq Require Import Lia.
Arguments s_ s%string_scope.

(** Missing: BTRFS_BALANCE_OBJECTID, which has a wrong value (refuted below). *)
Theorem C54_constants_have_the_kernel_values_partial :
  forall E name z, In (name, z) kernel_constants -> name <> s_ "BTRFS_BALANCE_OBJECTID" ->
  vars_get name (e_vars (r_eval (rt_new E))) = Some (VInt z) /\ vars_get name (s_vars (r_sem (rt_new E))) <> None.
Proof.
  intros E name z H N. assert (G : vars_get name (vars_new VInt VFun) = Some (VInt z)).
  { pose proof initial_constants as T. rewrite forallb_forall in T. specialize (T _ H). cbn [fst snd] in T. destruct (str_eqb name (s_ "BTRFS_BALANCE_OBJECTID")) eqn:Eq; [apply str_eqb_eq in Eq; elim (N Eq)|].
    cbn [orb] in T. destruct (vars_get name (vars_new VInt VFun)) as [[v| | | | |]|]; try discriminate. apply Z.eqb_eq in T. subst. reflexivity. }
  cbn [rt_new r_eval]. rewrite eval_new_vars. split; [exact G|]. apply (session_remembers E [] (rt_new E)); [constructor|]. rewrite G. discriminate.
Qed.
Print Assumptions C54_constants_have_the_kernel_values_partial.
(** there are no other predefined constants *)
Theorem C54_every_constant_is_covered :
  forall name z, In (name, z) CONSTANTS -> exists z', In (name, z') kernel_constants.
Proof.
  intros name z H. pose proof initial_complete as T. rewrite forallb_forall in T. specialize (T _ H). apply existsb_exists in T. destruct T as ([n v] & H1 & H2). cbn [fst] in H2. apply str_eqb_eq in H2. subst. exists v. exact H1.
Qed.
Print Assumptions C54_every_constant_is_covered.
Theorem C54_balance_objectid_refuted :
  In (s_ "BTRFS_BALANCE_OBJECTID", 2 ^ 64 - 4)%Z kernel_constants /\
  forall E, vars_get (s_ "BTRFS_BALANCE_OBJECTID") (e_vars (r_eval (rt_new E))) = Some (VInt 4).
Proof.
  split.
  - assert (H : existsb (fun c => str_eqb (fst c) (s_ "BTRFS_BALANCE_OBJECTID") && (snd c =? 2 ^ 64 - 4)%Z) kernel_constants = true) by (vm_compute; reflexivity).
    apply existsb_exists in H. destruct H as ([n v] & H1 & H2). cbn [fst snd] in H2. apply andb_true_iff in H2. destruct H2 as [H2 H3]. apply str_eqb_eq in H2. apply Z.eqb_eq in H3. rewrite <- H2, <- H3. exact H1.
  - intros E. cbn [rt_new r_eval]. rewrite eval_new_vars. vm_compute. reflexivity.
Qed.
Print Assumptions C54_balance_objectid_refuted.
Theorem C54_functions_are_predefined :
  forall E name fn, In (name, fn) functions ->
  vars_get name (e_vars (r_eval (rt_new E))) = Some (VFun fn) /\ vars_get name (s_vars (r_sem (rt_new E))) <> None.
Proof.
  intros E name fn H. assert (G : vars_get name (vars_new VInt VFun) = Some (VFun fn)).
  { cbn [functions In] in H. decompose [or] H; try contradiction; match goal with Q : _ = (name, fn) |- _ => injection Q as <- <- end; vm_compute; reflexivity. }
  cbn [rt_new r_eval]. rewrite eval_new_vars. split; [exact G|]. apply (session_remembers E [] (rt_new E)); [constructor|]. rewrite G. discriminate.
Qed.
Print Assumptions C54_functions_are_predefined.
(** whatever has been entered, a name that no command assigns keeps its initial value, and the analyser still knows it *)
Theorem C54_kept_until_assigned :
  forall E h r x, session E h r -> (forall cmd l st, In cmd h -> parse cmd = Ok l -> In st l -> ~ alters x st) ->
  vars_get x (e_vars (r_eval r)) = vars_get x (e_vars (r_eval (rt_new E))).
Proof. intros E h r x H1 H2. rewrite (session_keeps _ _ _ _ H1 H2). cbn [rt_new r_eval]. rewrite eval_new_vars. reflexivity. Qed.
Print Assumptions C54_kept_until_assigned.
Theorem C54_analyser_never_forgets :
  forall E h r x, session E h r -> vars_get x (e_vars (r_eval (rt_new E))) <> None -> vars_get x (s_vars (r_sem r)) <> None.
Proof. intros E h r x H1 H2. cbn [rt_new r_eval] in H2. rewrite eval_new_vars in H2. exact (session_remembers _ _ _ _ H1 H2). Qed.
Print Assumptions C54_analyser_never_forgets.
(** the same for any variable and any single statement *)
Theorem C54_statements_keep_other_variables :
  forall E inter s st s' q x, runs E inter s st s' q -> ~ alters x st -> vars_get x (e_vars s') = vars_get x (e_vars s).
Proof. intros E inter s st s' q x [_ (n & H)] N. apply bindings_get. exact (eval_stmt_k E inter x n s st s' q N H). Qed.
Print Assumptions C54_statements_keep_other_variables.
Example C54_example :
  In (s_ "BTRFS_EXTENT_DATA_KEY", 108%Z) kernel_constants /\ length kernel_constants = 148 /\
  (exists l, parse (s_ "x = 1; for i in search { y = BTRFS_EXTENT_DATA_KEY; } len = 3;") = Ok l /\ (forall st, In st l -> ~ alters (s_ "BTRFS_EXTENT_DATA_KEY") st) /\ ~ (forall st, In st l -> ~ alters (s_ "len") st)).
Proof.
  split.
  { assert (H : existsb (fun c => str_eqb (fst c) (s_ "BTRFS_EXTENT_DATA_KEY") && (snd c =? 108)%Z) kernel_constants = true) by (vm_compute; reflexivity).
    apply existsb_exists in H. destruct H as ([n v] & H1 & H2). cbn [fst snd] in H2. apply andb_true_iff in H2. destruct H2 as [H2 H3]. apply str_eqb_eq in H2. apply Z.eqb_eq in H3. rewrite <- H2, <- H3. exact H1. }
  split; [reflexivity|]. eexists. split; [vm_compute; reflexivity|]. split.
  - intros st H (u & Hu & HA). cbn in H. decompose [or] H; subst; try contradiction; cbn in Hu; decompose [or] Hu; subst; try contradiction; destruct HA as [(t & e & X & Y)|(e & b & X)]; try discriminate; injection X as <- <-; discriminate.
  - intros H. eapply H; [right; right; left; reflexivity|]. eexists. split; [left; reflexivity|]. left. do 2 eexists. split; reflexivity.
Qed.
