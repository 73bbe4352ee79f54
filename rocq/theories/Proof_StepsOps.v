(** The operators of each level, and the bound for expressions. *)
From Verif Require Import Base Ast Pom Parse PomSteps ParseSteps Lib Proof_Parse Proof_Steps Proof_StepsExpr.
Require Import Lia.
Arguments s_ s%string_scope.
Arguments c_ a%char_scope.
Open Scope Z_scope.
(** the continuations at which an operand of a level may have been tried in vain *)
Definition on1 (f : N -> bool) (h : str) : bool := match h with x :: _ => f x | [] => false end.
Definition on2 (f : N -> N -> bool) (h : str) : bool := match h with x :: y :: _ => f x y | _ => false end.
Definition st0 (h : str) : bool := on1 (fun x => N.eqb 40 x || N.eqb 91 x) h.
Definition stM (h : str) : bool := st0 h || on1 (fun x => N.eqb 42 x || N.eqb 47 x || N.eqb 37 x) h.
Definition stA (h : str) : bool := stM h || on1 (fun x => N.eqb 43 x || N.eqb 45 x) h.
Definition stS (h : str) : bool := stA h || on2 (fun x y => N.eqb 60 x && N.eqb 60 y || N.eqb 62 x && N.eqb 62 y) h.
Definition stR (h : str) : bool := stS h || on1 (fun x => N.eqb 60 x || N.eqb 62 x) h.
Definition stE (h : str) : bool := stR h || on2 (fun x y => N.eqb 61 x && N.eqb 61 y || N.eqb 33 x && N.eqb 61 y) h.
Definition stB (h : str) : bool := stE h || on2 (fun x y => N.eqb 38 x && negb (N.eqb 38 y)) h.
Definition stX (h : str) : bool := stB h || on1 (fun x => N.eqb 94 x) h.
Definition stO (h : str) : bool := stX h || on2 (fun x y => N.eqb 124 x && negb (N.eqb 124 y)) h.
Definition stL (h : str) : bool := stO h || on2 (fun x y => N.eqb 38 x && N.eqb 38 y) h.
Definition stZ (h : str) : bool := stL h || on2 (fun x y => N.eqb 124 x && N.eqb 124 y) h.
Lemma st0_P h : st0 h = stP h.
Proof. destruct h as [|x t]; [reflexivity|]. unfold st0, on1, stP. rewrite (N.eqb_sym 40 x), (N.eqb_sym 91 x). reflexivity. Qed.
Ltac unst := unfold stZ, stL, stO, stX, stB, stE, stR, stS, stA, stM, st0, on1, on2.
Ltac split_eqb := repeat match goal with |- context [N.eqb ?a ?b] => is_var b; destruct (N.eqb_spec a b); [subst b|] end.
Ltac ops_tac :=
  let h := fresh in let x := fresh "x" in let y := fresh "y" in let t := fresh "t" in
  intros h; split;
  [ destruct h as [|x [|y t]];
    unfold wp, calt, cmap, cprim, tag, sym, is_a; cbn [strip_prefix]; unst; split_eqb; cbn -[zlen]; rewrite ?zlen_cons; try (repeat split; try discriminate; try lia; auto; fail); try lia
  | unst; rewrite !orb_true_iff; tauto ].
Ltac lits := repeat match goal with |- context [s_ ?s] => let v := eval vm_compute in (s_ s) in change (s_ s) with v end;
             repeat match goal with |- context [c_ ?s] => let v := eval vm_compute in (c_ s) in change (c_ s) with v end.
Lemma ops_M : opsok st0 stM k_mult_ops. Proof. unfold opsok, k_mult_ops, k_op_tag. lits. ops_tac. Qed.
Lemma ops_A : opsok stM stA k_add_ops. Proof. unfold opsok, k_add_ops, k_op_tag. lits. ops_tac. Qed.
Lemma ops_S : opsok stA stS k_shift_ops. Proof. unfold opsok, k_shift_ops, k_op_tag. lits. ops_tac. Qed.
Lemma ops_R : opsok stS stR k_relation_ops. Proof. unfold opsok, k_relation_ops, k_op_tag. lits. ops_tac. Qed.
Lemma ops_E : opsok stR stE k_eq_ops. Proof. unfold opsok, k_eq_ops, k_op_tag. lits. ops_tac. Qed.
Lemma ops_B : opsok stE stB (cmap (fun _ => OBitAnd) (cprim (sym (c_ "&")))). Proof. unfold opsok. lits. ops_tac. Qed.
Lemma ops_X : opsok stB stX (cmap (fun _ => OBitXor) (cprim (sym (c_ "^")))). Proof. unfold opsok. lits. ops_tac. Qed.
Lemma ops_O : opsok stX stO (cmap (fun _ => OBitOr) (cprim (sym (c_ "|")))). Proof. unfold opsok. lits. ops_tac. Qed.
Lemma ops_L : opsok stO stL (k_op_tag (s_ "&&") OLogicalAnd). Proof. unfold opsok, k_op_tag. lits. ops_tac. Qed.
Lemma ops_Z : opsok stL stZ (k_op_tag (s_ "||") OLogicalOr). Proof. unfold opsok, k_op_tag. lits. ops_tac. Qed.
Lemma opsok_P st' ops : opsok st0 st' ops -> opsok stP st' ops.
Proof.
  intros H h. destruct (H h) as [H1 H2]. rewrite <- st0_P. split; [|exact H2]. exact H1.
Qed.
(** ** Expressions *)
Lemma stZ_close : forall x j, In x [41; 93; 44]%N -> stZ (x :: j) = false.
Proof. intros x j H. cbn [In] in H. decompose [or] H; try contradiction; subst; destruct j; reflexivity. Qed.
Lemma or_lvl pe :
  (forall i, wp pe i (fun r c => zlen r < zlen i /\ c + AA * zlen r <= AA * zlen i + 4000 + W stZ r) (fun c => c <= AA * zlen i + 4000)) ->
  (forall i, nonst (skip i) = true -> wp pe i (fun _ _ => False) (fun c => c <= 400)) ->
  exists b k, 0 <= b <= 3900 /\ 0 <= k <= 300 /\ lvl b k stZ (k_or_expr true pe).
Proof.
  intros H1 H2.
  assert (L0 := unary_ok pe stZ stZ_close H1 H2).
  pose proof (fun a b c => level_ok _ _ _ _ _ _ a b L0 (opsok_P _ _ ops_M) c) as L1; specialize (L1 ltac:(lia) ltac:(lia) ltac:(lia)).
  pose proof (fun a b c => level_ok _ _ _ _ _ _ a b L1 ops_A c) as L2; specialize (L2 ltac:(lia) ltac:(lia) ltac:(lia)).
  pose proof (fun a b c => level_ok _ _ _ _ _ _ a b L2 ops_S c) as L3; specialize (L3 ltac:(lia) ltac:(lia) ltac:(lia)).
  pose proof (fun a b c => level_ok _ _ _ _ _ _ a b L3 ops_R c) as L4; specialize (L4 ltac:(lia) ltac:(lia) ltac:(lia)).
  pose proof (fun a b c => eq_ok _ _ _ _ _ a b L4 ops_E c) as L5; specialize (L5 ltac:(lia) ltac:(lia) ltac:(lia)).
  pose proof (fun a b c => level_ok _ _ _ _ _ _ a b L5 ops_B c) as L6; specialize (L6 ltac:(lia) ltac:(lia) ltac:(lia)).
  pose proof (fun a b c => level_ok _ _ _ _ _ _ a b L6 ops_X c) as L7; specialize (L7 ltac:(lia) ltac:(lia) ltac:(lia)).
  pose proof (fun a b c => level_ok _ _ _ _ _ _ a b L7 ops_O c) as L8; specialize (L8 ltac:(lia) ltac:(lia) ltac:(lia)).
  pose proof (fun a b c => level_ok _ _ _ _ _ _ a b L8 ops_L c) as L9; specialize (L9 ltac:(lia) ltac:(lia) ltac:(lia)).
  pose proof (fun a b c => level_ok _ _ _ _ _ _ a b L9 ops_Z c) as LZ; specialize (LZ ltac:(lia) ltac:(lia) ltac:(lia)).
  eexists _, _. split; [|split; [|exact LZ]]; lia.
Qed.
Lemma expr_f_ok f :
  (forall i, wp (k_p_expr_f true f) i (fun r c => zlen r < zlen i /\ c + AA * zlen r <= AA * zlen i + 4000 + W stZ r) (fun c => c <= AA * zlen i + 4000)) /\
  (forall i, nonst (skip i) = true -> wp (k_p_expr_f true f) i (fun _ _ => False) (fun c => c <= 400)).
Proof.
  induction f as [|f [IH1 IH2]].
  - split; intros i; [|intros _]; unfold wp; cbn [k_p_expr_f]; [pose proof (zlen_nonneg i)|]; lia.
  - destruct (or_lvl _ IH1 IH2) as (b & k & Hb & Hk & L). cbn [k_p_expr_f]. split; intros i; [|intros Hn]; apply wp_right, wp_space.
    + pose proof (skip_len i). eapply wp_imp; [apply (lvl_main _ _ _ _ L)| |]; cbv beta.
      * intros r c [Lr C]. split; lia.
      * intros c C. lia.
    + eapply wp_imp; [apply (lvl_cheap _ _ _ _ L), Hn| |]; cbv beta; [intros ? ? []|]. intros c C. lia.
Qed.
Lemma k_p_expr_eq t i : k_p_expr t i = k_p_expr_f t (S (length i)) i.
Proof. unfold k_p_expr. reflexivity. Qed.
Lemma wp_eq {A} (p q : cparser A) i (ok : str -> Z -> Prop) (no : Z -> Prop) : p i = q i -> wp q i ok no -> wp p i ok no.
Proof. unfold wp. intros ->. auto. Qed.
Lemma expr_ok i : wp (k_p_expr true) i (fun r c => zlen r < zlen i /\ c + AA * zlen r <= AA * zlen i + 4000 + W stZ r) (fun c => c <= AA * zlen i + 4000).
Proof.  apply (wp_eq _ _ _ _ _ (k_p_expr_eq true i)). apply (proj1 (expr_f_ok (S (length i)))). Qed.
Lemma expr_cheap i : nonst (skip i) = true -> wp (k_p_expr true) i (fun _ _ => False) (fun c => c <= 400).
Proof. intros H. apply (wp_eq _ _ _ _ _ (k_p_expr_eq true i)). apply (proj2 (expr_f_ok (S (length i)))). exact H. Qed.
