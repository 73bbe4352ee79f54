(** C95: expressions may be simplified.  Logical and bitwise operators obey the laws of Boolean
    algebra that keep the order and number of their operands - with all errors, kernel requests
    and warnings -, and arithmetic obeys none of the kind. *)
From Verif Require Import Base Ast Pom Parse Structs Definitions Value Variables Semantics Fs Eval Runtime Lib Demo Spec_Laws Proof_Laws Properties_Laws Spec_Logic Proof_Logic.
Require Import Lia.
Arguments s_ s%string_scope.

(** ** Types *)
Theorem C95_boolean_expressions_are_booleans :
  forall k E vs f e w w' v, boolean_expr e -> eval_expr k E vs f e w = (w', Ok v) -> exists t, v = VBool t.
Proof. intros k E vs f e w w' v H. exact (boolean_value k E vs f e H w w' v). Qed.
Print Assumptions C95_boolean_expressions_are_booleans.
Theorem C95_integer_expressions_are_integers :
  forall k E vs f e w w' v, integer_expr e -> eval_expr k E vs f e w = (w', Ok v) -> exists z, v = VInt z.
Proof. intros k E vs f e w w' v H. exact (integer_value k E vs f e H w w' v). Qed.
Print Assumptions C95_integer_expressions_are_integers.

(** ** Logic *)
Theorem C95_and_or_associate :
  forall a b c,
  same_expr (EBin OLogicalAnd (EParen (EBin OLogicalAnd a b)) c) (EBin OLogicalAnd a (EParen (EBin OLogicalAnd b c))) /\
  same_expr (EBin OLogicalOr (EParen (EBin OLogicalOr a b)) c) (EBin OLogicalOr a (EParen (EBin OLogicalOr b c))).
Proof. intros a b c. split; [apply and_assoc|apply or_assoc]. Qed.
Print Assumptions C95_and_or_associate.
Theorem C95_de_morgan :
  forall a b, boolean_expr a -> boolean_expr b ->
  same_expr (EUn UNot (EParen (EBin OLogicalAnd a b))) (EBin OLogicalOr (EUn UNot (EParen a)) (EUn UNot (EParen b))) /\
  same_expr (EUn UNot (EParen (EBin OLogicalOr a b))) (EBin OLogicalAnd (EUn UNot (EParen a)) (EUn UNot (EParen b))).
Proof. intros a b Ha Hb. split; [apply not_and|apply not_or]; assumption. Qed.
Print Assumptions C95_de_morgan.
Theorem C95_double_negation_and_constants :
  forall a, boolean_expr a ->
  same_expr (EUn UNot (EUn UNot (EParen a))) a /\
  same_expr (EBin OEquals (EParen a) (EBool true)) a /\
  same_expr (EBin OEquals (EParen a) (EBool false)) (EUn UNot (EParen a)) /\
  same_expr (EBin OLogicalAnd (EParen a) (EBool true)) a /\ same_expr (EBin OLogicalAnd (EBool true) (EParen a)) a /\
  same_expr (EBin OLogicalOr (EParen a) (EBool false)) a /\ same_expr (EBin OLogicalOr (EBool false) (EParen a)) a.
Proof.
  intros a Ha. destruct (and_true a Ha), (or_false a Ha). split; [exact (not_not a Ha)|]. split; [exact (is_true a Ha)|]. split; [exact (is_false a Ha)|]. auto.
Qed.
Print Assumptions C95_double_negation_and_constants.

(** ** Bits *)
Theorem C95_bitwise_operators_associate :
  forall op a b c, In op [OBitAnd; OBitOr; OBitXor] ->
  same_expr (EBin op (EParen (EBin op a b)) c) (EBin op a (EParen (EBin op b c))).
Proof. exact bits_assoc. Qed.
Print Assumptions C95_bitwise_operators_associate.
Theorem C95_bitwise_constants :
  forall a, integer_expr a ->
  same_expr (EBin OBitOr (EParen a) (EInt 0)) a /\ same_expr (EBin OBitXor (EParen a) (EInt 0)) a /\ same_expr (EBin OBitAnd (EParen a) (EUn UBitNot (EInt 0))) a /\
  same_expr (EUn UBitNot (EUn UBitNot (EParen a))) a /\ same_expr (EBin OBitXor (EParen a) (EUn UBitNot (EInt 0))) (EUn UBitNot (EParen a)).
Proof. exact bits_neutral. Qed.
Print Assumptions C95_bitwise_constants.
Theorem C95_bitwise_de_morgan :
  forall a b, integer_expr a -> integer_expr b ->
  same_expr (EUn UBitNot (EParen (EBin OBitAnd a b))) (EBin OBitOr (EUn UBitNot (EParen a)) (EUn UBitNot (EParen b))) /\
  same_expr (EUn UBitNot (EParen (EBin OBitOr a b))) (EBin OBitAnd (EUn UBitNot (EParen a)) (EUn UBitNot (EParen b))).
Proof. exact bits_de_morgan. Qed.
Print Assumptions C95_bitwise_de_morgan.

(** ** What is not so: because of overflow, of arrays, of short-circuiting, and of ! for integers *)
Definition big : Z := (2 ^ 127 - 1)%Z.
Theorem C95_what_may_not_be_rewritten :
  (* a + (b + c) for a + b + c; and the concatenation of arrays is no addition *)
  ~ (forall a b c, same_expr (EBin OPlus (EParen (EBin OPlus a b)) c) (EBin OPlus a (EParen (EBin OPlus b c)))) /\
  (* b && a for a && b *)
  ~ (forall a b, same_expr (EBin OLogicalAnd a b) (EBin OLogicalAnd b a)) /\
  (* !a || !b for !(a && b) if a is no boolean *)
  ~ (forall a b, same_expr (EUn UNot (EParen (EBin OLogicalAnd a b))) (EBin OLogicalOr (EUn UNot (EParen a)) (EUn UNot (EParen b)))) /\
  (* a - b for a + -b *)
  ~ (forall a b, integer_expr a -> integer_expr b -> same_expr (EBin OPlus a (EUn UMinus b)) (EBin OMinus a b)).
Proof.
  repeat split; intros H.
  - destruct (H (EInt big) (EInt 1) (EUn UMinus (EInt 1))) as [_ X]. specialize (X 0 (demo_env true) [] None w0). vm_compute in X. discriminate.
  - destruct (H (EBool false) (EInt 1)) as [_ X]. specialize (X 0 (demo_env true) [] None w0). vm_compute in X. discriminate.
  - destruct (H (EInt 0) (EInt 0)) as [_ X]. specialize (X 0 (demo_env true) [] None w0). vm_compute in X. discriminate.
  - destruct (H (EInt (-1)) (EBin OMinus (EUn UMinus (EInt big)) (EInt 1)) (ie_const _)) as [_ X]; [apply ie_bin; cbn; tauto|].
    specialize (X 0 (demo_env true) [] None w0). vm_compute in X. discriminate.
Qed.
Print Assumptions C95_what_may_not_be_rewritten.

(** the rules apply inside commands, by C81 *)
Inductive C95_rule : expr -> expr -> Prop :=
| r95 : C95_rule (EUn UNot (EParen (EBin OLogicalAnd (EBin OLessThan (EIdent (s_ "x")) (EInt 3)) (EBin OEquals (EIdent (s_ "x")) (EInt 7)))))
                 (EBin OLogicalOr (EUn UNot (EParen (EBin OLessThan (EIdent (s_ "x")) (EInt 3)))) (EUn UNot (EParen (EBin OEquals (EIdent (s_ "x")) (EInt 7))))).
Example C95_example :
  let c := s_ "x = 1; if !(x < 3 && x == 7) { print x; }" in
  let d := s_ "x = 1; if !(x < 3) || !(x == 7) { print x; }" in
  (forall n E inter r, rt_eval n E inter r c = rt_eval n E inter r d) /\
  demo_out (demo_run true false "x = 1; if !(x < 3 && x == 7) { print x; }") = s_ "1" ++ [10%N].
Proof.
  cbv zeta. split; [|vm_compute; reflexivity]. intros n E inter r.
  eapply (C81_replacing C95_rule); [|vm_compute; reflexivity|vm_compute; reflexivity|].
  - intros a b H. destruct H. apply C95_de_morgan; apply be_bin; cbn; tauto.
  - apply ss_cons; [apply ss_same|]. apply ss_cons; [|apply ss_nil]. apply ss_if; [apply sw_here; exact r95|apply ss_cons; [apply ss_same|apply ss_nil]|apply ss_nil].
Qed.
