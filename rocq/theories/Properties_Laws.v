(** C81: equals may replace equals, and parentheses only group. *)
From Verif Require Import Base Ast Pom Parse Structs Definitions Value Variables Semantics Fs Eval Runtime Spec_Run Spec_Session Spec_Search Spec_Laws Demo Lib Proof_Run Proof_Session Proof_Laws.
From Coq Require Import Lia.
Arguments s_ s%string_scope.

(** interchangeable expressions may replace each other anywhere in a command, in every state: what is
    written, asked, opened and stored, and the result, are the same *)
Theorem C81_replacing :
  forall (R : expr -> expr -> Prop), (forall a b, R a b -> same_expr a b) ->
  forall n E inter r c c' p q, parse c = Ok p -> parse c' = Ok q -> swapped_stmts R p q -> rt_eval n E inter r c = rt_eval n E inter r c'.
Proof. intros R HR n E inter r c c' p q. apply swapped_command. exact HR. Qed.
Print Assumptions C81_replacing.
(** parentheses around operands change nothing but the grouping *)
Theorem C81_parentheses :
  forall n E inter r c c' p q, parse c = Ok p -> parse c' = Ok q -> map bare_stmt p = map bare_stmt q -> rt_eval n E inter r c = rt_eval n E inter r c'.
Proof. exact bare_command. Qed.
Print Assumptions C81_parentheses.
Theorem C81_paren_same : forall e, same_expr (EParen e) e.
Proof. intros e. split; reflexivity. Qed.
Print Assumptions C81_paren_same.
(** the comparisons are related as expected, also in the order of their effects and in their errors *)
Theorem C81_not_equals : forall a b, same_expr (EBin ONotEquals a b) (EUn UNot (EParen (EBin OEquals a b))).
Proof.
  intros a b. split; intros; cbn [analyze_expr eval_expr]; [reflexivity|]. unfold mbind. destruct (eval_expr K E vs f a w) as [w1 [x| | |]]; try reflexivity. destruct (eval_expr K E vs f b w1) as [w2 [y| | |]]; reflexivity.
Qed.
Print Assumptions C81_not_equals.
Theorem C81_at_most : forall a b, same_expr (EBin OLessThanEquals a b) (EUn UNot (EParen (EBin OGreaterThan a b))).
Proof.
  intros a b. split; intros; cbn [analyze_expr eval_expr]; [reflexivity|]. unfold mbind, mret. destruct (eval_expr K E vs f a w) as [w1 [x| | |]]; try reflexivity. destruct (as_integer x) as [i| | |]; try reflexivity.
  destruct (eval_expr K E vs f b w1) as [w2 [y| | |]]; try reflexivity. destruct (as_integer y) as [j| | |]; try reflexivity. cbn [eval_int_op eval_unop]. rewrite Z.gtb_ltb, Z.leb_antisym. reflexivity.
Qed.
Print Assumptions C81_at_most.
Theorem C81_at_least : forall a b, same_expr (EBin OGreaterThanEquals a b) (EUn UNot (EParen (EBin OLessThan a b))).
Proof.
  intros a b. split; intros; cbn [analyze_expr eval_expr]; [reflexivity|]. unfold mbind, mret. destruct (eval_expr K E vs f a w) as [w1 [x| | |]]; try reflexivity. destruct (as_integer x) as [i| | |]; try reflexivity.
  destruct (eval_expr K E vs f b w1) as [w2 [y| | |]]; try reflexivity. destruct (as_integer y) as [j| | |]; try reflexivity. cbn [eval_int_op eval_unop]. rewrite Z.geb_leb, Z.leb_antisym. reflexivity.
Qed.
Print Assumptions C81_at_least.
(** constants can be computed in advance *)
Theorem C81_constants :
  forall op a b c, match op with
    | OPlus => c = (a + b)%Z /\ (- 2 ^ 127 <= c < 2 ^ 127)%Z
    | OMinus => c = (a - b)%Z /\ (- 2 ^ 127 <= c < 2 ^ 127)%Z
    | OMultiply => c = (a * b)%Z /\ (- 2 ^ 127 <= c < 2 ^ 127)%Z
    | OBitOr => c = Z.lor a b | OBitAnd => c = Z.land a b | OBitXor => c = Z.lxor a b
    | _ => False end ->
  same_expr (EBin op (EInt a) (EInt b)) (EInt c).
Proof.
  assert (C : forall z, (- 2 ^ 127 <= z < 2 ^ 127)%Z -> checked z = Some z).
  { intros z H. unfold checked. replace (in_i128 z) with true; [reflexivity|]. symmetry. unfold in_i128, I128_MIN, I128_MAX. apply andb_true_intro. split; apply Z.leb_le; lia. }
  intros op a b c H. split; [reflexivity|]. intros K E vs f w. cbn [eval_expr]. destruct op; try (elim H).
  - destruct H as [-> H]. unfold mbind, mret. cbn [eval_plus]. rewrite (C _ H). reflexivity.
  - destruct H as [-> H]. unfold mbind, mret. cbn [as_integer eval_int_op]. rewrite (C _ H). reflexivity.
  - destruct H as [-> H]. unfold mbind, mret. cbn [as_integer eval_int_op]. rewrite (C _ H). reflexivity.
  - rewrite H. reflexivity.
  - rewrite H. reflexivity.
  - rewrite H. reflexivity.
Qed.
Print Assumptions C81_constants.
(** but a > b is not b < a: the operands are evaluated, and ask the kernel, in the order they are written *)
Theorem C81_order_matters : ~ forall a b, same_expr (EBin OGreaterThan a b) (EBin OLessThan b a).
Proof.
  intros H. destruct (H (EBool true) (EIdent (s_ "x"))) as [_ G]. specialize (G 0 (demo_env true) [] None w0). vm_compute in G. discriminate.
Qed.
Print Assumptions C81_order_matters.

(** ** Not vacuous *)
Definition plain_text : str := s_ "x = key(1, 2, 3, 4).min_offset; while x < 9 * 2 && !(x == 7) { x += 1; print x; } for y in search(x, 3) { } x;".
Definition nested_text : str := s_ "x = ((key)((1), (2), 3, 4)).min_offset; while ((x) < ((9) * (2))) && !((x) == (7)) { x += 1; print (x); } for y in (search(x, 3)) { } ((x));".
Example C81_example :
  (exists p q, parse plain_text = Ok p /\ parse nested_text = Ok q /\ p <> q /\ map bare_stmt p = map bare_stmt q) /\
  (* parentheses that do group are kept apart *)
  (exists p q, parse (s_ "1 + 2 * 3;") = Ok p /\ parse (s_ "(1 + 2) * 3;") = Ok q /\ map bare_stmt p <> map bare_stmt q) /\
  (* an assignment does not work through parentheses *)
  snd (demo_run true true "x = 1; (x) = 2;") = RErr (ELhs (s_ "Expected identifier in LHS of assignment")).
Proof.
  split; [|split].
  - eexists _, _. split; [vm_compute; reflexivity|]. split; [vm_compute; reflexivity|]. split; [discriminate|]. vm_compute. reflexivity.
  - eexists _, _. split; [vm_compute; reflexivity|]. split; [vm_compute; reflexivity|]. vm_compute. discriminate.
  - vm_compute. reflexivity.
Qed.
