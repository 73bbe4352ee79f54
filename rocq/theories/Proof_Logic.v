(** C95: lemmas. *)
From Verif Require Import Base Ast Value Variables Semantics Fs Eval Spec_Laws Proof_Laws Spec_Logic.
From Coq Require Import Lia.
Ltac head He := repeat (match type of He with match ?x with _ => _ end = _ => destruct x eqn:? end; try discriminate He).
Lemma boolean_value k E vs f e : boolean_expr e -> forall w w' v, eval_expr k E vs f e w = (w', Ok v) -> exists t, v = VBool t.
Proof.
  intros H. induction H as [b|op a b Hop|e|e H IH]; intros w w' v He.
  - injection He as _ <-. eauto.
  - cbn [In] in Hop. repeat (destruct Hop as [<-|Hop]); try contradiction; cbn [eval_expr] in He; unfold mbind, mret in He; head He; try (injection He as _ <-; eauto).
    all: try (injection He as _ He; cbn in He; injection He as <-; eauto).
    all: match goal with x : bool |- _ => destruct x; cbv beta in He; head He; injection He as _ <-; eauto end.
  - cbn [eval_expr] in He; unfold mbind, mret in He. head He. injection He as _ He. unfold eval_unop in He. head He; injection He as <-; eauto.
  - exact (IH _ _ _ He).
Qed.
Lemma integer_value k E vs f e : integer_expr e -> forall w w' v, eval_expr k E vs f e w = (w', Ok v) -> exists z, v = VInt z.
Proof.
  intros H. induction H as [z|op a b Hop|op e Hop|e H IH]; intros w w' v He.
  - injection He as _ <-. eauto.
  - cbn [In] in Hop. repeat (destruct Hop as [<-|Hop]); try contradiction; cbn [eval_expr] in He; unfold mbind, mret in He; head He;
      injection He as _ He; cbn [eval_int_op] in He; unfold bind in He; head He; try (injection He as He; subst; eauto); try (subst; eauto).
  - cbn [eval_expr] in He; unfold mbind, mret in He. head He. injection He as _ He. unfold eval_unop, bind in He. destruct op; try congruence; head He; injection He as <-; eauto.
  - exact (IH _ _ _ He).
Qed.
(** running an expression: its end *)
Inductive out : Type := OB (t : bool) | OV (v : value) | OE (r : res value).
Ltac ev x := let w := fresh "w" in let r := fresh "r" in destruct x as [w [?v|?e|?p|]] eqn:?; try reflexivity.
Ltac law := split; [intros known; cbn [analyze_expr]; unfold bind; repeat (match goal with |- context [analyze_expr known ?x] => destruct (analyze_expr known x) as [[]| | |] end; try reflexivity)|
  intros K E vs f w; cbn [eval_expr]; unfold mbind, mret].
Lemma and_assoc a b c : same_expr (EBin OLogicalAnd (EParen (EBin OLogicalAnd a b)) c) (EBin OLogicalAnd a (EParen (EBin OLogicalAnd b c))).
Proof.
  law. destruct (eval_expr K E vs f a w) as [w1 [v|e|p|]]; try reflexivity. destruct v; try reflexivity. cbn [as_boolean]. destruct b0; [|reflexivity].
  destruct (eval_expr K E vs f b w1) as [w2 [v|e|p|]]; try reflexivity. destruct v; try reflexivity. cbn [as_boolean]. destruct b0; [|reflexivity].
  destruct (eval_expr K E vs f c w2) as [w3 [v|e|p|]]; try reflexivity. destruct v; reflexivity.
Qed.
Lemma or_assoc a b c : same_expr (EBin OLogicalOr (EParen (EBin OLogicalOr a b)) c) (EBin OLogicalOr a (EParen (EBin OLogicalOr b c))).
Proof.
  law. destruct (eval_expr K E vs f a w) as [w1 [v|e|p|]]; try reflexivity. destruct v; try reflexivity. cbn [as_boolean]. destruct b0; [reflexivity|].
  destruct (eval_expr K E vs f b w1) as [w2 [v|e|p|]]; try reflexivity. destruct v; try reflexivity. cbn [as_boolean]. destruct b0; [reflexivity|].
  destruct (eval_expr K E vs f c w2) as [w3 [v|e|p|]]; try reflexivity. destruct v; reflexivity.
Qed.
Ltac bool_of H x w1 := let E := fresh in destruct x as [w1 [?v|?e|?p|]] eqn:E; try reflexivity; apply (boolean_value _ _ _ _ _ H) in E; destruct E as [? ->].
Lemma not_and a b : boolean_expr a -> boolean_expr b ->
  same_expr (EUn UNot (EParen (EBin OLogicalAnd a b))) (EBin OLogicalOr (EUn UNot (EParen a)) (EUn UNot (EParen b))).
Proof.
  intros Ha Hb. law. bool_of Ha (eval_expr K E vs f a w) w1. cbn [as_boolean eval_unop]. destruct x; [|reflexivity]. cbn [negb].
  bool_of Hb (eval_expr K E vs f b w1) w2. reflexivity.
Qed.
Lemma not_or a b : boolean_expr a -> boolean_expr b ->
  same_expr (EUn UNot (EParen (EBin OLogicalOr a b))) (EBin OLogicalAnd (EUn UNot (EParen a)) (EUn UNot (EParen b))).
Proof.
  intros Ha Hb. law. bool_of Ha (eval_expr K E vs f a w) w1. cbn [as_boolean eval_unop]. destruct x; [reflexivity|]. cbn [negb].
  bool_of Hb (eval_expr K E vs f b w1) w2. reflexivity.
Qed.
Lemma not_not a : boolean_expr a -> same_expr (EUn UNot (EUn UNot (EParen a))) a.
Proof. intros Ha. law. bool_of Ha (eval_expr K E vs f a w) w1. cbn. rewrite negb_involutive. reflexivity. Qed.
Lemma is_true a : boolean_expr a -> same_expr (EBin OEquals (EParen a) (EBool true)) a.
Proof. intros Ha. law. bool_of Ha (eval_expr K E vs f a w) w1. destruct x; reflexivity. Qed.
Lemma is_false a : boolean_expr a -> same_expr (EBin OEquals (EParen a) (EBool false)) (EUn UNot (EParen a)).
Proof. intros Ha. law. bool_of Ha (eval_expr K E vs f a w) w1. destruct x; reflexivity. Qed.
Lemma and_true a : boolean_expr a -> same_expr (EBin OLogicalAnd (EParen a) (EBool true)) a /\ same_expr (EBin OLogicalAnd (EBool true) (EParen a)) a.
Proof. intros Ha. split; law; cbn [as_boolean]; cbv beta iota; bool_of Ha (eval_expr K E vs f a w) w1; destruct x; reflexivity. Qed.
Lemma or_false a : boolean_expr a -> same_expr (EBin OLogicalOr (EParen a) (EBool false)) a /\ same_expr (EBin OLogicalOr (EBool false) (EParen a)) a.
Proof. intros Ha. split; law; cbn [as_boolean]; cbv beta iota; bool_of Ha (eval_expr K E vs f a w) w1; destruct x; reflexivity. Qed.
Lemma bits_assoc op a b c : In op [OBitAnd; OBitOr; OBitXor] -> same_expr (EBin op (EParen (EBin op a b)) c) (EBin op a (EParen (EBin op b c))).
Proof.
  intros Hop. law. cbn [In] in Hop. repeat (destruct Hop as [<-|Hop]); try contradiction.
  all: destruct (eval_expr K E vs f a w) as [w1 [v|e|p|]]; try reflexivity; destruct v; try reflexivity; cbn [as_integer].
  all: destruct (eval_expr K E vs f b w1) as [w2 [v|e|p|]]; try reflexivity; destruct v; try reflexivity; cbn [as_integer eval_int_op].
  all: destruct (eval_expr K E vs f c w2) as [w3 [v|e|p|]]; try reflexivity; destruct v; try reflexivity; cbn [as_integer eval_int_op].
  - rewrite Z.land_assoc. reflexivity.
  - rewrite Z.lor_assoc. reflexivity.
  - rewrite Z.lxor_assoc. reflexivity.
Qed.
Ltac int_of H x w1 := let E := fresh in destruct x as [w1 [?v|?e|?p|]] eqn:E; try reflexivity; apply (integer_value _ _ _ _ _ H) in E; destruct E as [? ->].
Lemma bits_neutral a : integer_expr a ->
  same_expr (EBin OBitOr (EParen a) (EInt 0)) a /\ same_expr (EBin OBitXor (EParen a) (EInt 0)) a /\ same_expr (EBin OBitAnd (EParen a) (EUn UBitNot (EInt 0))) a /\
  same_expr (EUn UBitNot (EUn UBitNot (EParen a))) a /\ same_expr (EBin OBitXor (EParen a) (EUn UBitNot (EInt 0))) (EUn UBitNot (EParen a)).
Proof.
  intros Ha. repeat split; try (intros known; cbn [analyze_expr]; unfold bind; destruct (analyze_expr known a) as [[]| | |]; reflexivity).
  all: intros K E vs f w; cbn [eval_expr]; unfold mbind, mret; int_of Ha (eval_expr K E vs f a w) w1; cbn [as_integer eval_int_op eval_unop bind].
  - rewrite Z.lor_0_r. reflexivity.
  - rewrite Z.lxor_0_r. reflexivity.
  - rewrite Z.land_m1_r. reflexivity.
  - rewrite Z.lnot_involutive. reflexivity.
  - rewrite Z.lxor_m1_r. reflexivity.
Qed.
Lemma bits_de_morgan a b : integer_expr a -> integer_expr b ->
  same_expr (EUn UBitNot (EParen (EBin OBitAnd a b))) (EBin OBitOr (EUn UBitNot (EParen a)) (EUn UBitNot (EParen b))) /\
  same_expr (EUn UBitNot (EParen (EBin OBitOr a b))) (EBin OBitAnd (EUn UBitNot (EParen a)) (EUn UBitNot (EParen b))).
Proof.
  intros Ha Hb. split; law; int_of Ha (eval_expr K E vs f a w) w1; cbn [as_integer eval_int_op eval_unop bind]; int_of Hb (eval_expr K E vs f b w1) w2; cbn [as_integer eval_int_op eval_unop bind].
  - rewrite Z.lnot_land. reflexivity.
  - rewrite Z.lnot_lor. reflexivity.
Qed.
