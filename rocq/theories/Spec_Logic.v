(** Expressions whose value, if they have one, is of a known type (C95). *)
From Verif Require Import Base Ast Value Variables Fs Eval.
(** comparisons, &&, || and !, true and false, and such in parentheses *)
Inductive boolean_expr : expr -> Prop :=
| be_const b : boolean_expr (EBool b)
| be_bin op a b : In op [OLogicalAnd; OLogicalOr; OEquals; ONotEquals; OLessThan; OLessThanEquals; OGreaterThan; OGreaterThanEquals] -> boolean_expr (EBin op a b)
| be_not e : boolean_expr (EUn UNot e)
| be_paren e : boolean_expr e -> boolean_expr (EParen e).
(** arithmetic, shifts, bitwise operators, - and ~, integer constants, and such in parentheses *)
Inductive integer_expr : expr -> Prop :=
| ie_const z : integer_expr (EInt z)
| ie_bin op a b : In op [OMinus; OMultiply; ODivide; OModulo; OBitOr; OBitAnd; OBitXor; OLeftShift; ORightShift] -> integer_expr (EBin op a b)
| ie_un op e : op <> UNot -> integer_expr (EUn op e)
| ie_paren e : integer_expr e -> integer_expr (EParen e).
