(** Specification of integer arithmetic, independent of the evaluator. *)
From Verif Require Import Base Ast.
Local Open Scope Z_scope.

(** Signed 128-bit range. *)
Definition fits128 (z : Z) : Prop := - 2 ^ 127 <= z <= 2 ^ 127 - 1.

(** The mathematical meaning of + - * . *)
Inductive exact_op : binop -> (Z -> Z -> Z) -> Prop :=
| exact_plus : exact_op OPlus Z.add
| exact_minus : exact_op OMinus Z.sub
| exact_mult : exact_op OMultiply Z.mul.

(** How an operator is written, for the overflow messages. *)
Definition op_sign (op : binop) : str :=
  match op with
  | OPlus => s_ "+" | OMinus => s_ "-" | OMultiply => s_ "*" | ODivide => s_ "/" | OModulo => s_ "%"
  | OLeftShift => s_ "<<" | ORightShift => s_ ">>" | _ => []
  end.

(** The mathematical meaning of the comparisons. *)
Inductive compare_op : binop -> (Z -> Z -> Prop) -> Prop :=
| cmp_lt : compare_op OLessThan Z.lt
| cmp_le : compare_op OLessThanEquals Z.le
| cmp_gt : compare_op OGreaterThan Z.gt
| cmp_ge : compare_op OGreaterThanEquals Z.ge.

(** The meaning of the bitwise operators on one bit. *)
Inductive bit_op : binop -> (bool -> bool -> bool) -> Prop :=
| bit_and : bit_op OBitAnd andb
| bit_or : bit_op OBitOr orb
| bit_xor : bit_op OBitXor xorb.

(** Bit i of the 128-bit two's complement representation of z: the representation is
    the number z mod 2^128, its bit i is the i-th binary digit. *)
Definition bit128 (z : Z) (i : Z) : bool := Z.odd (z mod 2 ^ 128 / 2 ^ i).
