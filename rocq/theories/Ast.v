(** Abstract syntax: /repo/src/lang/ast.rs:1-138.

    Simplification: the wrapper enums [PrimaryExpression], [BinaryExpression],
    [UnaryExpression], [BlockStatement], [JumpStatement], [BuiltinStatement] and
    [TypeSpecifier] are flattened into [expr] and [stmt]; [Box] disappears. *)
From Verif Require Import Base.

(** ast.rs:15-53 *)
Inductive binop : Type :=
| OPlus | OMinus | OMultiply | ODivide | OModulo
| OEquals | ONotEquals | OLogicalAnd | OLogicalOr
| OBitOr | OBitAnd | OBitXor | OLeftShift | ORightShift
| OLessThan | OLessThanEquals | OGreaterThan | OGreaterThanEquals.

(** ast.rs:3-13 without Cast *)
Inductive unop : Type := UBitNot | UNot | UMinus.

(** ast.rs:70-94 *)
Inductive expr : Type :=
| EIdent (x : str)                    (* PrimaryExpression::Identifier *)
| EInt (z : Z)                        (* Constant::Integer *)
| EBool (b : bool)                    (* Constant::Boolean *)
| EStr (s : str)                      (* PrimaryExpression::Str, as code points *)
| EParen (e : expr)
| EField (e field : expr)             (* FieldAccess(expression, field) *)
| EIndex (e index : expr)             (* ArrayIndex(expression, index) *)
| ECall (f : expr) (args : list expr) (* FunctionCall *)
| EBin (op : binop) (l r : expr)
| EUn (op : unop) (e : expr)
| ECast (ty e : expr)                 (* Cast(TypeSpecifier::Struct(ty), e) *).

(** ast.rs:96-138 *)
Inductive stmt : Type :=
| SAssign (lhs rhs : expr)
| SIf (cond : expr) (tb fb : list stmt)
| SWhile (cond : expr) (body : list stmt)
| SFor (ident range : expr) (body : list stmt)
| SBreak
| SContinue
| SHelp
| SQuit
| SFilesystem (e : expr)
| SPrint (e : expr)
| SExpr (e : expr).
