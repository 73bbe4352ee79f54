(** How deep and how big is the tree of a program (C94)?  Analysis, evaluation and the release of
    a program call themselves on the parts of a tree, so its depth is how deep these calls nest. *)
From Verif Require Import Base Ast.
Definition maxl {A} (f : A -> nat) : list A -> nat := fix go l := match l with [] => 0 | x :: l' => max (f x) (go l') end.
Definition suml {A} (f : A -> nat) : list A -> nat := fix go l := match l with [] => 0 | x :: l' => f x + go l' end.
(** the length of the longest chain of expressions each of which is a part of the one before *)
Fixpoint expr_depth (e : expr) : nat :=
  match e with
  | EIdent _ | EInt _ | EBool _ | EStr _ => 1
  | EParen e | EUn _ e => S (expr_depth e)
  | EField e f | EIndex e f | EBin _ e f | ECast f e => S (max (expr_depth e) (expr_depth f))
  | ECall f args => S (max (expr_depth f) (maxl expr_depth args))
  end.
Fixpoint stmt_depth (st : stmt) : nat :=
  match st with
  | SAssign l r => S (max (expr_depth l) (expr_depth r))
  | SIf c t f => S (max (expr_depth c) (max (maxl stmt_depth t) (maxl stmt_depth f)))
  | SWhile c b => S (max (expr_depth c) (maxl stmt_depth b))
  | SFor i r b => S (max (max (expr_depth i) (expr_depth r)) (maxl stmt_depth b))
  | SBreak | SContinue | SHelp | SQuit => 1
  | SFilesystem e | SPrint e | SExpr e => S (expr_depth e)
  end.
Definition depth (p : list stmt) : nat := maxl stmt_depth p.
(** the number of expressions and statements, with their parts *)
Fixpoint expr_nodes (e : expr) : nat :=
  match e with
  | EIdent _ | EInt _ | EBool _ | EStr _ => 1
  | EParen e | EUn _ e => S (expr_nodes e)
  | EField e f | EIndex e f | EBin _ e f | ECast f e => S (expr_nodes e + expr_nodes f)
  | ECall f args => S (expr_nodes f + suml expr_nodes args)
  end.
Fixpoint stmt_nodes (st : stmt) : nat :=
  match st with
  | SAssign l r => S (expr_nodes l + expr_nodes r)
  | SIf c t f => S (expr_nodes c + (suml stmt_nodes t + suml stmt_nodes f))
  | SWhile c b => S (expr_nodes c + suml stmt_nodes b)
  | SFor i r b => S (expr_nodes i + expr_nodes r + suml stmt_nodes b)
  | SBreak | SContinue | SHelp | SQuit => 1
  | SFilesystem e | SPrint e | SExpr e => S (expr_nodes e)
  end.
Definition nodes (p : list stmt) : nat := suml stmt_nodes p.
