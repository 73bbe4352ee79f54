(** When may one expression be written for another? *)
From Verif Require Import Base Ast Value Variables Semantics Fs Eval Runtime.

(** a and b are interchangeable: the analyser accepts or rejects them alike, and in every situation
    they interact alike with the outside world and give the same value, error or crash *)
Definition same_expr (a b : expr) : Prop :=
  (forall known, analyze_expr known a = analyze_expr known b) /\
  (forall K E vs f w, eval_expr K E vs f a w = eval_expr K E vs f b w).

Section Replace.
Context (R : expr -> expr -> Prop).
(** [swapped e e']: e' is e with some operands a at any depth replaced by b, where R a b.  Operands are
    the places with a value: not the name of a field or type, which stay. *)
Inductive swapped : expr -> expr -> Prop :=
| sw_here a b : R a b -> swapped a b
| sw_same e : swapped e e
| sw_paren a b : swapped a b -> swapped (EParen a) (EParen b)
| sw_field a b x : swapped a b -> swapped (EField a x) (EField b x)
| sw_index a b i j : swapped a b -> swapped i j -> swapped (EIndex a i) (EIndex b j)
| sw_call f g l m : swapped f g -> swapped_all l m -> swapped (ECall f l) (ECall g m)
| sw_bin op a b c d : swapped a b -> swapped c d -> swapped (EBin op a c) (EBin op b d)
| sw_un op a b : swapped a b -> swapped (EUn op a) (EUn op b)
| sw_cast t a b : swapped a b -> swapped (ECast t a) (ECast t b)
with swapped_all : list expr -> list expr -> Prop :=
| sw_nil : swapped_all [] []
| sw_cons a b l m : swapped a b -> swapped_all l m -> swapped_all (a :: l) (b :: m).
(** in the target of an assignment only indices are operands *)
Inductive swapped_target : expr -> expr -> Prop :=
| ta_same e : swapped_target e e
| ta_field a b x : swapped_target a b -> swapped_target (EField a x) (EField b x)
| ta_index a b i j : swapped_target a b -> swapped i j -> swapped_target (EIndex a i) (EIndex b j).
(** in statements: everywhere but in loop variables and the argument of filesystem *)
Inductive swapped_stmt : stmt -> stmt -> Prop :=
| ss_same s : swapped_stmt s s
| ss_assign l m a b : swapped_target l m -> swapped a b -> swapped_stmt (SAssign l a) (SAssign m b)
| ss_if c d t u f g : swapped c d -> swapped_stmts t u -> swapped_stmts f g -> swapped_stmt (SIf c t f) (SIf d u g)
| ss_while c d b b' : swapped c d -> swapped_stmts b b' -> swapped_stmt (SWhile c b) (SWhile d b')
| ss_for i r r' b b' : swapped r r' -> swapped_stmts b b' -> swapped_stmt (SFor i r b) (SFor i r' b')
| ss_print a b : swapped a b -> swapped_stmt (SPrint a) (SPrint b)
| ss_expr a b : swapped a b -> swapped_stmt (SExpr a) (SExpr b)
with swapped_stmts : list stmt -> list stmt -> Prop :=
| ss_nil : swapped_stmts [] []
| ss_cons s t l m : swapped_stmt s t -> swapped_stmts l m -> swapped_stmts (s :: l) (t :: m).
End Replace.

(** ** Parentheses *)
(** without the parentheses around operands *)
Fixpoint bare (e : expr) : expr :=
  match e with
  | EParen a => bare a
  | EField a x => EField (bare a) x
  | EIndex a i => EIndex (bare a) (bare i)
  | ECall f l => ECall (bare f) (map bare l)
  | EBin op a b => EBin op (bare a) (bare b)
  | EUn op a => EUn op (bare a)
  | ECast t a => ECast t (bare a)
  | EIdent _ | EInt _ | EBool _ | EStr _ => e
  end.
Fixpoint bare_target (e : expr) : expr :=
  match e with
  | EField a x => EField (bare_target a) x
  | EIndex a i => EIndex (bare_target a) (bare i)
  | _ => e
  end.
Fixpoint bare_stmt (s : stmt) : stmt :=
  match s with
  | SAssign l a => SAssign (bare_target l) (bare a)
  | SIf c t f => SIf (bare c) (map bare_stmt t) (map bare_stmt f)
  | SWhile c b => SWhile (bare c) (map bare_stmt b)
  | SFor i r b => SFor i (bare r) (map bare_stmt b)
  | SPrint a => SPrint (bare a)
  | SExpr a => SExpr (bare a)
  | SBreak | SContinue | SHelp | SQuit | SFilesystem _ => s
  end.
