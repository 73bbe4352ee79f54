(** Specification vocabulary for sessions. *)
From Verif Require Import Base Ast Pom Parse Value Variables Semantics Fs Eval Runtime.

(** [session E h r]: starting from a fresh runtime in environment E, entering the
    commands h (oldest first; interactive or not, whatever their results were) leads to
    runtime r. *)
Inductive session (E : env) : list str -> rt -> Prop :=
| ses_new : session E [] (rt_new E)
| ses_step h r n inter cmd :
    session E h r -> session E (h ++ [cmd]) (fst (rt_eval n E inter r cmd)).

(** The variables an expression reads. *)
Fixpoint reads (e : expr) : list str :=
  match e with
  | EIdent x => [x]
  | EInt _ | EBool _ | EStr _ => []
  | EParen e => reads e
  | EField e _ => reads e
  | EIndex e i => reads e ++ reads i
  | ECall f args => reads f ++ flat_map reads args
  | EBin _ l r => reads l ++ reads r
  | EUn _ e => reads e
  | ECast _ e => reads e
  end.

(** x is read, in textual order, before it is assigned in the same block or an enclosing
    one.  For an assignment to a field or element the target counts as read. *)
Inductive read_before_assigned (x : str) : list stmt -> Prop :=
| rb_assign y e l : y <> x -> In x (reads e) -> read_before_assigned x (SAssign (EIdent y) e :: l)
| rb_assign_part t e l :
    (forall y, t <> EIdent y) -> In x (reads t) \/ In x (reads e) -> read_before_assigned x (SAssign t e :: l)
| rb_print e l : In x (reads e) -> read_before_assigned x (SPrint e :: l)
| rb_expr e l : In x (reads e) -> read_before_assigned x (SExpr e :: l)
| rb_if c tb fb l : In x (reads c) -> read_before_assigned x (SIf c tb fb :: l)
| rb_then c tb fb l : read_before_assigned x tb -> read_before_assigned x (SIf c tb fb :: l)
| rb_else c tb fb l :
    read_before_assigned x fb -> (forall e, ~ In (SAssign (EIdent x) e) tb) ->
    read_before_assigned x (SIf c tb fb :: l)
| rb_while c b l : In x (reads c) -> read_before_assigned x (SWhile c b :: l)
| rb_while_body c b l : read_before_assigned x b -> read_before_assigned x (SWhile c b :: l)
| rb_for y e b l : y <> x -> In x (reads e) -> read_before_assigned x (SFor (EIdent y) e b :: l)
| rb_for_body y e b l :
    y <> x -> read_before_assigned x b -> read_before_assigned x (SFor (EIdent y) e b :: l)
| rb_later st l :
    (forall e, st <> SAssign (EIdent x) e) -> read_before_assigned x l -> read_before_assigned x (st :: l).
