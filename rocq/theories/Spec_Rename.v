(** Renaming the variables of a program (C87). *)
From Verif Require Import Base Ast Pom Parse Definitions Value Variables Semantics Fs Eval Runtime Spec_Vars Spec_Session Spec_Safe Spec_Frame.

(** every variable x becomes r x; field and struct names are not variables *)
Fixpoint rename (r : str -> str) (e : expr) : expr :=
  match e with
  | EIdent x => EIdent (r x)
  | EInt _ | EBool _ | EStr _ => e
  | EParen e => EParen (rename r e)
  | EField e f => EField (rename r e) f
  | EIndex e i => EIndex (rename r e) (rename r i)
  | ECall f args => ECall (rename r f) (map (rename r) args)
  | EBin o a b => EBin o (rename r a) (rename r b)
  | EUn o e => EUn o (rename r e)
  | ECast t e => ECast t (rename r e)
  end.
Fixpoint rename_stmt (r : str -> str) (st : stmt) : stmt :=
  match st with
  | SAssign t e => SAssign (rename r t) (rename r e)
  | SIf c a b => SIf (rename r c) (map (rename_stmt r) a) (map (rename_stmt r) b)
  | SWhile c b => SWhile (rename r c) (map (rename_stmt r) b)
  | SFor x e b => SFor (rename r x) (rename r e) (map (rename_stmt r) b)
  | SBreak | SContinue | SHelp | SQuit => st
  | SFilesystem e => SFilesystem (rename r e)
  | SPrint e => SPrint (rename r e)
  | SExpr e => SExpr (rename r e)
  end.
(** the only error that names a variable *)
Definition rename_result (r : str -> str) (q : eres) : eres :=
  match q with RErr (EUnknownVariable x) => RErr (EUnknownVariable (r x)) | _ => q end.

(** different variables stay different *)
Definition one_to_one (X : list str) (r : str -> str) : Prop := forall x y, In x X -> In y X -> r x = r y -> x = y.
(** the second text is the first one with its variables, which are among X, renamed; a text that is no program corresponds to any other *)
Definition renamed_command (X : list str) (r : str -> str) (c1 c2 : str) : Prop :=
  (exists l, parse c1 = Ok l /\ (forall x, In x (flat_map mentions l) -> In x X) /\ parse c2 = Ok (map (rename_stmt r) l)) \/
  (parse c1 = Err EParse /\ parse c2 = Err EParse).
(** scope stacks of the same depth; x in the first is r x in the second *)
Definition agree_via {A} (X : list str) (r : str -> str) (v1 v2 : vars A) : Prop :=
  length v1 = length v2 /\ forall x, In x X -> forall j, binding v1 j x = binding v2 j (r x).
(** the first debugger knows and holds for x what the second does for r x, and both have the same filesystem selected *)
Record agree_on_via (X : list str) (r : str -> str) (r1 r2 : rt) : Prop := mk_agree_on_via {
  av_known : agree_via X r (s_vars (r_sem r1)) (s_vars (r_sem r2));
  av_depth : s_depth (r_sem r1) = s_depth (r_sem r2);
  av_vars : agree_via X r (e_vars (r_eval r1)) (e_vars (r_eval r2));
  av_fs : e_fs (r_eval r1) = e_fs (r_eval r2)
}.
(** names that mean something from the start *)
Definition predefined (x : str) : Prop := In x (map fst CONSTANTS) \/ In x (map func_name FUNCTIONS).
