(** What a command changes (C72) and what it depends on (C73). *)
From Verif Require Import Base Ast Value Variables Semantics Fs Eval Runtime Spec_Vars Spec_Session Spec_Safe.

(** ** C72 *)
(** the variable an assignment target is (a part of) *)
Fixpoint target (e : expr) : list str :=
  match e with
  | EIdent x => [x]
  | EField e _ => target e
  | EIndex e _ => target e
  | _ => []
  end.
(** the variables a statement assigns: targets of assignments and loop variables *)
Fixpoint may_assign (st : stmt) : list str :=
  match st with
  | SAssign lhs _ => target lhs
  | SIf _ a b => flat_map may_assign a ++ flat_map may_assign b
  | SWhile _ b => flat_map may_assign b
  | SFor i _ b => target i ++ flat_map may_assign b
  | _ => []
  end.

(** ** C73 *)
(** the variables a statement mentions: read or assigned *)
Definition mentions (st : stmt) : list str := flat_map reads (exprs st).

(** two environments behave alike from interaction number a of the first and b of the second on *)
Record same_future (E1 : env) (a : nat) (E2 : env) (b : nat) : Prop := mk_same_future {
  sf_checks : overflow_checks E1 = overflow_checks E2;
  sf_ioctl : forall n fd k, ioctl E1 (a + n) fd k = ioctl E2 (b + n) fd k;
  sf_open : forall n p, open_path E1 (a + n) p = open_path E2 (b + n) p;
  sf_sink : forall n t, sink E1 (a + n) t = sink E2 (b + n) t
}.
(** two scope stacks of the same depth give the names of X the same bindings *)
Definition agree {A} (X : list str) (v1 v2 : vars A) : Prop :=
  length v1 = length v2 /\ forall x, In x X -> forall j, binding v1 j x = binding v2 j x.
(** two debuggers that know and hold the same for the names of X and have the same filesystem selected *)
Record agree_on (X : list str) (r1 r2 : rt) : Prop := mk_agree_on {
  ag_known : agree X (s_vars (r_sem r1)) (s_vars (r_sem r2));
  ag_depth : s_depth (r_sem r1) = s_depth (r_sem r2);
  ag_vars : agree X (e_vars (r_eval r1)) (e_vars (r_eval r2));
  ag_fs : e_fs (r_eval r1) = e_fs (r_eval r2)
}.
(** the interactions and output up to w1 and w2 are followed by the same up to w1' and w2' *)
Definition same_since (w1 w2 w1' w2' : world) : Prop :=
  exists evs out, w1' = mk_world (w_log w1 ++ evs) (w_out w1 ++ out) /\ w2' = mk_world (w_log w2 ++ evs) (w_out w2 ++ out).
(** what a user sees of a debugger: the world, that is interactions and output so far *)
Definition seen (r : rt) : world := e_w (r_eval r).
(** entering commands one after the other *)
Fixpoint entering (n : nat) (E : env) (inter : bool) (r : rt) (cmds : list str) : rt * list eres :=
  match cmds with
  | [] => (r, [])
  | c :: cmds' => let '(r1, a) := rt_eval n E inter r c in
                  let '(r2, l) := entering n E inter r1 cmds' in (r2, a :: l)
  end.
