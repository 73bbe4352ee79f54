(** Interactive and script execution (C69). *)
From Verif Require Import Base Ast Value Variables Semantics Fs Eval Runtime Spec_Text.

(** the outside world does not change while the program runs, and all output is accepted *)
Record steady (E : env) : Prop := mk_steady {
  steady_ioctl : forall n m fd k, ioctl E n fd k = ioctl E m fd k;
  steady_open : forall n m p, open_path E n p = open_path E m p;
  steady_sink : forall n t, sink E n t = SkOk
}.

(** [echoed w w']: the interactions and the output of w' are those of w with additional
    writes in between *)
Definition wrote (w : world) (t : str) : world := mk_world (w_log w ++ [EvWrite t]) (w_out w ++ t).
Inductive echoed : world -> world -> Prop :=
| ec_same w : echoed w w
| ec_event w w' ev : (forall t, ev <> EvWrite t) -> echoed w w' -> echoed (log_event w ev) (log_event w' ev)
| ec_write w w' t : echoed w w' -> echoed (wrote w t) (wrote w' t)
| ec_echo w w' t : echoed w w' -> echoed w (wrote w' t).

(** two debuggers that differ only in echoes *)
Record alike (r r' : rt) : Prop := mk_alike {
  alike_names : r_sem r' = r_sem r;
  alike_vars : e_vars (r_eval r') = e_vars (r_eval r);
  alike_fs : e_fs (r_eval r') = e_fs (r_eval r);
  alike_world : echoed (e_w (r_eval r)) (e_w (r_eval r'))
}.

(** a statement of the program is (or contains) an expression statement *)
Definition has_expression_statement (l : list stmt) : Prop := exists st e, In st l /\ In (SExpr e) (substmts st).
