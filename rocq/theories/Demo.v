(** A concrete environment for witnesses and examples: no filesystem, a sink that
    accepts everything, overflow checks as given. *)
From Verif Require Import Base Ast Value Variables Fs Eval Runtime.

Definition demo_env (oc : bool) : env :=
  mk_env oc (fun _ _ _ => IoErr) (fun _ _ => OpNone) (fun _ _ => SkOk) None.
(** Run one command in a fresh session. *)
Definition demo_run (oc interactive : bool) (cmd : string) : rt * eres :=
  rt_eval 300 (demo_env oc) interactive (rt_new (demo_env oc)) (s_ cmd).
Arguments demo_run oc interactive cmd%string_scope.
Definition demo_out (p : rt * eres) : str := w_out (e_w (r_eval (fst p))).
Definition w0 : world := mk_world [] [].
