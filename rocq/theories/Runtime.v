(** The pipeline: /repo/src/lang/runtime.rs:7-42. *)
From Verif Require Import Base Ast Pom Parse Semantics Value Variables Fs Eval.

(** runtime.rs:7-10 *)
Record rt : Type := mk_rt { r_sem : sem; r_eval : est }.

(** runtime.rs:19-24 [new] *)
Definition rt_new (E : env) : rt := mk_rt sem_new (eval_new E).

(** runtime.rs:26-41 [eval] *)
Definition rt_eval (n : nat) (E : env) (interactive : bool) (r : rt) (cmd : str) : rt * eres :=
  match parse cmd with
  | Err e => (r, RErr e)
  | Panic p => (r, RPanic p)
  | Fuel => (r, RFuel)
  | Ok stmts =>
    let '(sem', a) := analyze (r_sem r) stmts in
    let r' := mk_rt sem' (r_eval r) in
    match a with
    | Err e => (r', RErr e)
    | Panic p => (r', RPanic p)
    | Fuel => (r', RFuel)
    | Ok _ =>
      let '(ev', res) := eval_prog n E interactive (r_eval r) stmts in
      (mk_rt sem' ev', res)
    end
  end.
