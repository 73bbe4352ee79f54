(** Specification vocabulary for executions without the step budget of the model: an
    expression (statement, list of statements) has a result when some budget suffices.
    By [C15_results_do_not_depend_on_budget] the result is then the same for every
    sufficient budget. *)
From Verif Require Import Base Ast Value Variables Fs Eval.

Definition evals (E : env) (s : est) (e : expr) (w : world) (r : res value) : Prop :=
  r <> Fuel /\ exists k, eval_expr k E (e_vars s) (e_fs s) e (e_w s) = (w, r).
Definition runs (E : env) (inter : bool) (s : est) (st : stmt) (s' : est) (r : ires) : Prop :=
  r <> IFuel /\ exists n, eval_stmt n E inter s st = (s', r).
Definition runs_list (E : env) (inter : bool) (s : est) (l : list stmt) (s' : est) (r : ires) : Prop :=
  r <> IFuel /\ exists n, run_list (eval_stmt n E inter) s l = (s', r).

(** A new innermost scope, and leaving it (with everything else kept). *)
Definition enter (s : est) : est := mk_est ([] :: e_vars s) (e_fs s) (e_w s).
Definition leave (s : est) : est := mk_est (tl (e_vars s)) (e_fs s) (e_w s).

(** Variable x is assigned v: see C11 for what this does to the scopes. *)
Definition assigned (s : est) (x : str) (v : value) (s' : est) : Prop :=
  exists vs, vars_insert x v (e_vars s) = Some vs /\ s' = mk_est vs (e_fs s) (e_w s).

(** [while c { b }] in the current scope. *)
Inductive whiles (E : env) (inter : bool) (c : expr) (b : list stmt) : est -> est -> ires -> Prop :=
| wh_false s w :                                   (* condition false: done *)
    evals E s c w (Ok (VBool false)) -> whiles E inter c b s (with_w s w) IOk
| wh_again s w s2 q s' r :                         (* one pass, then again *)
    evals E s c w (Ok (VBool true)) ->
    runs_list E inter (with_w s w) b s2 q -> q = IOk \/ q = IContinue ->
    whiles E inter c b s2 s' r ->
    whiles E inter c b s s' r
| wh_break s w s2 :
    evals E s c w (Ok (VBool true)) ->
    runs_list E inter (with_w s w) b s2 IBreak ->
    whiles E inter c b s s2 IOk
| wh_abort s w s2 q :                              (* quit, error or panic in the body *)
    evals E s c w (Ok (VBool true)) ->
    runs_list E inter (with_w s w) b s2 q -> q <> IOk -> q <> IContinue -> q <> IBreak ->
    whiles E inter c b s s2 q
| wh_not_bool s w v :                              (* condition is not a boolean *)
    evals E s c w (Ok v) -> (forall t, v <> VBool t) ->
    whiles E inter c b s (with_w s w) (IErr (expected "boolean" v))
| wh_cond_err s w e :
    evals E s c w (Err e) -> whiles E inter c b s (with_w s w) (IErr e)
| wh_cond_panic s w p :
    evals E s c w (Panic p) -> whiles E inter c b s (with_w s w) (IPanic p).

(** Running b once for each element in order, x holding the element. *)
Inductive iterates (E : env) (inter : bool) (x : str) (b : list stmt) :
  list value -> est -> est -> ires -> Prop :=
| it_done s : iterates E inter x b [] s s IOk
| it_next v items s s1 s2 q s' r :
    assigned s x v s1 ->
    runs_list E inter s1 b s2 q -> q = IOk \/ q = IContinue ->
    iterates E inter x b items s2 s' r ->
    iterates E inter x b (v :: items) s s' r
| it_break v items s s1 s2 :
    assigned s x v s1 ->
    runs_list E inter s1 b s2 IBreak ->
    iterates E inter x b (v :: items) s s2 IOk
| it_abort v items s s1 s2 q :
    assigned s x v s1 ->
    runs_list E inter s1 b s2 q -> q <> IOk -> q <> IContinue -> q <> IBreak ->
    iterates E inter x b (v :: items) s s2 q.

(** [reaches s l d q]: running l from s executes a quit statement, in state q, d scopes
    deeper than l.  Statements before it have ended normally. *)
Inductive reaches (E : env) (inter : bool) : est -> list stmt -> nat -> est -> Prop :=
| re_quit s l : reaches E inter s (SQuit :: l) 0 s
| re_later s x s1 l d q :
    runs E inter s x s1 IOk -> reaches E inter s1 l d q -> reaches E inter s (x :: l) d q
| re_if s c tb fb l w t d q :
    evals E (enter s) c w (Ok (VBool t)) ->
    reaches E inter (with_w (enter s) w) (if t then tb else fb) d q ->
    reaches E inter s (SIf c tb fb :: l) (S d) q
| re_while s c b l d q :
    reaches_while E inter c b (enter s) d q -> reaches E inter s (SWhile c b :: l) (S d) q
| re_for s x e b l w items h d q :
    evals E (enter s) e w (Ok (VArr items h)) ->
    reaches_for E inter x b items (with_w (enter s) w) d q ->
    reaches E inter s (SFor (EIdent x) e b :: l) (S d) q
with reaches_while (E : env) (inter : bool) : expr -> list stmt -> est -> nat -> est -> Prop :=
| rw_now c b s w d q :
    evals E s c w (Ok (VBool true)) -> reaches E inter (with_w s w) b d q ->
    reaches_while E inter c b s d q
| rw_later c b s w s2 r d q :
    evals E s c w (Ok (VBool true)) ->
    runs_list E inter (with_w s w) b s2 r -> r = IOk \/ r = IContinue ->
    reaches_while E inter c b s2 d q ->
    reaches_while E inter c b s d q
with reaches_for (E : env) (inter : bool) : str -> list stmt -> list value -> est -> nat -> est -> Prop :=
| rf_now x b v items s s1 d q :
    assigned s x v s1 -> reaches E inter s1 b d q ->
    reaches_for E inter x b (v :: items) s d q
| rf_later x b v items s s1 s2 r d q :
    assigned s x v s1 ->
    runs_list E inter s1 b s2 r -> r = IOk \/ r = IContinue ->
    reaches_for E inter x b items s2 d q ->
    reaches_for E inter x b (v :: items) s d q.

(** State q with its d innermost scopes dropped. *)
Definition drop_scopes (d : nat) (q : est) : est := mk_est (skipn d (e_vars q)) (e_fs q) (e_w q).
