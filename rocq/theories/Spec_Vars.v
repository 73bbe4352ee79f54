(** Specification vocabulary for variables: a stack of scopes, innermost first.  Only
    [assoc] (first binding of a name in a list) is used from the model. *)
From Verif Require Import Base Value Variables.

(** The names defined in each scope, in order. *)
Definition scope_names {A} (vs : vars A) : list (list str) := map (map fst) vs.

(** The binding of name y in scope number j (0 is the innermost). *)
Definition binding {A} (vs : vars A) (j : nat) (y : str) : option A :=
  match nth_error vs j with Some m => assoc y m | None => None end.

(** x is bound in scope i and in no scope further inside. *)
Definition innermost_binding {A} (vs : vars A) (x : str) (i : nat) : Prop :=
  binding vs i x <> None /\ forall j, j < i -> binding vs j x = None.

(** x is bound in no scope. *)
Definition unbound {A} (vs : vars A) (x : str) : Prop := forall j, binding vs j x = None.

(** [vs'] is [vs] with x set to v in scope i, and otherwise the same bindings. *)
Definition set_at {A} (vs vs' : vars A) (i : nat) (x : str) (v : A) : Prop :=
  length vs' = length vs /\ binding vs' i x = Some v /\
  forall j y, (j, y) <> (i, x) -> binding vs' j y = binding vs j y.

(** A step into a value. *)
Inductive step : Type := AtIndex (i : nat) | AtField (n : str).

(** [updated old p leaf new]: new is old with exactly the location p replaced by leaf. *)
Inductive updated : value -> list step -> value -> value -> Prop :=
| upd_here old leaf : updated old [] leaf leaf
| upd_index l1 a l2 h p leaf a' :
    updated a p leaf a' ->
    updated (VArr (l1 ++ a :: l2) h) (AtIndex (length l1) :: p) leaf (VArr (l1 ++ a' :: l2) h)
| upd_field nm key f1 n a f2 p leaf a' :
    ~ In n (map fst f1) ->
    updated a p leaf a' ->
    updated (VStruct nm key (f1 ++ (n, a) :: f2)) (AtField n :: p) leaf
            (VStruct nm key (f1 ++ (n, a') :: f2)).

(** Every element of a value, addressed by a path (the first of several equally named
    fields counts). *)
Inductive at_path : value -> list step -> value -> Prop :=
| at_here v : at_path v [] v
| at_index l1 a l2 h p x : at_path a p x -> at_path (VArr (l1 ++ a :: l2) h) (AtIndex (length l1) :: p) x
| at_field nm key f1 n a f2 p x :
    ~ In n (map fst f1) -> at_path a p x ->
    at_path (VStruct nm key (f1 ++ (n, a) :: f2)) (AtField n :: p) x.

(** The location an assignment target designates: a root variable and a path into it.
    [x.f1[i].f2] designates root x, path f1, i, f2.  Index expressions are evaluated
    from the right end of the target to the left; [w] and [w'] are the worlds before and
    after that. *)
From Verif Require Import Ast Fs Eval.
Inductive designates (k : nat) (E : env) (vs : vars value) (f : option fs) :
  expr -> world -> world -> str -> list step -> Prop :=
| des_var x w : designates k E vs f (EIdent x) w w x []
| des_field e n w w' x p :
    designates k E vs f e w w' x p ->
    designates k E vs f (EField e (EIdent n)) w w' x (p ++ [AtField n])
| des_index e i z w w1 w' x p :
    eval_expr k E vs f i w = (w1, Ok (VInt z)) -> (0 <= z < 2 ^ 64)%Z ->
    designates k E vs f e w1 w' x p ->
    designates k E vs f (EIndex e i) w w' x (p ++ [AtIndex (Z.to_nat z)]).
