(** Programs that end (C74). *)
From Verif Require Import Base Ast Structs Value Variables Fs Eval Runtime Spec_Run Spec_Search Spec_Text.

(** every open filesystem behaves like a (changing) tree of items *)
Definition kernel_honest (E : env) : Prop := forall fd, exists states, honest E fd states.

(** [arrives E inter s l st q]: running l from state s comes to executing st, in state q *)
Inductive arrives (E : env) (inter : bool) : est -> list stmt -> stmt -> est -> Prop :=
| ar_now s st l : arrives E inter s (st :: l) st s
| ar_later s x s1 l st q :
    runs E inter s x s1 IOk -> arrives E inter s1 l st q -> arrives E inter s (x :: l) st q
| ar_if s c tb fb l w t st q :
    evals E (enter s) c w (Ok (VBool t)) ->
    arrives E inter (with_w (enter s) w) (if t then tb else fb) st q ->
    arrives E inter s (SIf c tb fb :: l) st q
| ar_while s c b l st q :
    arrives_while E inter c b (enter s) st q -> arrives E inter s (SWhile c b :: l) st q
| ar_for s x e b l w items h st q :
    evals E (enter s) e w (Ok (VArr items h)) ->
    arrives_for E inter x b items (with_w (enter s) w) st q ->
    arrives E inter s (SFor (EIdent x) e b :: l) st q
with arrives_while (E : env) (inter : bool) : expr -> list stmt -> est -> stmt -> est -> Prop :=
| aw_now c b s w st q :
    evals E s c w (Ok (VBool true)) -> arrives E inter (with_w s w) b st q ->
    arrives_while E inter c b s st q
| aw_later c b s w s2 r st q :
    evals E s c w (Ok (VBool true)) ->
    runs_list E inter (with_w s w) b s2 r -> r = IOk \/ r = IContinue ->
    arrives_while E inter c b s2 st q ->
    arrives_while E inter c b s st q
with arrives_for (E : env) (inter : bool) : str -> list stmt -> list value -> est -> stmt -> est -> Prop :=
| af_now x b v items s s1 st q :
    assigned s x v s1 -> arrives E inter s1 b st q ->
    arrives_for E inter x b (v :: items) s st q
| af_later x b v items s s1 s2 r st q :
    assigned s x v s1 ->
    runs_list E inter s1 b s2 r -> r = IOk \/ r = IContinue ->
    arrives_for E inter x b items s2 st q ->
    arrives_for E inter x b (v :: items) s st q.

(** printing a histogram that holds a value above 2^125 (see C32) *)
Definition large_histogram (E : env) (s : est) (st : stmt) : Prop :=
  exists e w vec z, st = SPrint e /\ evals E s e w (Ok (VArr vec true)) /\ In (VInt z) vec /\ (2 ^ 125 < z)%Z.
(** the program contains a while loop *)
Definition has_while (l : list stmt) : Prop := exists st c b, In st l /\ In (SWhile c b) (substmts st).
