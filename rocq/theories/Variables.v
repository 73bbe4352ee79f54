(** Scoped variables: /repo/src/lang/variables.rs:1-74. *)
From Verif Require Import Base Value Definitions.

(** [BTreeMap<Identifier, T>] as an association list without duplicate keys.
    Only lookup and insertion are used, so the key order is not modelled. *)
Definition scope (A : Type) := list (str * A).
(** variables.rs:9-11 [inner]; innermost scope (the end of the Vec) first *)
Definition vars (A : Type) := list (scope A).

(** [BTreeMap::insert] *)
Fixpoint scope_insert {A} (x : str) (a : A) (m : scope A) : scope A :=
  match m with
  | [] => [(x, a)]
  | (y, b) :: m' => if str_eqb y x then (y, a) :: m' else (y, b) :: scope_insert x a m'
  end.

(** variables.rs:14-32 [new] *)
Definition vars_new {A} (mk_const : Z -> A) (mk_fun : func -> A) : vars A :=
  let m := fold_left (fun m c => scope_insert (fst c) (mk_const (snd c)) m) CONSTANTS [] in
  let m := fold_left (fun m f => scope_insert (func_name f) (mk_fun f) m) FUNCTIONS m in
  [m].

(** variables.rs:34-36 *)
Definition push_scope {A} (v : vars A) : vars A := [] :: v.
(** variables.rs:38-41; None models the failing [assert!] *)
Definition pop_scope {A} (v : vars A) : option (vars A) :=
  match v with [] => None | _ :: v' => Some v' end.

(** variables.rs:43-51 *)
Fixpoint vars_get {A} (x : str) (v : vars A) : option A :=
  match v with
  | [] => None
  | m :: v' => match assoc x m with Some a => Some a | None => vars_get x v' end
  end.

(** variables.rs:64-69 (the loop of [insert]): replace the innermost binding of x, if any *)
Fixpoint vars_replace {A} (x : str) (a : A) (v : vars A) : option (vars A) :=
  match v with
  | [] => None
  | m :: v' =>
    match assoc x m with
    | Some _ => Some (scope_insert x a m :: v')
    | None => match vars_replace x a v' with Some r => Some (m :: r) | None => None end
    end
  end.

(** variables.rs:63-73 [insert]; None models the failing [assert!] *)
Definition vars_insert {A} (x : str) (a : A) (v : vars A) : option (vars A) :=
  match vars_replace x a v with
  | Some r => Some r
  | None => match v with [] => None | m :: v' => Some (scope_insert x a m :: v') end
  end.
