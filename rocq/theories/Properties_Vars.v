(** C10-C12: scopes and assignment. *)
From Verif Require Import Base Ast Value Variables Fs Eval Runtime Demo Spec_Vars Proof_Vars.

(** Whatever the statement does (any result r: normal end, error, quit, break, continue,
    panic), the same scopes exist afterwards with the same names, so exactly the same
    names are unknown. *)
Theorem C10_blocks_restore_scopes :
  forall n E inter s st s' r,
  eval_stmt n E inter s st = (s', r) ->
  match st with SIf _ _ _ | SWhile _ _ | SFor _ _ _ => True | _ => False end ->
  scope_names (e_vars s') = scope_names (e_vars s) /\
  forall k f x w, eval_expr k E (e_vars s') f (EIdent x) w = (w, Err (EUnknownVariable x))
              <-> eval_expr k E (e_vars s) f (EIdent x) w = (w, Err (EUnknownVariable x)).
Proof. exact block_restores_scopes. Qed.
Print Assumptions C10_blocks_restore_scopes.

Definition demo_st : est := mk_est [[]; [(s_ "a", VInt 1%Z)]] None w0.
(** a block that assigns, breaks and then fails *)
Definition demo_block : stmt :=
  SWhile (EBool true)
    [SAssign (EIdent (s_ "b")) (EInt 2%Z); SAssign (EIdent (s_ "a")) (EInt 3%Z);
     SIf (EBool true) [SAssign (EIdent (s_ "c")) (EBin ODivide (EInt 1) (EInt 0))] []].
Example C10_example :
  let p := eval_stmt 10 (demo_env true) false demo_st demo_block in
  snd p = IErr EDivideByZero /\ e_vars (fst p) = [[]; [(s_ "a", VInt 3%Z)]].
Proof. vm_compute. auto. Qed.

(** Assigning the value v of e to x: the innermost existing variable x is set and nothing
    else; if there is none, x is created in the innermost scope.  Reading x then gives v
    and reading any other name what it gave before.  If e fails nothing is assigned. *)
Theorem C11_assignment :
  forall n E inter s x e,
  e_vars s <> [] ->
  (forall w1 v,
   eval_expr n E (e_vars s) (e_fs s) e (e_w s) = (w1, Ok v) ->
   exists s', eval_stmt (S n) E inter s (SAssign (EIdent x) e) = (s', IOk)
    /\ e_fs s' = e_fs s /\ e_w s' = w1
    /\ ((exists i, innermost_binding (e_vars s) x i /\ set_at (e_vars s) (e_vars s') i x v)
        \/ (unbound (e_vars s) x /\ set_at (e_vars s) (e_vars s') 0 x v))
    /\ (forall k f w, eval_expr k E (e_vars s') f (EIdent x) w = (w, Ok v))
    /\ (forall k f w y, y <> x ->
          eval_expr k E (e_vars s') f (EIdent y) w = eval_expr k E (e_vars s) f (EIdent y) w)) /\
  (forall w1 r,
   eval_expr n E (e_vars s) (e_fs s) e (e_w s) = (w1, r) -> (forall v, r <> Ok v) ->
   exists q, q <> IOk /\ eval_stmt (S n) E inter s (SAssign (EIdent x) e) = (with_w s w1, q)).
Proof.
  exact (fun n E inter s x e Hne =>
    conj (fun w1 v => assign_var n E inter s x e w1 v Hne)
         (assign_failed n E inter s (EIdent x) e)).
Qed.
Print Assumptions C11_assignment.

Example C11_example :
  e_vars demo_st <> [] /\
  demo_out (demo_run true false "x = 1; y = 7; if true { while x < 5 { x = x + 1; z = x; } } print x; print y;")
    = s_ "5
7
".
Proof. split; [discriminate|vm_compute; reflexivity]. Qed.

(** Assignment through fields and indexes.  First part: either it fails and no variable
    changes, or exactly the designated location of the designated variable holds the new
    value.  Second part: it succeeds whenever the designated location exists. *)
Theorem C12_partial_assignment_is_exact :
  forall n E inter s lhs e,
  (forall x, lhs <> EIdent x) ->
  (forall s' r,
   eval_stmt (S n) E inter s (SAssign lhs e) = (s', r) ->
   (r <> IOk /\ e_vars s' = e_vars s /\ e_fs s' = e_fs s) \/
   (r = IOk /\ exists v w1 x p i old new,
     eval_expr n E (e_vars s) (e_fs s) e (e_w s) = (w1, Ok v) /\
     designates n E (e_vars s) (e_fs s) lhs w1 (e_w s') x p /\
     innermost_binding (e_vars s) x i /\ binding (e_vars s) i x = Some old /\
     updated old p v new /\ set_at (e_vars s) (e_vars s') i x new /\ e_fs s' = e_fs s)) /\
  (forall w1 w2 v x p i old a,
   eval_expr n E (e_vars s) (e_fs s) e (e_w s) = (w1, Ok v) ->
   designates n E (e_vars s) (e_fs s) lhs w1 w2 x p ->
   innermost_binding (e_vars s) x i -> binding (e_vars s) i x = Some old ->
   at_path old p a ->
   exists s', eval_stmt (S n) E inter s (SAssign lhs e) = (s', IOk)).
Proof.
  exact (fun n E inter s lhs e H =>
    conj (fun s' r => assign_part_sound n E inter s lhs e s' r
            (match lhs return (forall x, lhs <> EIdent x) -> ~ is_var lhs with
             | EIdent x => fun H _ => H x eq_refl | _ => fun _ F => F end H))
         (assign_part_complete n E inter s lhs e)).
Qed.
Print Assumptions C12_partial_assignment_is_exact.

Example C12_example :
  demo_out (demo_run true false
    "a = hist() + key(1,2,3,4); a[0].min_type = 9; b = hist(); b = b + a; b[0][0].max_type = 5; k = b[0][0]; print k.min_type; print k.max_type; print k.min_objectid; k = a[0]; print k.max_type;")
    = s_ "9
5
1
255
" /\
  snd (demo_run true false "a = hist() + 1; a[1] = 3;") = RErr (EIndexOutOfRange 1 1).
Proof. vm_compute. auto. Qed.
