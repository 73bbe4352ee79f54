(** The semantic analyser: /repo/src/lang/semantics.rs:11-251. *)
From Verif Require Import Base Ast Structs Definitions Value Variables.

(** semantics.rs:11-14.  [loop_depth] is a u32; its overflow at 2^32 nested loops is
    not modelled (the parser's stack would be exhausted first). *)
Record sem : Type := mk_sem { s_vars : vars unit; s_depth : Z }.

(** semantics.rs:17-22 *)
Definition sem_new : sem := mk_sem (vars_new (fun _ => tt) (fun _ => tt)) 0.

(** semantics.rs:24-92,94-123 [analyze_expr] with [analyze_primary_expr], [analyze_binary_expr]
    and [analyze_unary_expr]; it does not modify the analyser *)
Fixpoint analyze_expr (v : vars unit) (e : expr) : res unit :=
  match e with
  | EIdent x => match vars_get x v with Some _ => Ok tt | None => Err (EUnknownVariable x) end
  | EInt _ | EBool _ | EStr _ => Ok tt
  | EParen e => analyze_expr v e
  | EField e f => match f with EIdent _ => analyze_expr v e | _ => Err EFieldNotIdent end
  | EIndex e i => let* _ := analyze_expr v e in analyze_expr v i
  | ECall f args =>
    let* _ := analyze_expr v f in
    (fix go (l : list expr) : res unit :=
       match l with [] => Ok tt | a :: l' => let* _ := analyze_expr v a in go l' end) args
  | EBin _ l r => let* _ := analyze_expr v l in analyze_expr v r
  | EUn _ e => analyze_expr v e
  | ECast t e =>
    match t with
    | EIdent x =>
      let* _ := ensure (existsb (fun s => str_eqb (st_name s) x) STRUCTS) (EUnknownType x) in
      analyze_expr v e
    | _ => Err EBadCastType
    end
  end.

(** [variables.insert(ident, ())]; a failing assertion panics *)
Definition sem_insert (x : str) (s : sem) : sem * res unit :=
  match vars_insert x tt (s_vars s) with
  | Some v => (mk_sem v (s_depth s), Ok tt)
  | None => (s, Panic PAssert)
  end.
(** [variables.pop_scope()] after a block with result r, and the change of loop depth *)
Definition sem_pop (d : Z) (p : sem * res unit) : sem * res unit :=
  let '(s, r) := p in
  match pop_scope (s_vars s) with
  | Some v => (mk_sem v (s_depth s - d), r)
  | None => (s, Panic PAssert)
  end.
(** [?] between state-changing steps *)
Definition sbind (p : sem * res unit) (k : sem -> sem * res unit) : sem * res unit :=
  match snd p with Ok _ => k (fst p) | _ => p end.

(** semantics.rs:125-131 [analyze_stmts] *)
Definition analyze_list (f : sem -> stmt -> sem * res unit) : sem -> list stmt -> sem * res unit :=
  fix go (s : sem) (l : list stmt) : sem * res unit :=
    match l with
    | [] => (s, Ok tt)
    | x :: l' => sbind (f s x) (fun s' => go s' l')
    end.

(** semantics.rs:133-242 [analyze_stmt], [analyze_block_stmt], [analyze_if],
    [analyze_for], [analyze_while] *)
Fixpoint analyze_stmt (s : sem) (st : stmt) {struct st} : sem * res unit :=
  let go := fix go (s : sem) (l : list stmt) {struct l} : sem * res unit :=
      match l with
      | [] => (s, Ok tt)
      | x :: l' => sbind (analyze_stmt s x) (fun s' => go s' l')
      end in
  match st with
  | SAssign lhs rhs =>                                  (* semantics.rs:208-218 *)
    sbind (match lhs with
           | EIdent x => sem_insert x s
           | _ => (s, analyze_expr (s_vars s) lhs)
           end)
          (fun s => (s, analyze_expr (s_vars s) rhs))
  | SIf c tb fb =>                                      (* semantics.rs:133-144,174-180 *)
    let s1 := mk_sem (push_scope (s_vars s)) (s_depth s) in
    sem_pop 0
      (sbind (s1, analyze_expr (s_vars s1) c)
             (fun s => sbind (go s tb) (fun s => go s fb)))
  | SWhile c b =>                                       (* semantics.rs:165-170,181-191 *)
    let s1 := mk_sem (push_scope (s_vars s)) (s_depth s + 1) in
    sem_pop 1 (sbind (s1, analyze_expr (s_vars s1) c) (fun s => go s b))
  | SFor i r b =>                                       (* semantics.rs:146-163,192-202 *)
    let s1 := mk_sem (push_scope (s_vars s)) (s_depth s + 1) in
    sem_pop 1
      (match i with
       | EIdent x =>
         sbind (sem_insert x s1)
               (fun s => sbind (s, analyze_expr (s_vars s) r) (fun s => go s b))
       | _ => (s1, Err EForTemp)
       end)
  | SBreak =>                                           (* semantics.rs:220-224, ast.rs Display *)
    (s, ensure (0 <? s_depth s)%Z (EJumpOutsideLoop (s_ "break")))
  | SContinue =>
    (s, ensure (0 <? s_depth s)%Z (EJumpOutsideLoop (s_ "continue")))
  | SHelp | SQuit => (s, Ok tt)                         (* semantics.rs:226-227 *)
  | SFilesystem e =>                                    (* semantics.rs:228-231 *)
    (s, match e with EStr _ => Ok tt | _ => Err EFilesystemArg end)
  | SPrint e => (s, analyze_expr (s_vars s) e)          (* semantics.rs:232-235 *)
  | SExpr e => (s, analyze_expr (s_vars s) e)           (* semantics.rs:237-240 *)
  end.

(** semantics.rs:125-131, as a function of its own *)
Definition analyze_stmts : sem -> list stmt -> sem * res unit := analyze_list analyze_stmt.

(** semantics.rs:244-250 [analyze] *)
Definition analyze (s : sem) (l : list stmt) : sem * res unit := analyze_stmts s l.
