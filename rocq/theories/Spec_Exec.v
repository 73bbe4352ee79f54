(** The rules of the language, second part: statements (C65). *)
From Verif Require Import Base Ast Structs Definitions Value Variables Fs Eval Spec_Vars Spec_Run Spec_Lang.
Arguments s_ s%string_scope.

(** how a statement ends *)
Inductive ending : Type := Ended | Quits | Breaks | Continues | Failed.

(** ** Places: what the left-hand side of an assignment denotes *)
Inductive pstep : Type := PIndex (z : Z) | PField (n : str).
Definition place : Type := (str * list pstep).
Definition extend (o : option place) (st : pstep) : option place :=
  match o with Some (x, p) => Some (x, p ++ [st]) | None => None end.
(** neither a variable nor a field nor an element *)
Definition no_place (e : expr) : Prop :=
  match e with EIdent _ | EIndex _ _ | EField _ (EIdent _) => False | _ => True end.
(** index expressions are evaluated from the right end of the target to the left *)
Inductive denotes (E : env) (vs : vars value) (f : option fs) : expr -> world -> world -> option place -> Prop :=
| dn_var x w : denotes E vs f (EIdent x) w w (Some (x, []))
| dn_field e n w w' o : denotes E vs f e w w' o -> denotes E vs f (EField e (EIdent n)) w w' (extend o (PField n))
| dn_index e i z w w1 w' o : gives E vs f i w w1 (Some (VInt z)) -> denotes E vs f e w1 w' o ->
    denotes E vs f (EIndex e i) w w' (extend o (PIndex z))
| dn_index_bad e i w w' : gives_all E vs f [(i, KInt)] w w' None -> denotes E vs f (EIndex e i) w w' None
| dn_none e w : no_place e -> denotes E vs f e w w None.
(** [replaced leaf old p new]: new is old with the location p replaced by leaf *)
Inductive replaced (leaf : value) : value -> list pstep -> value -> Prop :=
| rp_here old : replaced leaf old [] leaf
| rp_index l1 a l2 h z p a' : z = zlen l1 -> (z < 2 ^ 64)%Z -> replaced leaf a p a' ->
    replaced leaf (VArr (l1 ++ a :: l2) h) (PIndex z :: p) (VArr (l1 ++ a' :: l2) h)
| rp_field nm key f1 n a f2 p a' : ~ In n (map fst f1) -> replaced leaf a p a' ->
    replaced leaf (VStruct nm key (f1 ++ (n, a) :: f2)) (PField n :: p) (VStruct nm key (f1 ++ (n, a') :: f2)).

(** ** Output *)
(** one write of txt; when the output fails after n characters, those are there *)
Definition after_write (s : est) (txt shown : str) : est :=
  mk_est (e_vars s) (e_fs s) (mk_world (w_log (e_w s) ++ [EvWrite txt]) (w_out (e_w s) ++ shown)).
Inductive writes (E : env) (s : est) (txt : str) : est -> ending -> Prop :=
| wr_ok : sink E (length (w_log (e_w s))) txt = SkOk -> writes E s txt (after_write s txt txt) Ended
| wr_err n : sink E (length (w_log (e_w s))) txt = SkErr n -> writes E s txt (after_write s txt (firstn n txt)) Failed.
(** the text print shows for a value: see C29, C31-C33, C55 *)
Inductive prints (E : env) : value -> str -> Prop :=
| pr_hist k l txt : as_hist k (overflow_checks E) l = Ok txt -> prints E (VArr l true) txt
| pr_str s : prints E (VStr s) (escape false s)
| pr_other v : (forall l, v <> VArr l true) -> (forall s, v <> VStr s) -> prints E v (display v).

(** ** Statements *)
Section Statements.
Variable E : env.
Variable interactive : bool.
(** evaluating e in state s *)
Definition has_value (s : est) (e : expr) (w : world) (v : value) : Prop := gives E (e_vars s) (e_fs s) e (e_w s) w (Some v).
Definition is_error (s : est) (e : expr) (kd : kind) (w : world) : Prop := gives_all E (e_vars s) (e_fs s) [(e, kd)] (e_w s) w None.

Inductive executes : est -> stmt -> est -> ending -> Prop :=
(* assignment: the right-hand side, then the target, then the store *)
| ex_set x e s w v s' : has_value s e w v -> assigned (with_w s w) x v s' -> executes s (SAssign (EIdent x) e) s' Ended
| ex_store lhs e s w v w' x p i old new s' : (forall y, lhs <> EIdent y) -> has_value s e w v ->
    denotes E (e_vars s) (e_fs s) lhs w w' (Some (x, p)) ->
    innermost_binding (e_vars s) x i -> binding (e_vars s) i x = Some old -> replaced v old p new ->
    assigned (with_w s w') x new s' -> executes s (SAssign lhs e) s' Ended
| ex_store_nowhere lhs e s w v w' x p : (forall y, lhs <> EIdent y) -> has_value s e w v ->
    denotes E (e_vars s) (e_fs s) lhs w w' (Some (x, p)) ->
    (forall i old new, innermost_binding (e_vars s) x i -> binding (e_vars s) i x = Some old -> ~ replaced v old p new) ->
    executes s (SAssign lhs e) (with_w s w') Failed
| ex_store_no_place lhs e s w v w' : has_value s e w v -> denotes E (e_vars s) (e_fs s) lhs w w' None ->
    executes s (SAssign lhs e) (with_w s w') Failed
| ex_assign_error lhs e s w : is_error s e KAny w -> executes s (SAssign lhs e) (with_w s w) Failed
(* blocks *)
| ex_if c tb fb s w t s' q : has_value (enter s) c w (VBool t) -> executes_list (with_w (enter s) w) (if t then tb else fb) s' q ->
    executes s (SIf c tb fb) (leave s') q
| ex_if_error c tb fb s w : is_error (enter s) c KBool w -> executes s (SIf c tb fb) (with_w s w) Failed
| ex_while c b s s' q : loops c b (enter s) s' q -> executes s (SWhile c b) (leave s') q
| ex_for x r b s w items h s' q : has_value (enter s) r w (VArr items h) -> each x b items (with_w (enter s) w) s' q ->
    executes s (SFor (EIdent x) r b) (leave s') q
| ex_for_error x r b s w : is_error (enter s) r KArray w -> executes s (SFor (EIdent x) r b) (with_w s w) Failed
| ex_for_name i r b s : (forall x, i <> EIdent x) -> executes s (SFor i r b) s Failed
(* jumps *)
| ex_break s : executes s SBreak s Breaks
| ex_continue s : executes s SContinue s Continues
| ex_quit s : executes s SQuit s Quits
(* built-ins *)
| ex_help s s' q : writes E s help_text s' q -> executes s SHelp s' q
| ex_filesystem e s w path w' f : has_value s e w (VStr path) -> fs_new E (escape true path) w = (w', Ok f) ->
    executes s (SFilesystem e) (mk_est (e_vars s) (Some f) w') Ended
| ex_filesystem_refused e s w path w' er : has_value s e w (VStr path) -> fs_new E (escape true path) w = (w', Err er) ->
    executes s (SFilesystem e) (with_w s w') Failed
| ex_filesystem_type e s w v : has_value s e w v -> (forall path, v <> VStr path) -> executes s (SFilesystem e) (with_w s w) Failed
| ex_filesystem_error e s w : is_error s e KAny w -> executes s (SFilesystem e) (with_w s w) Failed
| ex_print e s w v txt s' q : has_value s e w v -> prints E v txt -> writes E (with_w s w) (txt ++ s_ "
") s' q -> executes s (SPrint e) s' q
| ex_print_hist e s w l k er : has_value s e w (VArr l true) -> as_hist k (overflow_checks E) l = Err er ->
    executes s (SPrint e) (with_w s w) Failed
| ex_print_error e s w : is_error s e KAny w -> executes s (SPrint e) (with_w s w) Failed
(* an expression shows its value interactively *)
| ex_expr_show e s w v s' q : interactive = true -> has_value s e w v -> writes E (with_w s w) (display v ++ s_ "
") s' q -> executes s (SExpr e) s' q
| ex_expr e s w v : interactive = false -> has_value s e w v -> executes s (SExpr e) (with_w s w) Ended
| ex_expr_error e s w : is_error s e KAny w -> executes s (SExpr e) (with_w s w) Failed
(* sequences end with the first statement that does not end normally *)
with executes_list : est -> list stmt -> est -> ending -> Prop :=
| xl_nil s : executes_list s [] s Ended
| xl_next s st l s1 s' q : executes s st s1 Ended -> executes_list s1 l s' q -> executes_list s (st :: l) s' q
| xl_stop s st l s' q : executes s st s' q -> q <> Ended -> executes_list s (st :: l) s' q
(* while, in the scope of the loop *)
with loops : expr -> list stmt -> est -> est -> ending -> Prop :=
| lp_done c b s w : has_value s c w (VBool false) -> loops c b s (with_w s w) Ended
| lp_again c b s w s1 q1 s' q : has_value s c w (VBool true) -> executes_list (with_w s w) b s1 q1 -> q1 = Ended \/ q1 = Continues ->
    loops c b s1 s' q -> loops c b s s' q
| lp_break c b s w s1 : has_value s c w (VBool true) -> executes_list (with_w s w) b s1 Breaks -> loops c b s s1 Ended
| lp_stop c b s w s1 q : has_value s c w (VBool true) -> executes_list (with_w s w) b s1 q -> q = Quits \/ q = Failed -> loops c b s s1 q
| lp_error c b s w : is_error s c KBool w -> loops c b s (with_w s w) Failed
(* for, in the scope of the loop, over the elements *)
with each : str -> list stmt -> list value -> est -> est -> ending -> Prop :=
| ea_done x b s : each x b [] s s Ended
| ea_next x b v items s s1 s2 q1 s' q : assigned s x v s1 -> executes_list s1 b s2 q1 -> q1 = Ended \/ q1 = Continues ->
    each x b items s2 s' q -> each x b (v :: items) s s' q
| ea_break x b v items s s1 s2 : assigned s x v s1 -> executes_list s1 b s2 Breaks -> each x b (v :: items) s s2 Ended
| ea_stop x b v items s s1 s2 q : assigned s x v s1 -> executes_list s1 b s2 q -> q = Quits \/ q = Failed -> each x b (v :: items) s s2 q.
End Statements.

(** what a run of the interpreter shows; a panic or an exhausted step budget is neither *)
Definition ends (r : ires) : option ending :=
  match r with
  | IOk => Some Ended | IQuit => Some Quits | IErr _ => Some Failed | IBreak => Some Breaks | IContinue => Some Continues
  | IPanic _ | IFuel => None
  end.
