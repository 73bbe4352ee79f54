(** Which error is reported, and with what text (C84).  Spec_Lang and Spec_Exec say when an
    expression or a statement fails; here the text is added.  A text is None when it is made
    by the operating system or the parser library. *)
From Verif Require Import Base Ast Structs Definitions Value Variables Fs Eval Errors Spec_Arith Spec_Vars Spec_Search Spec_Text Spec_Run Spec_Lang Spec_Exec.
Arguments s_ s%string_scope.

Definition text : Type := option str.
Definition quoted (t : str) : str := s_ "'" ++ t ++ s_ "'".

(** ** Values and types in messages *)
Definition kind_word (k : kind) : str :=
  match k with
  | KAny => [] | KInt => s_ "integer" | KBool => s_ "boolean" | KArray => s_ "array" | KStruct => s_ "struct" | KFunction => s_ "function"
  end.
(** arrays and structs are abbreviated *)
Inductive described : value -> str -> Prop :=
| ds_array l h : described (VArr l h) (s_ "[][" ++ dec_Z (zlen l) ++ s_ "]")
| ds_struct n k ms : described (VStruct n k ms) (s_ "struct " ++ n)
| ds_other v : ~ has_kind KArray v -> ~ has_kind KStruct v -> described v (display v).
Definition expected_text (what got : str) : text := Some (s_ "Expected " ++ what ++ s_ ", got " ++ quoted got).

(** ** Operations on operands of the right kind *)
Definition op_symbol (op : binop) : str :=
  match op with
  | OPlus => s_ "+" | OMinus => s_ "-" | OMultiply => s_ "*" | ODivide => s_ "/" | OModulo => s_ "%" | OBitOr => s_ "|" | OBitAnd => s_ "&"
  | OBitXor => s_ "^" | OLeftShift => s_ "<<" | ORightShift => s_ ">>" | OLessThan => s_ "<" | OLessThanEquals => s_ "<="
  | OGreaterThan => s_ ">" | OGreaterThanEquals => s_ ">=" | OEquals => s_ "==" | ONotEquals => s_ "!=" | OLogicalOr => s_ "||" | OLogicalAnd => s_ "&&"
  end.
Definition overflow_text (op : binop) (a b : Z) : text := Some (dec_Z a ++ s_ " " ++ op_symbol op ++ s_ " " ++ dec_Z b ++ s_ " overflows").
Definition conversion_text : text := Some (s_ "out of range integral type conversion attempted").
Definition index_text (i len : Z) : text := Some (s_ "Index " ++ dec_Z i ++ s_ " out of range, length is " ++ dec_Z len).
Definition no_field_text (n s : str) : text := Some (s_ "Failed to find field " ++ quoted n ++ s_ " in " ++ quoted (s_ "struct " ++ s)).
Definition field_ident_text : text := Some (s_ "Field in a field access must be an identifier").

(** the exact result does not fit in 128 bits, the smallest integer is divided by -1, or
    the shift count is 128 or more *)
Inductive overflows : binop -> Z -> Z -> Prop :=
| ov_plus a b : ~ fits128 (a + b) -> overflows OPlus a b
| ov_minus a b : ~ fits128 (a - b) -> overflows OMinus a b
| ov_times a b : ~ fits128 (a * b) -> overflows OMultiply a b
| ov_div op : op = ODivide \/ op = OModulo -> overflows op (- 2 ^ 127) (-1)
| ov_shift op a n : op = OLeftShift \/ op = ORightShift -> (128 <= n < 2 ^ 32)%Z -> overflows op a n.
(** + is defined on these pairs of operands *)
Inductive addable : value -> value -> Prop :=
| ad_int a b : addable (VInt a) (VInt b)
| ad_str a b : addable (VStr a) (VStr b)
| ad_arr l h v : addable (VArr l h) v.

Inductive complaint (E : env) (f : option fs) : expr -> list value -> text -> Prop :=
| cp_field_ident e x nm key ms : (forall n, x <> EIdent n) -> complaint E f (EField e x) [VStruct nm key ms] field_ident_text
| cp_field e n nm key ms : ~ In n (map fst ms) -> complaint E f (EField e (EIdent n)) [VStruct nm key ms] (no_field_text n nm)
| cp_index_range e i l h z : ~ (0 <= z < 2 ^ 64)%Z -> complaint E f (EIndex e i) [VArr l h; VInt z] conversion_text
| cp_index e i l h z : (zlen l <= z < 2 ^ 64)%Z -> complaint E f (EIndex e i) [VArr l h; VInt z] (index_text z (zlen l))
| cp_add l r a b ta tb : ~ addable a b -> type_name a ta -> type_name b tb ->
    complaint E f (EBin OPlus l r) [a; b] (Some (s_ "Cannot add types " ++ quoted ta ++ s_ " and " ++ quoted tb))
| cp_overflow op l r a b : overflows op a b -> complaint E f (EBin op l r) [VInt a; VInt b] (overflow_text op a b)
| cp_zero op l r a : op = ODivide \/ op = OModulo -> complaint E f (EBin op l r) [VInt a; VInt 0] (Some (s_ "Divide by zero"))
| cp_shift op l r a n : op = OLeftShift \/ op = ORightShift -> ~ (0 <= n < 2 ^ 32)%Z ->
    complaint E f (EBin op l r) [VInt a; VInt n] conversion_text
| cp_not e v t : ~ has_kind KInt v -> ~ has_kind KBool v -> described v t -> complaint E f (EUn UNot e) [v] (expected_text (s_ "integer or boolean") t)
| cp_negative t e z : (z < 0)%Z ->
    complaint E f (ECast t e) [VInt z] (Some (s_ "Invalid bytenr (" ++ dec_Z z ++ s_ ") in type cast: must be non-negative"))
(* the cast itself; see C84_casts *)
| cp_cast t e z er : (0 <= z)%Z -> eval_cast E f t (z mod 2 ^ 64) = Err er -> complaint E f (ECast t e) [VInt z] (message er).

(** ** Calls *)
Definition arity_text (F : func) : text :=
  Some match F with
       | FKey => s_ "'key()' requires 4 arguments"
       | FSearch => s_ "'search()' requires 2 arguments"
       | FTypeOf => s_ "'typeof()' requires 1 argument"
       | FKeyOf => s_ "'keyof()' requires 1 argument"
       | FLen => s_ "'len()' requires 1 argument"
       | FHist => s_ "'hist()' takes no arguments"
       | FStr => s_ "str() requires 1 argument"
       end.
Inductive call_complaint (E : env) (f : option fs) : func -> list value -> world -> world -> text -> Prop :=
| cc_keyof nm ms w : call_complaint E f FKeyOf [VStruct nm None ms] w w (Some (s_ "Could not take 'keyof()' struct with no on-disk key"))
| cc_len l h w : ~ fits128 (zlen l) -> call_complaint E f FLen [VArr l h] w w conversion_text   (* 2^127 elements: cannot happen *)
(* the search; see C84_searches *)
| cc_search k tree key w w' er : eval_search k E f tree key w = (w', Err er) -> call_complaint E f FSearch [VInt tree; key] w w' (message er).

(** ** Expressions: the first error in the order of evaluation *)
Section Reports.
Variable E : env.
Variable vs : vars value.
Variable f : option fs.
Notation gives := (gives E vs f).
Notation gives_all := (gives_all E vs f).
Inductive reports : expr -> world -> world -> text -> Prop :=
| re_unbound x w : unbound vs x -> reports (EIdent x) w w (Some (s_ "Unknown variable: " ++ x))
| re_paren e w w' m : reports e w w' m -> reports (EParen e) w w' m
| re_operand e ops w w' m : operands e = Some ops -> reports_first ops w w' m -> reports e w w' m
| re_op e ops w w' vals m : operands e = Some ops -> gives_all ops w w' (Some vals) -> complaint E f e vals m -> reports e w w' m
| re_left op l r w w' m : op = OLogicalAnd \/ op = OLogicalOr -> reports_first [(l, KBool)] w w' m -> reports (EBin op l r) w w' m
| re_right op t l r w w1 w' m : (op = OLogicalAnd /\ t = true) \/ (op = OLogicalOr /\ t = false) ->
    gives l w w1 (Some (VBool t)) -> reports_first [(r, KBool)] w1 w' m -> reports (EBin op l r) w w' m
| re_function fe args w w' m : reports_first [(fe, KFunction)] w w' m -> reports (ECall fe args) w w' m
| re_arity fe args F w w' : gives fe w w' (Some (VFun F)) -> parameters F args = None -> reports (ECall fe args) w w' (arity_text F)
| re_argument fe args F ps w w1 w' m : gives fe w w1 (Some (VFun F)) -> parameters F args = Some ps -> reports_first ps w1 w' m ->
    reports (ECall fe args) w w' m
| re_call fe args F ps w w1 w2 w' vals m : gives fe w w1 (Some (VFun F)) -> parameters F args = Some ps -> gives_all ps w1 w2 (Some vals) ->
    call_complaint E f F vals w2 w' m -> reports (ECall fe args) w w' m
(* the operands up to the first that fails or is of another kind *)
with reports_first : list (expr * kind) -> world -> world -> text -> Prop :=
| rf_fails e k ops w w' m : reports e w w' m -> reports_first ((e, k) :: ops) w w' m
| rf_kind e k ops w w' v t : gives e w w' (Some v) -> ~ has_kind k v -> described v t ->
    reports_first ((e, k) :: ops) w w' (expected_text (kind_word k) t)
| rf_later e k ops w w1 w' v m : gives e w w1 (Some v) -> has_kind k v -> reports_first ops w1 w' m -> reports_first ((e, k) :: ops) w w' m.

(** ** Targets of assignments *)
Inductive place_reports : expr -> world -> world -> text -> Prop :=
| pl_field e n w w' m : place_reports e w w' m -> place_reports (EField e (EIdent n)) w w' m
| pl_field_ident e x w : (forall n, x <> EIdent n) -> place_reports (EField e x) w w field_ident_text
| pl_index e i w w' m : reports_first [(i, KInt)] w w' m -> place_reports (EIndex e i) w w' m
| pl_index_of e i z w w1 w' m : gives i w w1 (Some (VInt z)) -> place_reports e w1 w' m -> place_reports (EIndex e i) w w' m
| pl_value e w : (exists z, e = EInt z) \/ (exists b, e = EBool b) \/ (exists s, e = EStr s) \/ (exists a, e = EParen a) ->
    place_reports e w w (Some (s_ "Expected identifier in LHS of assignment"))
| pl_call e args w : place_reports (ECall e args) w w (Some (s_ "Unexpected function call in LHS of assignment"))
| pl_bin op l r w : place_reports (EBin op l r) w w (Some (s_ "Unexpected binary expression in LHS of assignment"))
| pl_un op e w : place_reports (EUn op e) w w (Some (s_ "Unexpected unary expression in LHS of assignment"))
| pl_cast t e w : place_reports (ECast t e) w w (Some (s_ "Unexpected unary expression in LHS of assignment")).
End Reports.
(** the first step of the path that leads nowhere *)
Inductive path_reports : value -> list pstep -> text -> Prop :=
| pp_field v n p : ~ has_kind KStruct v -> path_reports v (PField n :: p) (Some (s_ "Field access must be used on a struct"))
| pp_no_field nm key ms n p : ~ In n (map fst ms) -> path_reports (VStruct nm key ms) (PField n :: p) (no_field_text n nm)
| pp_in_field nm key f1 n a f2 p m : ~ In n (map fst f1) -> path_reports a p m ->
    path_reports (VStruct nm key (f1 ++ (n, a) :: f2)) (PField n :: p) m
| pp_index v z p : ~ has_kind KArray v -> path_reports v (PIndex z :: p) (Some (s_ "Array index must be used on an array"))
| pp_range l h z p : ~ (0 <= z < 2 ^ 64)%Z -> path_reports (VArr l h) (PIndex z :: p) conversion_text
| pp_no_element l h z p : (zlen l <= z < 2 ^ 64)%Z -> path_reports (VArr l h) (PIndex z :: p) (index_text z (zlen l))
| pp_in_element l1 a l2 h z p m : z = zlen l1 -> (z < 2 ^ 64)%Z -> path_reports a p m -> path_reports (VArr (l1 ++ a :: l2) h) (PIndex z :: p) m.

(** ** Statements: the text of the error a statement ends with, and the state it leaves *)
Section Fails.
Variable E : env.
Variable interactive : bool.
Definition expr_fails (s : est) (e : expr) (kd : kind) (w : world) (m : text) : Prop := reports_first E (e_vars s) (e_fs s) [(e, kd)] (e_w s) w m.
(* an output error: the text is the operating system's *)
Definition write_fails (s : est) (txt : str) (s' : est) : Prop := writes E s txt s' Failed.

Inductive fails : est -> stmt -> est -> text -> Prop :=
| fl_assign lhs e s w m : expr_fails s e KAny w m -> fails s (SAssign lhs e) (with_w s w) m
| fl_target lhs e s w v w' m : (forall y, lhs <> EIdent y) -> has_value E s e w v -> place_reports E (e_vars s) (e_fs s) lhs w w' m ->
    fails s (SAssign lhs e) (with_w s w') m
| fl_unknown lhs e s w v w' x p : (forall y, lhs <> EIdent y) -> has_value E s e w v -> denotes E (e_vars s) (e_fs s) lhs w w' (Some (x, p)) ->
    unbound (e_vars s) x -> fails s (SAssign lhs e) (with_w s w') (Some (s_ "Unknown variable: " ++ x))
| fl_store lhs e s w v w' x p i old m : (forall y, lhs <> EIdent y) -> has_value E s e w v -> denotes E (e_vars s) (e_fs s) lhs w w' (Some (x, p)) ->
    innermost_binding (e_vars s) x i -> binding (e_vars s) i x = Some old -> path_reports old p m -> fails s (SAssign lhs e) (with_w s w') m
| fl_condition c tb fb s w m : expr_fails (enter s) c KBool w m -> fails s (SIf c tb fb) (with_w s w) m
| fl_if c tb fb s w t s' m : has_value E (enter s) c w (VBool t) -> fails_list (with_w (enter s) w) (if t then tb else fb) s' m ->
    fails s (SIf c tb fb) (leave s') m
| fl_while c b s s' m : loop_fails c b (enter s) s' m -> fails s (SWhile c b) (leave s') m
| fl_range x r b s w m : expr_fails (enter s) r KArray w m -> fails s (SFor (EIdent x) r b) (with_w s w) m
| fl_for x r b s w items h s' m : has_value E (enter s) r w (VArr items h) -> each_fails x b items (with_w (enter s) w) s' m ->
    fails s (SFor (EIdent x) r b) (leave s') m
| fl_for_name i r b s : (forall x, i <> EIdent x) -> fails s (SFor i r b) s (Some (s_ "Variable in for loop must be an identifier"))
| fl_help s s' : write_fails s help_text s' -> fails s SHelp s' None
| fl_path e s w m : expr_fails s e KAny w m -> fails s (SFilesystem e) (with_w s w) m
| fl_path_type e s w v t : has_value E s e w v -> (forall p, v <> VStr p) -> described v t ->
    fails s (SFilesystem e) (with_w s w) (expected_text (s_ "string") t)
| fl_open e s w path w' er : has_value E s e w (VStr path) -> fs_new E (escape true path) w = (w', Err er) ->
    fails s (SFilesystem e) (with_w s w') (message er)
| fl_print e s w m : expr_fails s e KAny w m -> fails s (SPrint e) (with_w s w) m
| fl_hist e s w l k er : has_value E s e w (VArr l true) -> as_hist k (overflow_checks E) l = Err er -> fails s (SPrint e) (with_w s w) (message er)
| fl_print_write e s w v txt s' : has_value E s e w v -> prints E v txt -> write_fails (with_w s w) (txt ++ s_ "
") s' -> fails s (SPrint e) s' None
| fl_expr e s w m : expr_fails s e KAny w m -> fails s (SExpr e) (with_w s w) m
| fl_expr_write e s w v s' : interactive = true -> has_value E s e w v -> write_fails (with_w s w) (display v ++ s_ "
") s' -> fails s (SExpr e) s' None
(* the first statement that fails *)
with fails_list : est -> list stmt -> est -> text -> Prop :=
| ff_here s st l s' m : fails s st s' m -> fails_list s (st :: l) s' m
| ff_later s st l s1 s' m : executes E interactive s st s1 Ended -> fails_list s1 l s' m -> fails_list s (st :: l) s' m
with loop_fails : expr -> list stmt -> est -> est -> text -> Prop :=
| lf_condition c b s w m : expr_fails s c KBool w m -> loop_fails c b s (with_w s w) m
| lf_body c b s w s' m : has_value E s c w (VBool true) -> fails_list (with_w s w) b s' m -> loop_fails c b s s' m
| lf_later c b s w s1 q s' m : has_value E s c w (VBool true) -> executes_list E interactive (with_w s w) b s1 q -> q = Ended \/ q = Continues ->
    loop_fails c b s1 s' m -> loop_fails c b s s' m
with each_fails : str -> list stmt -> list value -> est -> est -> text -> Prop :=
| ef_body x b v items s s1 s' m : assigned s x v s1 -> fails_list s1 b s' m -> each_fails x b (v :: items) s s' m
| ef_later x b v items s s1 s2 q s' m : assigned s x v s1 -> executes_list E interactive s1 b s2 q -> q = Ended \/ q = Continues ->
    each_fails x b items s2 s' m -> each_fails x b (v :: items) s s' m.
End Fails.
