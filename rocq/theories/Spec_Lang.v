(** The rules of the language: a big-step semantics of expressions (C64) and statements
    (C65), independent of the interpreter's code.  An expression takes the world (the record
    of everything done to the outside) from w to w' and has an outcome: a value, or nothing
    when it is an error.  Which error message is shown is in Spec_Errors (C84). *)
From Verif Require Import Base Ast Structs Definitions Value Variables Fs Eval Spec_Arith Spec_Vars Spec_Search Spec_Text.
Arguments s_ s%string_scope.

(** ** Expressions *)
Inductive kind : Type := KAny | KInt | KBool | KArray | KStruct | KFunction.
Inductive has_kind : kind -> value -> Prop :=
| hk_any v : has_kind KAny v
| hk_int z : has_kind KInt (VInt z)
| hk_bool b : has_kind KBool (VBool b)
| hk_array l h : has_kind KArray (VArr l h)
| hk_struct n k ms : has_kind KStruct (VStruct n k ms)
| hk_fun f : has_kind KFunction (VFun f).

(** the operands of an operation in the order of evaluation, with the type each must have;
    calls and the lazy operators have their own rules *)
Definition operands (e : expr) : option (list (expr * kind)) :=
  match e with
  | EField a _ => Some [(a, KStruct)]
  | EIndex a i => Some [(a, KArray); (i, KInt)]
  | EBin op l r =>
    match op with
    | OLogicalAnd | OLogicalOr => None
    | OPlus | OEquals | ONotEquals => Some [(l, KAny); (r, KAny)]
    | _ => Some [(l, KInt); (r, KInt)]
    end
  | EUn UNot a => Some [(a, KAny)]
  | EUn _ a => Some [(a, KInt)]
  | ECast _ a => Some [(a, KInt)]
  | _ => None
  end.

(** z' is z reduced to 128 bits *)
Definition reduces128 (z z' : Z) : Prop := fits128 z' /\ exists q, (z' = z + q * 2 ^ 128)%Z.

(** operators on integers *)
Inductive int_result : binop -> Z -> Z -> value -> Prop :=
| ir_minus a b : fits128 (a - b) -> int_result OMinus a b (VInt (a - b))
| ir_times a b : fits128 (a * b) -> int_result OMultiply a b (VInt (a * b))
| ir_div a b : b <> 0%Z -> ~ (a = - 2 ^ 127 /\ b = -1)%Z -> int_result ODivide a b (VInt (Z.quot a b))
| ir_rem a b : b <> 0%Z -> ~ (a = - 2 ^ 127 /\ b = -1)%Z -> int_result OModulo a b (VInt (Z.rem a b))
| ir_or a b : int_result OBitOr a b (VInt (Z.lor a b))
| ir_and a b : int_result OBitAnd a b (VInt (Z.land a b))
| ir_xor a b : int_result OBitXor a b (VInt (Z.lxor a b))
| ir_shl a n z : (0 <= n < 128)%Z -> reduces128 (a * 2 ^ n) z -> int_result OLeftShift a n (VInt z)
| ir_shr a n : (0 <= n < 128)%Z -> int_result ORightShift a n (VInt (a / 2 ^ n))
| ir_lt a b t : (t = true <-> (a < b)%Z) -> int_result OLessThan a b (VBool t)
| ir_le a b t : (t = true <-> (a <= b)%Z) -> int_result OLessThanEquals a b (VBool t)
| ir_gt a b t : (t = true <-> (a > b)%Z) -> int_result OGreaterThan a b (VBool t)
| ir_ge a b t : (t = true <-> (a >= b)%Z) -> int_result OGreaterThanEquals a b (VBool t).

(** [result E f e vals v]: the operation e on operand values vals gives v.  What a cast
    reads from the selected filesystem f is the subject of C39; here it is [eval_cast], on
    the address modulo 2^64. *)
Inductive result (E : env) (f : option fs) : expr -> list value -> value -> Prop :=
| rs_field e n nm key before v after : ~ In n (map fst before) ->
    result E f (EField e (EIdent n)) [VStruct nm key (before ++ (n, v) :: after)] v
| rs_index e i before v after h z : z = zlen before -> (z < 2 ^ 64)%Z ->
    result E f (EIndex e i) [VArr (before ++ v :: after) h; VInt z] v
| rs_add l r a b : fits128 (a + b) -> result E f (EBin OPlus l r) [VInt a; VInt b] (VInt (a + b))
| rs_append l r vs h v : result E f (EBin OPlus l r) [VArr vs h; v] (VArr (vs ++ [v]) h)
| rs_concat l r a b : result E f (EBin OPlus l r) [VStr a; VStr b] (VStr (a ++ b))
| rs_int op l r a b v : int_result op a b v -> result E f (EBin op l r) [VInt a; VInt b] v
| rs_eq l r a b t : (t = true <-> a = b) -> result E f (EBin OEquals l r) [a; b] (VBool t)
| rs_ne l r a b t : (t = true <-> a <> b) -> result E f (EBin ONotEquals l r) [a; b] (VBool t)
| rs_bitnot e z : result E f (EUn UBitNot e) [VInt z] (VInt (- z - 1))
| rs_not_int e z t : (t = true <-> z = 0%Z) -> result E f (EUn UNot e) [VInt z] (VBool t)
| rs_not_bool e b : result E f (EUn UNot e) [VBool b] (VBool (negb b))
| rs_neg e z : fits128 (- z) -> result E f (EUn UMinus e) [VInt z] (VInt (- z))
| rs_neg_wraps e z z' : ~ fits128 (- z) -> overflow_checks E = false -> reduces128 (- z) z' ->   (* C05 *)
    result E f (EUn UMinus e) [VInt z] (VInt z')
| rs_cast t e z v : (0 <= z)%Z -> eval_cast E f t (z mod 2 ^ 64) = Ok v -> result E f (ECast t e) [VInt z] v.

(** operations that abort the debugger (C05, C39) *)
Inductive crashes (E : env) (f : option fs) : expr -> list value -> Prop :=
| cr_neg e z : ~ fits128 (- z) -> overflow_checks E = true -> crashes E f (EUn UMinus e) [VInt z]
| cr_cast t e z : (0 <= z)%Z ->
    (forall v, eval_cast E f t (z mod 2 ^ 64) <> Ok v) -> (forall er, eval_cast E f t (z mod 2 ^ 64) <> Err er) -> crashes E f (ECast t e) [VInt z].

(** the arguments of a call with the type each must have; None when their number is wrong *)
Definition parameters (F : func) (args : list expr) : option (list (expr * kind)) :=
  match F, args with
  | FKey, [a; b; c; d] => Some [(a, KInt); (b, KInt); (c, KInt); (d, KInt)]
  | FSearch, [a; b] => Some [(a, KInt); (b, KStruct)]
  | FTypeOf, [a] | FStr, [a] => Some [(a, KAny)]
  | FKeyOf, [a] => Some [(a, KStruct)]
  | FLen, [a] => Some [(a, KArray)]
  | FHist, [] => Some []
  | _, _ => None
  end.

(** [returns E f F vals w w' o]: calling F with argument values vals.  What search() does is
    the subject of C34-C38; here it is [eval_search] (with any sufficient step budget). *)
Inductive returns (E : env) (f : option fs) : func -> list value -> world -> world -> option value -> Prop :=
| rt_key a b c d w : returns E f FKey [VInt a; VInt b; VInt c; VInt d] w w (Some (key_struct a b c d))
| rt_search k tree key w w' v : eval_search k E f tree key w = (w', Ok v) -> returns E f FSearch [VInt tree; key] w w' (Some v)
| rt_search_err k tree key w w' e : eval_search k E f tree key w = (w', Err e) -> returns E f FSearch [VInt tree; key] w w' None
| rt_typeof v t w : type_name v t -> returns E f FTypeOf [v] w w (Some (VStr t))
| rt_keyof nm oid ty off ms w : returns E f FKeyOf [VStruct nm (Some (oid, ty, off)) ms] w w
    (Some (VStruct (s_ "btrfs_key") None [(s_ "objectid", VInt oid); (s_ "type", VInt ty); (s_ "offset", VInt off)]))
| rt_keyof_none nm ms w : returns E f FKeyOf [VStruct nm None ms] w w None
| rt_len l h w : fits128 (zlen l) -> returns E f FLen [VArr l h] w w (Some (VInt (zlen l)))
| rt_len_huge l h w : ~ fits128 (zlen l) -> returns E f FLen [VArr l h] w w None   (* 2^127 elements: cannot happen *)
| rt_hist w : returns E f FHist [] w w (Some (VArr [] true))
| rt_str_string s w : returns E f FStr [VStr s] w w (Some (VStr s))
| rt_str_other v w : (forall s, v <> VStr s) -> returns E f FStr [v] w w (Some (VStr (display v))).

Section Expressions.
Variable E : env.
Variable vs : vars value.
Variable f : option fs.

Inductive gives : expr -> world -> world -> option value -> Prop :=
| gv_int z w : gives (EInt z) w w (Some (VInt z))
| gv_bool b w : gives (EBool b) w w (Some (VBool b))
| gv_str s w : gives (EStr s) w w (Some (VStr (utf8 s)))
| gv_var x i v w : innermost_binding vs x i -> binding vs i x = Some v -> gives (EIdent x) w w (Some v)
| gv_unbound x w : unbound vs x -> gives (EIdent x) w w None
| gv_paren e w w' o : gives e w w' o -> gives (EParen e) w w' o
(* operations: all operands, then the operation *)
| gv_op e ops w w' vals v : operands e = Some ops -> gives_all ops w w' (Some vals) -> result E f e vals v -> gives e w w' (Some v)
| gv_op_operand e ops w w' : operands e = Some ops -> gives_all ops w w' None -> gives e w w' None
| gv_op_bad e ops w w' vals : operands e = Some ops -> gives_all ops w w' (Some vals) ->
    (forall v, ~ result E f e vals v) -> ~ crashes E f e vals -> gives e w w' None
(* && and || evaluate the right operand only if the left one does not decide *)
| gv_lazy op t l r w w' : (op = OLogicalAnd /\ t = false) \/ (op = OLogicalOr /\ t = true) ->
    gives l w w' (Some (VBool t)) -> gives (EBin op l r) w w' (Some (VBool t))
| gv_right op t l r w w1 w' b : (op = OLogicalAnd /\ t = true) \/ (op = OLogicalOr /\ t = false) ->
    gives l w w1 (Some (VBool t)) -> gives_all [(r, KBool)] w1 w' (Some [b]) -> gives (EBin op l r) w w' (Some b)
| gv_right_bad op t l r w w1 w' : (op = OLogicalAnd /\ t = true) \/ (op = OLogicalOr /\ t = false) ->
    gives l w w1 (Some (VBool t)) -> gives_all [(r, KBool)] w1 w' None -> gives (EBin op l r) w w' None
| gv_left_bad op l r w w' : op = OLogicalAnd \/ op = OLogicalOr -> gives_all [(l, KBool)] w w' None -> gives (EBin op l r) w w' None
(* calls: the function, then the number of arguments, then the arguments, then the call *)
| gv_call_not_function fe args w w' : gives_all [(fe, KFunction)] w w' None -> gives (ECall fe args) w w' None
| gv_call_arity fe args F w w' : gives fe w w' (Some (VFun F)) -> parameters F args = None -> gives (ECall fe args) w w' None
| gv_call_argument fe args F ps w w1 w' : gives fe w w1 (Some (VFun F)) -> parameters F args = Some ps ->
    gives_all ps w1 w' None -> gives (ECall fe args) w w' None
| gv_call fe args F ps w w1 w2 w' vals o : gives fe w w1 (Some (VFun F)) -> parameters F args = Some ps ->
    gives_all ps w1 w2 (Some vals) -> returns E f F vals w2 w' o -> gives (ECall fe args) w w' o
(* operands in order; each must have its type before the next is evaluated *)
with gives_all : list (expr * kind) -> world -> world -> option (list value) -> Prop :=
| ga_nil w : gives_all [] w w (Some [])
| ga_cons e k ops w w1 w' v vals : gives e w w1 (Some v) -> has_kind k v -> gives_all ops w1 w' (Some vals) ->
    gives_all ((e, k) :: ops) w w' (Some (v :: vals))
| ga_later e k ops w w1 w' v : gives e w w1 (Some v) -> has_kind k v -> gives_all ops w1 w' None -> gives_all ((e, k) :: ops) w w' None
| ga_kind e k ops w w' v : gives e w w' (Some v) -> ~ has_kind k v -> gives_all ((e, k) :: ops) w w' None
| ga_error e k ops w w' : gives e w w' None -> gives_all ((e, k) :: ops) w w' None.
End Expressions.

(** what an evaluation of the interpreter shows; a panic or an exhausted step budget is neither *)
Definition shows (r : res value) : option (option value) :=
  match r with Ok v => Some (Some v) | Err _ => Some None | _ => None end.
