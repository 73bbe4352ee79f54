(** The grammar: /repo/src/lang/parse.rs:40-436, rule by rule.

    [call(rule)] delays construction of a recursive rule; here the two recursive
    entry points, [expr] and [stmts], take a recursion budget, and the rules in
    between are ordinary functions of the recursive parser. *)
From Verif Require Import Base Ast Pom.

Definition c_ (a : ascii) : N := N_of_ascii a.
Arguments c_ a%char_scope.
Arguments s_ s%string_scope.

(** parse.rs:62-78 left_fold_binop_multiop!  *)
Definition left_fold (lhs : expr) (rest : list (binop * expr)) : expr :=
  fold_left (fun e oe => EBin (fst oe) e (snd oe)) rest lhs.

(** parse.rs:80-82 *)
Definition space_chars : str := [32; 9; 13; 10]%N.
Definition space : parser unit := pdiscard (prep (one_of space_chars)).

(** ** string literals, parse.rs:84-112 *)

(** parse.rs:85-92 *)
Definition special_char : parser N :=
  palt (sym 92) (palt (sym 47) (palt (sym 34)
  (palt (pmap (fun _ => 8%N) (sym (c_ "b")))
  (palt (pmap (fun _ => 12%N) (sym (c_ "f")))
  (palt (pmap (fun _ => 10%N) (sym (c_ "n")))
  (palt (pmap (fun _ => 13%N) (sym (c_ "r")))
        (pmap (fun _ => 9%N) (sym (c_ "t"))))))))).

(** parse.rs:93 *)
Definition escape_sequence : parser N := pright (sym 92) special_char.
(** parse.rs:94-96 *)
Definition char_string : parser str := prep1 (palt (none_of [92; 34]%N) escape_sequence).

(** [char::is_digit(16)] and its value *)
Definition hex_val (c : N) : option N :=
  if ((48 <=? c) && (c <=? 57))%N then Some (c - 48)%N
  else if ((97 <=? c) && (c <=? 102))%N then Some (c - 87)%N
  else if ((65 <=? c) && (c <=? 70))%N then Some (c - 55)%N
  else None.
Definition is_hex (c : N) : bool := match hex_val c with Some _ => true | None => false end.
(** [u16::from_str_radix(_, 16)] on hex digits (parse.rs:101); four digits always fit. *)
Definition from_hex (ds : str) : N :=
  fold_left (fun acc c => (acc * 16 + match hex_val c with Some v => v | None => 0 end)%N) ds 0%N.

(** parse.rs:97-101 *)
Definition utf16_char : parser N :=
  pright (tag [92; 117]%N) (pmap from_hex (ptimes 4 (is_a is_hex))).

(** [std::char::decode_utf16] with unpaired surrogates replaced by U+FFFD
    (parse.rs:102-106). *)
Fixpoint decode_utf16 (us : list N) : str :=
  match us with
  | [] => []
  | u :: rest =>
    if (u <? 55296)%N || (57343 <? u)%N then u :: decode_utf16 rest
    else if (56320 <=? u)%N then 65533%N :: decode_utf16 rest
    else match rest with
         | [] => [65533%N]
         | u2 :: rest' =>
           if (56320 <=? u2)%N && (u2 <=? 57343)%N
           then (65536 + (u - 55296) * 1024 + (u2 - 56320))%N :: decode_utf16 rest'
           else 65533%N :: decode_utf16 rest
         end
  end.
(** parse.rs:102-106 *)
Definition utf16_string : parser str := pmap decode_utf16 (prep1 utf16_char).

(** parse.rs:107-111 *)
Definition p_string : parser expr :=
  pmap (fun ss => EStr (concat ss))
       (pleft (pright (sym 34) (prep (palt char_string utf16_string))) (sym 34)).

(** ** constants, parse.rs:114-125 *)
Definition digits19 : str := s_ "123456789".
Definition digits : str := s_ "0123456789".
Definition digit_val (c : N) : Z := Z.of_N c - 48.
Definition dec_val (ds : str) : Z := fold_left (fun acc c => acc * 10 + digit_val c)%Z ds 0%Z.
(** [i128::from_str] on [-]?digits (parse.rs:119): an error when out of range. *)
Definition i128_from_str (s : str) : option Z :=
  let z := match s with
           | 45%N :: ds => (- dec_val ds)%Z
           | ds => dec_val ds
           end in
  if in_i128 z then Some z else None.
(** parse.rs:115 *)
Definition integer : parser N := palt (pleft (one_of digits19) (prep (one_of digits))) (sym (c_ "0")).
(** parse.rs:116-119 *)
Definition number : parser Z := pconvert (pcollect (pseq (popt (sym (c_ "-"))) integer)) i128_from_str.
(** parse.rs:120-124 *)
Definition constant : parser expr :=
  palt (pmap EInt number)
  (palt (pmap (fun _ => EBool true) (tag (s_ "true")))
        (pmap (fun _ => EBool false) (tag (s_ "false")))).

(** ** identifiers, parse.rs:127-134 *)
Definition is_alpha (c : N) : bool :=
  ((65 <=? c) && (c <=? 90))%N || ((97 <=? c) && (c <=? 122))%N.
Definition is_digit (c : N) : bool := ((48 <=? c) && (c <=? 57))%N.
Definition ident_start (c : N) : bool := is_alpha c || N.eqb c 95.
Definition ident_char (c : N) : bool := is_alpha c || is_digit c || N.eqb c 95.
Definition ident_name : parser str := pcollect (pseq (is_a ident_start) (prep (is_a ident_char))).
Definition ident : parser expr := pmap EIdent ident_name.

(** parse.rs:136-138 *)
Definition type_specifier : parser expr := pmap snd (pseq (pleft (tag (s_ "struct")) space) ident).

Section Expr.
(** the recursive rule [expr] *)
Variable pe : parser expr.

(** parse.rs:140-145 *)
Definition paren : parser expr := pmap EParen (pleft (pleft (pright (sym (c_ "(")) pe) space) (sym (c_ ")"))).
Definition primary_expr : parser expr := palt constant (palt ident (palt p_string paren)).

(** parse.rs:148-152 *)
Inductive postfix_op : Type :=
| PFCall (args : list expr) | PFIndex (i : expr) | PFField (f : expr).

(** parse.rs:154-157 *)
Definition arg_list : parser (list expr) := plist pe (pright space (sym (c_ ","))).
Definition function_call : parser postfix_op :=
  pmap PFCall (pleft (pleft (pright (sym (c_ "(")) arg_list) space) (sym (c_ ")"))).
Definition array_index : parser postfix_op :=
  pmap PFIndex (pleft (pleft (pright (sym (c_ "[")) pe) space) (sym (c_ "]"))).
Definition field_access : parser postfix_op := pmap PFField (pright (sym (c_ ".")) ident).
(** parse.rs:162-180 *)
Definition apply_postfix (e : expr) (op : postfix_op) : expr :=
  match op with
  | PFCall args => ECall e args
  | PFIndex i => EIndex e i
  | PFField f => EField e f
  end.
Definition postfix_expr : parser expr :=
  pmap (fun x => fold_left apply_postfix (snd x) (fst x))
       (pseq primary_expr
             (prep (pright space (palt function_call (palt array_index field_access))))).

(** parse.rs:184-189 *)
Inductive unary_op : Type := UOp (o : unop) | UCast (ty : expr).
(** parse.rs:191-196 *)
Definition cast : parser unary_op :=
  pmap UCast (pleft (pleft (pright (pright (tag (s_ "(")) space) type_specifier) space) (tag (s_ ")"))).
Definition unary_ops : parser unary_op :=
  palt (pmap (fun _ => UOp UBitNot) (tag (s_ "~")))
  (palt (pmap (fun _ => UOp UNot) (tag (s_ "!")))
  (palt (pmap (fun _ => UOp UMinus) (tag (s_ "-"))) cast)).
(** parse.rs:200-220: operators are popped from the end, so the last one binds first *)
Definition apply_unary (op : unary_op) (e : expr) : expr :=
  match op with UOp o => EUn o e | UCast ty => ECast ty e end.
(** parse.rs:197 *)
Definition unary_expr : parser expr :=
  pmap (fun x => fold_right apply_unary (snd x) (fst x))
       (pseq (pleft (prep (pleft unary_ops space)) space) postfix_expr).

(** One precedence level: [next + (space * ops - space + next).repeat(0..)] folded to
    the left (parse.rs:223-287).  [ops] returns the operator directly instead of
    its text; the [panic!] arms for other texts are unreachable by construction. *)
Definition binary_level (ops : parser binop) (next : parser expr) : parser expr :=
  pmap (fun x => left_fold (fst x) (snd x))
       (pseq next (prep (pseq (pleft (pright space ops) space) next))).
Definition op_tag (s : str) (o : binop) : parser binop := pmap (fun _ => o) (tag s).

(** parse.rs:223-237 *)
Definition mult_ops : parser binop :=
  palt (op_tag (s_ "*") OMultiply) (palt (op_tag (s_ "/") ODivide) (op_tag (s_ "%") OModulo)).
Definition mult_expr : parser expr := binary_level mult_ops unary_expr.
(** parse.rs:239-252 *)
Definition add_ops : parser binop := palt (op_tag (s_ "+") OPlus) (op_tag (s_ "-") OMinus).
Definition add_expr : parser expr := binary_level add_ops mult_expr.
(** parse.rs:254-267 *)
Definition shift_ops : parser binop := palt (op_tag (s_ "<<") OLeftShift) (op_tag (s_ ">>") ORightShift).
Definition shift_expr : parser expr := binary_level shift_ops add_expr.
(** parse.rs:269-287 *)
Definition relation_ops : parser binop :=
  palt (op_tag (s_ "<=") OLessThanEquals) (palt (op_tag (s_ "<") OLessThan)
  (palt (op_tag (s_ ">=") OGreaterThanEquals) (op_tag (s_ ">") OGreaterThan))).
Definition relation_expr : parser expr := binary_level relation_ops shift_expr.
(** parse.rs:289-311: not chained *)
Definition eq_ops : parser binop := palt (op_tag (s_ "==") OEquals) (op_tag (s_ "!=") ONotEquals).
Definition eq_expr : parser expr :=
  pmap (fun x => match snd x with
                 | Some (o, r) => EBin o (fst x) r
                 | None => fst x
                 end)
       (pseq relation_expr (popt (pseq (pleft (pright space eq_ops) space) relation_expr))).
(** parse.rs:313-316: single operator levels, [left_fold_binop!] (parse.rs:44-58);
    [space * sym * space * next] *)
Definition single_level (sep : parser binop) (next : parser expr) : parser expr :=
  pmap (fun x => left_fold (fst x) (snd x))
       (pseq next (prep (pseq (pleft (pright space sep) space) next))).
Definition bit_and_expr : parser expr := single_level (pmap (fun _ => OBitAnd) (sym (c_ "&"))) eq_expr.
(** parse.rs:318-321 *)
Definition bit_xor_expr : parser expr := single_level (pmap (fun _ => OBitXor) (sym (c_ "^"))) bit_and_expr.
(** parse.rs:323-326 *)
Definition bit_or_expr : parser expr := single_level (pmap (fun _ => OBitOr) (sym (c_ "|"))) bit_xor_expr.
(** parse.rs:328-331 *)
Definition and_expr : parser expr := single_level (op_tag (s_ "&&") OLogicalAnd) bit_or_expr.
(** parse.rs:333-336 *)
Definition or_expr : parser expr := single_level (op_tag (s_ "||") OLogicalOr) and_expr.
End Expr.

(** parse.rs:341-343, with recursion budget f *)
Fixpoint p_expr_f (f : nat) : parser expr :=
  match f with
  | O => fun _ => PFuel
  | S f' => pright space (or_expr (p_expr_f f'))
  end.
Definition p_expr : parser expr := fun i => p_expr_f (S (length i)) i.

(** parse.rs:345-362 *)
Definition plus_equals : parser stmt :=
  pmap (fun x => SAssign (fst x) (EBin OPlus (fst x) (snd x)))
       (pseq (pleft (pleft p_expr space) (tag (s_ "+="))) p_expr).
Definition minus_equals : parser stmt :=
  pmap (fun x => SAssign (fst x) (EBin OMinus (fst x) (snd x)))
       (pseq (pleft (pleft p_expr space) (tag (s_ "-="))) p_expr).
Definition regular_assign : parser stmt :=
  pmap (fun x => SAssign (fst x) (snd x))
       (pseq (pleft (pleft p_expr space) (sym (c_ "="))) p_expr).
Definition assign_stmt : parser stmt := palt plus_equals (palt minus_equals regular_assign).

Section Stmt.
(** the recursive rule [stmts] *)
Variable pss : parser (list stmt).

(** [space - sym('}')] etc.: parse.rs:364-374 *)
Definition if_stmt : parser (expr * list stmt) :=
  pleft (pleft (pseq (pleft (pleft (pright (tag (s_ "if")) p_expr) space) (sym (c_ "{"))) pss) space)
        (sym (c_ "}")).
Definition else_stmt : parser (list stmt) :=
  pleft (pleft (pright (pright (pright (pright space (tag (s_ "else"))) space) (sym (c_ "{"))) pss) space)
        (sym (c_ "}")).
Definition if_else_stmt : parser stmt :=
  pmap (fun x => SIf (fst (fst x)) (snd (fst x))
                     (match snd x with Some fb => fb | None => [] end))
       (pseq if_stmt (popt else_stmt)).

(** parse.rs:376-390 *)
Definition while_stmt : parser stmt :=
  pmap (fun x => SWhile (fst x) (snd x))
       (pleft (pleft (pseq (pleft (pleft (pright (tag (s_ "while")) p_expr) space) (sym (c_ "{"))) pss) space)
              (sym (c_ "}"))).
Definition for_stmt : parser stmt :=
  pmap (fun x => SFor (fst (fst x)) (snd (fst x)) (snd x))
       (pleft (pleft
          (pseq
             (pleft (pleft
                (pseq
                   (pleft (pleft (pright (pright (tag (s_ "for")) space) ident) space) (tag (s_ "in")))
                   p_expr) space) (sym (c_ "{")))
             pss) space) (sym (c_ "}"))).
Definition block_stmt : parser stmt := palt if_else_stmt (palt while_stmt for_stmt).

(** parse.rs:392-395 *)
Definition jump_stmt : parser stmt :=
  palt (pmap (fun _ => SBreak) (tag (s_ "break"))) (pmap (fun _ => SContinue) (tag (s_ "continue"))).

(** parse.rs:397-406 *)
Definition filesystem_stmt : parser stmt :=
  pmap SFilesystem (pright (pright (tag (s_ "filesystem")) space) p_string).
Definition print_stmt : parser stmt := pright (tag (s_ "print")) (pmap SPrint p_expr).
Definition help_stmt : parser stmt := pmap (fun _ => SHelp) (tag (s_ "help")).
Definition quit_stmt : parser stmt := pmap (fun _ => SQuit) (tag (s_ "quit")).
Definition builtin_stmt : parser stmt :=
  palt filesystem_stmt (palt print_stmt (palt help_stmt quit_stmt)).

(** parse.rs:408-410 *)
Definition expr_stmt : parser stmt := pmap SExpr p_expr.

(** parse.rs:415-421 *)
Definition stmt_semicolon : parser stmt :=
  pleft (pleft (palt builtin_stmt (palt jump_stmt (palt assign_stmt expr_stmt))) space) (sym (c_ ";")).
Definition p_stmt : parser stmt :=
  pleft (pright space (palt stmt_semicolon block_stmt)) (prep (pright space (sym (c_ ";")))).
End Stmt.

(** parse.rs:426-428, with recursion budget f *)
Fixpoint p_stmts_f (f : nat) : parser (list stmt) :=
  match f with
  | O => fun _ => PFuel
  | S f' => prep (p_stmt (p_stmts_f f'))
  end.
Definition p_stmts : parser (list stmt) := fun i => p_stmts_f (S (length i)) i.

(** parse.rs:430-436 *)
Definition program : parser (list stmt) := pleft (pleft p_stmts space) pend.
Definition parse (input : str) : res (list stmt) :=
  match program input with
  | POk p _ => Ok p
  | PFail => Err EParse
  | PFuel => Fuel
  end.
