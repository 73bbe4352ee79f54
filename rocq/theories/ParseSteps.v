(** The grammar of Parse.v (parse.rs:40-436), rule by rule, with the step counter of
    PomSteps.v.  Each rule k_x is the rule x of Parse.v, which gives the lines it models. *)
From Verif Require Import Base Ast Pom Parse PomSteps.
Arguments s_ s%string_scope.
Arguments c_ a%char_scope.
Section Steps.
(** count a token as one step? *)
Variable tok : bool.
(** parse.rs:80-82 *)
Definition k_space : cparser unit := lexical tok (cdiscard (crep (cprim (one_of space_chars)))).

(** ** string literals, parse.rs:84-112 *)

(** parse.rs:85-92 *)
Definition k_special_char : cparser N :=
  calt (cprim (sym 92)) (calt (cprim (sym 47)) (calt (cprim (sym 34))
  (calt (cmap (fun _ => 8%N) (cprim (sym (c_ "b"))))
  (calt (cmap (fun _ => 12%N) (cprim (sym (c_ "f"))))
  (calt (cmap (fun _ => 10%N) (cprim (sym (c_ "n"))))
  (calt (cmap (fun _ => 13%N) (cprim (sym (c_ "r"))))
        (cmap (fun _ => 9%N) (cprim (sym (c_ "t")))))))))).

(** parse.rs:93 *)
Definition k_escape_sequence : cparser N := cright (cprim (sym 92)) k_special_char.
(** parse.rs:94-96 *)
Definition k_char_string : cparser str := crep1 (calt (cprim (none_of [92; 34]%N)) k_escape_sequence).


(** parse.rs:97-101 *)
Definition k_utf16_char : cparser N :=
  cright (cprim (tag [92; 117]%N)) (cmap from_hex (ctimes 4 (cprim (is_a is_hex)))).

(** parse.rs:102-106 *)
Definition k_utf16_string : cparser str := cmap decode_utf16 (crep1 k_utf16_char).

(** parse.rs:107-111 *)
Definition k_p_string : cparser expr := lexical tok (cmap (fun ss => EStr (concat ss))
       (cleft (cright (cprim (sym 34)) (crep (calt k_char_string k_utf16_string))) (cprim (sym 34)))).

(** parse.rs:115 *)
Definition k_integer : cparser N := calt (cleft (cprim (one_of digits19)) (crep (cprim (one_of digits)))) (cprim (sym (c_ "0"))).
(** parse.rs:116-119 *)
Definition k_number : cparser Z := cconvert (ccollect (cseq (copt (cprim (sym (c_ "-")))) k_integer)) i128_from_str.
(** parse.rs:120-124 *)
Definition k_constant : cparser expr := lexical tok (calt (cmap EInt k_number)
  (calt (cmap (fun _ => EBool true) (cprim (tag (s_ "true"))))
        (cmap (fun _ => EBool false) (cprim (tag (s_ "false")))))).

Definition k_ident_name : cparser str := ccollect (cseq (cprim (is_a ident_start)) (crep (cprim (is_a ident_char)))).
Definition k_ident : cparser expr := lexical tok (cmap EIdent k_ident_name).

(** parse.rs:136-138 *)
Definition k_type_specifier : cparser expr := cmap snd (cseq (cleft (cprim (tag (s_ "struct"))) k_space) k_ident).

Section Expr.
(** the recursive rule [expr] *)
Variable pe : cparser expr.

(** parse.rs:140-145 *)
Definition k_paren : cparser expr := cmap EParen (cleft (cleft (cright (cprim (sym (c_ "("))) pe) k_space) (cprim (sym (c_ ")")))).
Definition k_primary_expr : cparser expr := calt k_constant (calt k_ident (calt k_p_string k_paren)).


(** parse.rs:154-157 *)
Definition k_arg_list : cparser (list expr) := clist pe (cright k_space (cprim (sym (c_ ",")))).
Definition k_function_call : cparser postfix_op :=
  cmap PFCall (cleft (cleft (cright (cprim (sym (c_ "("))) k_arg_list) k_space) (cprim (sym (c_ ")")))).
Definition k_array_index : cparser postfix_op :=
  cmap PFIndex (cleft (cleft (cright (cprim (sym (c_ "["))) pe) k_space) (cprim (sym (c_ "]")))).
Definition k_field_access : cparser postfix_op := cmap PFField (cright (cprim (sym (c_ "."))) k_ident).
Definition k_postfix_expr : cparser expr :=
  cmap (fun x => fold_left apply_postfix (snd x) (fst x))
       (cseq k_primary_expr
             (crep (cright k_space (calt k_function_call (calt k_array_index k_field_access))))).

(** parse.rs:191-196 *)
Definition k_cast : cparser unary_op := lexical tok (cmap UCast (cleft (cleft (cright (cright (cprim (tag (s_ "("))) k_space) k_type_specifier) k_space) (cprim (tag (s_ ")"))))).
Definition k_unary_ops : cparser unary_op :=
  calt (cmap (fun _ => UOp UBitNot) (cprim (tag (s_ "~"))))
  (calt (cmap (fun _ => UOp UNot) (cprim (tag (s_ "!"))))
  (calt (cmap (fun _ => UOp UMinus) (cprim (tag (s_ "-")))) k_cast)).
(** parse.rs:197 *)
Definition k_unary_expr : cparser expr :=
  cmap (fun x => fold_right apply_unary (snd x) (fst x))
       (cseq (cleft (crep (cleft k_unary_ops k_space)) k_space) k_postfix_expr).

(** One precedence level: [next + (space * ops - space + next).repeat(0..)] folded to
    the left (parse.rs:223-287).  [ops] returns the operator directly instead of
    its text; the [panic!] arms for other texts are unreachable by construction. *)
Definition k_binary_level (ops : cparser binop) (next : cparser expr) : cparser expr :=
  cmap (fun x => left_fold (fst x) (snd x))
       (cseq next (crep (cseq (cleft (cright k_space ops) k_space) next))).
Definition k_op_tag (s : str) (o : binop) : cparser binop := cmap (fun _ => o) (cprim (tag s)).

(** parse.rs:223-237 *)
Definition k_mult_ops : cparser binop :=
  calt (k_op_tag (s_ "*") OMultiply) (calt (k_op_tag (s_ "/") ODivide) (k_op_tag (s_ "%") OModulo)).
Definition k_mult_expr : cparser expr := k_binary_level k_mult_ops k_unary_expr.
(** parse.rs:239-252 *)
Definition k_add_ops : cparser binop := calt (k_op_tag (s_ "+") OPlus) (k_op_tag (s_ "-") OMinus).
Definition k_add_expr : cparser expr := k_binary_level k_add_ops k_mult_expr.
(** parse.rs:254-267 *)
Definition k_shift_ops : cparser binop := calt (k_op_tag (s_ "<<") OLeftShift) (k_op_tag (s_ ">>") ORightShift).
Definition k_shift_expr : cparser expr := k_binary_level k_shift_ops k_add_expr.
(** parse.rs:269-287 *)
Definition k_relation_ops : cparser binop :=
  calt (k_op_tag (s_ "<=") OLessThanEquals) (calt (k_op_tag (s_ "<") OLessThan)
  (calt (k_op_tag (s_ ">=") OGreaterThanEquals) (k_op_tag (s_ ">") OGreaterThan))).
Definition k_relation_expr : cparser expr := k_binary_level k_relation_ops k_shift_expr.
(** parse.rs:289-311: not chained *)
Definition k_eq_ops : cparser binop := calt (k_op_tag (s_ "==") OEquals) (k_op_tag (s_ "!=") ONotEquals).
Definition k_eq_expr : cparser expr :=
  cmap (fun x => match snd x with
                 | Some (o, r) => EBin o (fst x) r
                 | None => fst x
                 end)
       (cseq k_relation_expr (copt (cseq (cleft (cright k_space k_eq_ops) k_space) k_relation_expr))).
(** parse.rs:313-316: single operator levels, [left_fold_binop!] (parse.rs:44-58);
    [space * sym * space * next] *)
Definition k_single_level (sep : cparser binop) (next : cparser expr) : cparser expr :=
  cmap (fun x => left_fold (fst x) (snd x))
       (cseq next (crep (cseq (cleft (cright k_space sep) k_space) next))).
Definition k_bit_and_expr : cparser expr := k_single_level (cmap (fun _ => OBitAnd) (cprim (sym (c_ "&")))) k_eq_expr.
(** parse.rs:318-321 *)
Definition k_bit_xor_expr : cparser expr := k_single_level (cmap (fun _ => OBitXor) (cprim (sym (c_ "^")))) k_bit_and_expr.
(** parse.rs:323-326 *)
Definition k_bit_or_expr : cparser expr := k_single_level (cmap (fun _ => OBitOr) (cprim (sym (c_ "|")))) k_bit_xor_expr.
(** parse.rs:328-331 *)
Definition k_and_expr : cparser expr := k_single_level (k_op_tag (s_ "&&") OLogicalAnd) k_bit_or_expr.
(** parse.rs:333-336 *)
Definition k_or_expr : cparser expr := k_single_level (k_op_tag (s_ "||") OLogicalOr) k_and_expr.
End Expr.

(** parse.rs:341-343, with recursion budget f *)
Fixpoint k_p_expr_f (f : nat) : cparser expr :=
  match f with
  | O => fun _ => (PFuel, 1%Z)
  | S f' => cright k_space (k_or_expr (k_p_expr_f f'))
  end.
Definition k_p_expr : cparser expr := fun i => k_p_expr_f (S (length i)) i.

(** parse.rs:345-362 *)
Definition k_plus_equals : cparser stmt :=
  cmap (fun x => SAssign (fst x) (EBin OPlus (fst x) (snd x)))
       (cseq (cleft (cleft k_p_expr k_space) (cprim (tag (s_ "+=")))) k_p_expr).
Definition k_minus_equals : cparser stmt :=
  cmap (fun x => SAssign (fst x) (EBin OMinus (fst x) (snd x)))
       (cseq (cleft (cleft k_p_expr k_space) (cprim (tag (s_ "-=")))) k_p_expr).
Definition k_regular_assign : cparser stmt :=
  cmap (fun x => SAssign (fst x) (snd x))
       (cseq (cleft (cleft k_p_expr k_space) (cprim (sym (c_ "=")))) k_p_expr).
Definition k_assign_stmt : cparser stmt := calt k_plus_equals (calt k_minus_equals k_regular_assign).

Section Stmt.
(** the recursive rule [stmts] *)
Variable pss : cparser (list stmt).

(** [space - sym('}')] etc.: parse.rs:364-374 *)
Definition k_if_stmt : cparser (expr * list stmt) :=
  cleft (cleft (cseq (cleft (cleft (cright (cprim (tag (s_ "if"))) k_p_expr) k_space) (cprim (sym (c_ "{")))) pss) k_space)
        (cprim (sym (c_ "}"))).
Definition k_else_stmt : cparser (list stmt) :=
  cleft (cleft (cright (cright (cright (cright k_space (cprim (tag (s_ "else")))) k_space) (cprim (sym (c_ "{")))) pss) k_space)
        (cprim (sym (c_ "}"))).
Definition k_if_else_stmt : cparser stmt :=
  cmap (fun x => SIf (fst (fst x)) (snd (fst x))
                     (match snd x with Some fb => fb | None => [] end))
       (cseq k_if_stmt (copt k_else_stmt)).

(** parse.rs:376-390 *)
Definition k_while_stmt : cparser stmt :=
  cmap (fun x => SWhile (fst x) (snd x))
       (cleft (cleft (cseq (cleft (cleft (cright (cprim (tag (s_ "while"))) k_p_expr) k_space) (cprim (sym (c_ "{")))) pss) k_space)
              (cprim (sym (c_ "}")))).
Definition k_for_stmt : cparser stmt :=
  cmap (fun x => SFor (fst (fst x)) (snd (fst x)) (snd x))
       (cleft (cleft
          (cseq
             (cleft (cleft
                (cseq
                   (cleft (cleft (cright (cright (cprim (tag (s_ "for"))) k_space) k_ident) k_space) (cprim (tag (s_ "in"))))
                   k_p_expr) k_space) (cprim (sym (c_ "{"))))
             pss) k_space) (cprim (sym (c_ "}")))).
Definition k_block_stmt : cparser stmt := calt k_if_else_stmt (calt k_while_stmt k_for_stmt).

(** parse.rs:392-395 *)
Definition k_jump_stmt : cparser stmt :=
  calt (cmap (fun _ => SBreak) (cprim (tag (s_ "break")))) (cmap (fun _ => SContinue) (cprim (tag (s_ "continue")))).

(** parse.rs:397-406 *)
Definition k_filesystem_stmt : cparser stmt :=
  cmap SFilesystem (cright (cright (cprim (tag (s_ "filesystem"))) k_space) k_p_string).
Definition k_print_stmt : cparser stmt := cright (cprim (tag (s_ "print"))) (cmap SPrint k_p_expr).
Definition k_help_stmt : cparser stmt := cmap (fun _ => SHelp) (cprim (tag (s_ "help"))).
Definition k_quit_stmt : cparser stmt := cmap (fun _ => SQuit) (cprim (tag (s_ "quit"))).
Definition k_builtin_stmt : cparser stmt :=
  calt k_filesystem_stmt (calt k_print_stmt (calt k_help_stmt k_quit_stmt)).

(** parse.rs:408-410 *)
Definition k_expr_stmt : cparser stmt := cmap SExpr k_p_expr.

(** parse.rs:415-421 *)
Definition k_stmt_semicolon : cparser stmt :=
  cleft (cleft (calt k_builtin_stmt (calt k_jump_stmt (calt k_assign_stmt k_expr_stmt))) k_space) (cprim (sym (c_ ";"))).
Definition k_p_stmt : cparser stmt :=
  cleft (cright k_space (calt k_stmt_semicolon k_block_stmt)) (crep (cright k_space (cprim (sym (c_ ";"))))).
End Stmt.

(** parse.rs:426-428, with recursion budget f *)
Fixpoint k_p_stmts_f (f : nat) : cparser (list stmt) :=
  match f with
  | O => fun _ => (PFuel, 1%Z)
  | S f' => crep (k_p_stmt (k_p_stmts_f f'))
  end.
Definition k_p_stmts : cparser (list stmt) := fun i => k_p_stmts_f (S (length i)) i.

(** parse.rs:430-436 *)
Definition k_program : cparser (list stmt) := cleft (cleft k_p_stmts k_space) (cprim pend).
End Steps.
(** the number of steps of [parse] (parse.rs:434-436): all steps, and with whole tokens
    counted as one step each *)
Definition parse_steps (input : str) : Z := snd (k_program false input).
Definition parse_rules (input : str) : Z := snd (k_program true input).
