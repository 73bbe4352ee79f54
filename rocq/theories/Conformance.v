(** Conformance: the repository's own unit tests, run on the model.

    Every [#[test]] of /repo/src (parse.rs, semantics.rs, eval.rs, value.rs, structs.rs,
    input.rs, definitions.rs) is transcribed, datum by datum, and evaluated by the
    kernel on the model's definitions.  These are tests, not proofs of properties: they are
    evidence that the model computes what the code's authors say the code computes.
    The data of parse.rs and eval.rs are translated mechanically. *)
From Verif Require Import Base Ast Pom Parse Structs Definitions Value Variables Semantics Fs Eval Input Demo.
Import ListNotations.

(** ** parse.rs *)
(** [assert_eq!(p.parse(input), Ok(e))]: pom does not require the whole input to be read *)
Definition yields {A} (p : parser A) (i : str) (a : A) : Prop :=
  match p i with POk b _ => b = a | _ => False end.
(** [assert!(p.parse(input).is_err())] *)
Definition fails {A} (p : parser A) (i : str) : Prop :=
  match p i with PFail => True | _ => False end.
(** [assert_eq!(p.parse(i), p.parse(j))] *)
Definition same {A} (p : parser A) (i j : str) : Prop :=
  match p i, p j with POk a _, POk b _ => a = b | _, _ => False end.

(** parse.rs:441-457, [test_string] *)
Example test_string_1 :
  yields p_string (s_ """hello world""") (EStr (s_ "hello world")) /\
  yields p_string (s_ """hello world\n""") (EStr [104; 101; 108; 108; 111; 32; 119; 111; 114; 108; 100; 10]%N) /\
  yields p_string (s_ """hello world\t""") (EStr [104; 101; 108; 108; 111; 32; 119; 111; 114; 108; 100; 9]%N) /\
  yields p_string (s_ """   hello world "" ") (EStr (s_ "   hello world ")) /\
  yields p_string [34; 10084; 34]%N (EStr [10084]%N).
Proof. vm_compute; repeat split; reflexivity. Qed.

(** parse.rs:460-465, [test_string] *)
Example test_string_2 :
  fails p_string (s_ "hello world""") /\
  fails p_string (s_ "hello world") /\
  fails p_string (s_ "23423s").
Proof. vm_compute; repeat split; reflexivity. Qed.

(** parse.rs:472-489, [test_constant] *)
Example test_constant_1 :
  yields constant (s_ "0") (EInt (0)%Z) /\
  yields constant (s_ "-0") (EInt (0)%Z) /\
  yields constant (s_ "2342") (EInt (2342)%Z) /\
  yields constant (s_ "-2342") (EInt (-2342)%Z) /\
  yields constant (s_ "false") (EBool false) /\
  yields constant (s_ "true") (EBool true).
Proof. vm_compute; repeat split; reflexivity. Qed.

(** parse.rs:492-497, [test_constant] *)
Example test_constant_2 :
  fails constant (s_ "abc") /\
  fails constant (s_ "c3") /\
  fails constant (s_ "-----") /\
  fails constant (s_ "+234").
Proof. vm_compute; repeat split; reflexivity. Qed.

(** parse.rs:504-548, [test_primary_expr] *)
Example test_primary_expr_1 :
  yields (primary_expr p_expr) (s_ "asdf") (EIdent (s_ "asdf")) /\
  yields (primary_expr p_expr) (s_ "_var1") (EIdent (s_ "_var1")) /\
  yields (primary_expr p_expr) (s_ "42") (EInt (42)%Z) /\
  yields (primary_expr p_expr) (s_ "(true)") (EParen (EBool true)) /\
  yields (primary_expr p_expr) (s_ "(false)") (EParen (EBool false)) /\
  yields (primary_expr p_expr) (s_ "(""var3"")") (EParen (EStr (s_ "var3"))).
Proof. vm_compute; repeat split; reflexivity. Qed.

(** parse.rs:551-556, [test_primary_expr] *)
Example test_primary_expr_2 :
  fails p_expr (s_ "$var1") /\
  fails p_expr [10084]%N /\
  fails p_expr (s_ "?") /\
  fails p_expr (s_ "=").
Proof. vm_compute; repeat split; reflexivity. Qed.

(** parse.rs:563-700, [test_postfix_expr] *)
Example test_postfix_expr_1 :
  yields p_expr (s_ "foo()") (ECall (EIdent (s_ "foo")) []) /\
  yields p_expr (s_ "foo(1)") (ECall (EIdent (s_ "foo")) [(EInt (1)%Z)]) /\
  yields p_expr (s_ "func123(""string"")") (ECall (EIdent (s_ "func123")) [(EStr (s_ "string"))]) /\
  yields p_expr (s_ "func123(""string"", 342)") (ECall (EIdent (s_ "func123")) [(EStr (s_ "string")); (EInt (342)%Z)]) /\
  yields p_expr (s_ "func123(""string"", 342, x + y)") (ECall (EIdent (s_ "func123")) [(EStr (s_ "string")); (EInt (342)%Z); (EBin OPlus (EIdent (s_ "x")) (EIdent (s_ "y")))]) /\
  yields p_expr (s_ "foo[3]") (EIndex (EIdent (s_ "foo")) (EInt (3)%Z)) /\
  yields p_expr (s_ "foo[3 + x]") (EIndex (EIdent (s_ "foo")) (EBin OPlus (EInt (3)%Z) (EIdent (s_ "x")))) /\
  yields p_expr (s_ "foo.y.z") (EField (EField (EIdent (s_ "foo")) (EIdent (s_ "y"))) (EIdent (s_ "z"))) /\
  yields p_expr (s_ "foo(y).z[3]") (EIndex (EField (ECall (EIdent (s_ "foo")) [(EIdent (s_ "y"))]) (EIdent (s_ "z"))) (EInt (3)%Z)).
Proof. vm_compute; repeat split; reflexivity. Qed.

(** parse.rs:707-919, [test_arith_expr] *)
Example test_arith_expr_1 :
  yields p_expr (s_ "1 + 2") (EBin OPlus (EInt (1)%Z) (EInt (2)%Z)) /\
  yields p_expr (s_ "1 - 2") (EBin OMinus (EInt (1)%Z) (EInt (2)%Z)) /\
  yields p_expr (s_ "1 + 2 + 3") (EBin OPlus (EBin OPlus (EInt (1)%Z) (EInt (2)%Z)) (EInt (3)%Z)) /\
  yields p_expr (s_ "1 + 2 - 3") (EBin OMinus (EBin OPlus (EInt (1)%Z) (EInt (2)%Z)) (EInt (3)%Z)) /\
  yields p_expr (s_ "1 + 2 * 3") (EBin OPlus (EInt (1)%Z) (EBin OMultiply (EInt (2)%Z) (EInt (3)%Z))) /\
  yields p_expr (s_ "1 + 2 * 3 / 4") (EBin OPlus (EInt (1)%Z) (EBin ODivide (EBin OMultiply (EInt (2)%Z) (EInt (3)%Z)) (EInt (4)%Z))) /\
  yields p_expr (s_ "(1 + 2)") (EParen (EBin OPlus (EInt (1)%Z) (EInt (2)%Z))) /\
  yields p_expr (s_ "1 + (2 + 3)") (EBin OPlus (EInt (1)%Z) (EParen (EBin OPlus (EInt (2)%Z) (EInt (3)%Z)))) /\
  yields p_expr (s_ "1 ^ 2 & 3 | 4") (EBin OBitOr (EBin OBitXor (EInt (1)%Z) (EBin OBitAnd (EInt (2)%Z) (EInt (3)%Z))) (EInt (4)%Z)) /\
  yields p_expr (s_ "5 % 2 % 1") (EBin OModulo (EBin OModulo (EInt (5)%Z) (EInt (2)%Z)) (EInt (1)%Z)) /\
  yields p_expr (s_ "1 + 2 * 3 / 4 ^ 5 & 6") (EBin OBitXor (EBin OPlus (EInt (1)%Z) (EBin ODivide (EBin OMultiply (EInt (2)%Z) (EInt (3)%Z)) (EInt (4)%Z))) (EBin OBitAnd (EInt (5)%Z) (EInt (6)%Z))) /\
  yields p_expr (s_ "1 << 2 >> 3") (EBin ORightShift (EBin OLeftShift (EInt (1)%Z) (EInt (2)%Z)) (EInt (3)%Z)).
Proof. vm_compute; repeat split; reflexivity. Qed.

(** parse.rs:926-1041, [test_logic_expr] *)
Example test_logic_expr_1 :
  yields p_expr (s_ "1 || 2") (EBin OLogicalOr (EInt (1)%Z) (EInt (2)%Z)) /\
  yields p_expr (s_ "1 || 2 || 3") (EBin OLogicalOr (EBin OLogicalOr (EInt (1)%Z) (EInt (2)%Z)) (EInt (3)%Z)) /\
  yields p_expr (s_ "1 || 2 && 3") (EBin OLogicalOr (EInt (1)%Z) (EBin OLogicalAnd (EInt (2)%Z) (EInt (3)%Z))) /\
  yields p_expr (s_ "1 == 2 && 3 != 4") (EBin OLogicalAnd (EBin OEquals (EInt (1)%Z) (EInt (2)%Z)) (EBin ONotEquals (EInt (3)%Z) (EInt (4)%Z))) /\
  yields p_expr (s_ "1 < 2 && 3 <= 4 || 5 > 6 && 7 >= 8") (EBin OLogicalOr (EBin OLogicalAnd (EBin OLessThan (EInt (1)%Z) (EInt (2)%Z)) (EBin OLessThanEquals (EInt (3)%Z) (EInt (4)%Z))) (EBin OLogicalAnd (EBin OGreaterThan (EInt (5)%Z) (EInt (6)%Z)) (EBin OGreaterThanEquals (EInt (7)%Z) (EInt (8)%Z)))).
Proof. vm_compute; repeat split; reflexivity. Qed.

(** parse.rs:1048-1110, [test_unary_expr] *)
Example test_unary_expr_1 :
  yields p_expr (s_ "~!-5") (EUn UBitNot (EUn UNot (EUn UMinus (EInt (5)%Z)))) /\
  yields p_expr (s_ "(struct foo) 123") (ECast (EIdent (s_ "foo")) (EInt (123)%Z)) /\
  yields p_expr (s_ "(struct foo) !!123") (ECast (EIdent (s_ "foo")) (EUn UNot (EUn UNot (EInt (123)%Z)))) /\
  yields p_expr (s_ "(struct foo)(struct bar)(123)") (ECast (EIdent (s_ "foo")) (ECast (EIdent (s_ "bar")) (EParen (EInt (123)%Z)))).
Proof. vm_compute; repeat split; reflexivity. Qed.

(** parse.rs:1113-1118, [test_unary_expr] *)
Example test_unary_expr_2 :
  fails p_expr (s_ "=2") /\
  fails p_expr (s_ "/3+4") /\
  fails p_expr (s_ "$$").
Proof. vm_compute; repeat split; reflexivity. Qed.

(** parse.rs:1125-1152, [test_writespace_ignored_expr] *)
Example test_writespace_ignored_expr_1 :
  same p_expr (s_ " ~ ! -   5") (s_ "~!-5") /\
  same p_expr (s_ "1<2&&3   <=4        ||  5>6&&7>=8") (s_ "1 < 2 && 3 <= 4 || 5 > 6 && 7 >= 8") /\
  same p_expr (s_ "1<2&&3   <=4        ||  5>6&&7>=8") (s_ "1 < 2 && 3 <= 4 || 5 > 6 && 7 >= 8") /\
  same p_expr (s_ " 1<<2>>  3") (s_ "1 << 2 >> 3") /\
  same p_expr (s_ " func  ( 123   )") (s_ "func(123)") /\
  same p_expr (s_ "func  ( 123   ).field [99]") (s_ "func(123).field[99]") /\
  same p_expr (s_ "func123(  ""string""  ,   342   , x + y)") (s_ "func123(""string"", 342, x + y)") /\
  same p_expr (s_ "func123(""string"",342,x+y)") (s_ "func123(""string"", 342, x + y)").
Proof. vm_compute; repeat split; reflexivity. Qed.

(** parse.rs:1159-1293, [test_block_stmt] *)
Example test_block_stmt_1 :
  yields (p_stmt p_stmts) (s_ "for x in y { 1; }") (SFor (EIdent (s_ "x")) (EIdent (s_ "y")) [(SExpr (EInt (1)%Z))]) /\
  yields (p_stmt p_stmts) (s_ "while true { 1; }") (SWhile (EBool true) [(SExpr (EInt (1)%Z))]) /\
  yields (p_stmt p_stmts) (s_ "while false { break; continue; }") (SWhile (EBool false) [SBreak; SContinue]) /\
  yields (p_stmt p_stmts) (s_ "while (true) { 1; }") (SWhile (EParen (EBool true)) [(SExpr (EInt (1)%Z))]) /\
  yields (p_stmt p_stmts) (s_ "if true { 1; }") (SIf (EBool true) [(SExpr (EInt (1)%Z))] []) /\
  yields (p_stmt p_stmts) (s_ "if (true) { 1; }") (SIf (EParen (EBool true)) [(SExpr (EInt (1)%Z))] []) /\
  yields (p_stmt p_stmts) (s_ "if true { 1; } else { 2; }") (SIf (EBool true) [(SExpr (EInt (1)%Z))] [(SExpr (EInt (2)%Z))]) /\
  yields (p_stmt p_stmts) (s_ "if true { if false { 1; } } else { 2; }") (SIf (EBool true) [(SIf (EBool false) [(SExpr (EInt (1)%Z))] [])] [(SExpr (EInt (2)%Z))]).
Proof. vm_compute; repeat split; reflexivity. Qed.

(** parse.rs:1296-1313, [test_block_stmt] *)
Example test_block_stmt_2 :
  fails (p_stmt p_stmts) (s_ "while false 1;") /\
  fails (p_stmt p_stmts) (s_ "while false { 1;") /\
  fails (p_stmt p_stmts) (s_ "while false  1; }") /\
  fails (p_stmt p_stmts) (s_ "for (x) in y { 1; }") /\
  fails (p_stmt p_stmts) (s_ "for ""str"" in y { 1; }") /\
  fails (p_stmt p_stmts) (s_ "for x+y in z { 1; }") /\
  fails (p_stmt p_stmts) (s_ "for x+y in z 1; }") /\
  fails (p_stmt p_stmts) (s_ "for x+y z { 1; }") /\
  fails (p_stmt p_stmts) (s_ "for x in y { 1 }") /\
  fails (p_stmt p_stmts) (s_ "if true 1; else 2;") /\
  fails (p_stmt p_stmts) (s_ "if if true { 1; }").
Proof. vm_compute; repeat split; reflexivity. Qed.

(** parse.rs:1320-1406, [test_assign_stmt] *)
Example test_assign_stmt_1 :
  yields (p_stmt p_stmts) (s_ "x = y;") (SAssign (EIdent (s_ "x")) (EIdent (s_ "y"))) /\
  yields (p_stmt p_stmts) (s_ "x = 1 + 2;") (SAssign (EIdent (s_ "x")) (EBin OPlus (EInt (1)%Z) (EInt (2)%Z))) /\
  yields (p_stmt p_stmts) (s_ "x += 1;") (SAssign (EIdent (s_ "x")) (EBin OPlus (EIdent (s_ "x")) (EInt (1)%Z))) /\
  yields (p_stmt p_stmts) (s_ "x -= 1;") (SAssign (EIdent (s_ "x")) (EBin OMinus (EIdent (s_ "x")) (EInt (1)%Z))) /\
  yields (p_stmt p_stmts) (s_ "x += 1 + 2;") (SAssign (EIdent (s_ "x")) (EBin OPlus (EIdent (s_ "x")) (EBin OPlus (EInt (1)%Z) (EInt (2)%Z)))).
Proof. vm_compute; repeat split; reflexivity. Qed.

(** parse.rs:1409-1414, [test_assign_stmt] *)
Example test_assign_stmt_2 :
  fails (p_stmt p_stmts) (s_ "x = y = z").
Proof. vm_compute; repeat split; reflexivity. Qed.

(** parse.rs:1421-1443, [test_builtin_stmt] *)
Example test_builtin_stmt_1 :
  yields (p_stmt p_stmts) (s_ "quit;") SQuit /\
  yields (p_stmt p_stmts) (s_ "help;") SHelp /\
  yields (p_stmt p_stmts) (s_ "print x;") (SPrint (EIdent (s_ "x"))) /\
  yields (p_stmt p_stmts) (s_ "filesystem ""/mnt/btrfs"";") (SFilesystem (EStr (s_ "/mnt/btrfs"))).
Proof. vm_compute; repeat split; reflexivity. Qed.

(** parse.rs:1446-1451, [test_builtin_stmt] *)
Example test_builtin_stmt_2 :
  fails (p_stmt p_stmts) (s_ "filesystem foo;") /\
  fails (p_stmt p_stmts) (s_ "filesystem quit;").
Proof. vm_compute; repeat split; reflexivity. Qed.

(** parse.rs:1458-1506, [test_program] *)
Example test_program_1 :
  yields program (s_ "x = 3; if x { x = 5; } print x;") [(SAssign (EIdent (s_ "x")) (EInt (3)%Z)); (SIf (EIdent (s_ "x")) [(SAssign (EIdent (s_ "x")) (EInt (5)%Z))] []); (SPrint (EIdent (s_ "x")))] /\
  yields program (s_ "x = 3;;;;") [(SAssign (EIdent (s_ "x")) (EInt (3)%Z))].
Proof. vm_compute; repeat split; reflexivity. Qed.

(** parse.rs:1513-1517, [test_program] *)
Example test_program_2 :
  fails program (s_ "if true { 1; } else else false;") /\
  fails program (s_ "1 + 2") /\
  fails program (s_ "quit alas;").
Proof. vm_compute; repeat split; reflexivity. Qed.

(** ** eval.rs *)
(** [Eval::new(&mut output, false)], outside a btrfs filesystem *)
Definition start (oc : bool) : est := eval_new (demo_env oc).
(** with a variable inserted first *)
Definition start_with (x : str) (v : value) (oc : bool) : est :=
  let s := start oc in
  match vars_insert x v (e_vars s) with Some vs => with_vars s vs | None => s end.
Definition run (oc interactive : bool) (s : est) (input : str) : option (est * eres) :=
  match parse input with
  | Ok l => Some (eval_prog 300 (demo_env oc) interactive s l)
  | _ => None
  end.
(** evaluation ends in [EvalResult::Ok] with exactly this output *)
Definition prints (oc : bool) (s : bool -> est) (input out : str) : Prop :=
  match run oc false (s oc) input with
  | Some (s', ROk) => w_out (e_w s') = out
  | _ => False
  end.
Definition succeeds (oc : bool) (s : bool -> est) (input : str) : Prop :=
  match run oc false (s oc) input with Some (_, ROk) => True | _ => False end.
Definition errs (oc : bool) (s : bool -> est) (input : str) : Prop :=
  match run oc false (s oc) input with Some (_, RErr _) => True | _ => False end.

(** eval.rs:845-895, [test_expression] *)
Example test_expression_1 : forall oc,
  prints oc (start) (s_ "print ~8;") [45; 57; 10]%N /\
  prints oc (start) (s_ "print -8;") [45; 56; 10]%N /\
  prints oc (start) (s_ "print !8;") [102; 97; 108; 115; 101; 10]%N /\
  prints oc (start) (s_ "print !0;") [116; 114; 117; 101; 10]%N /\
  prints oc (start) (s_ "print !!8;") [116; 114; 117; 101; 10]%N /\
  prints oc (start) (s_ "print 5 + 5;") [49; 48; 10]%N /\
  prints oc (start) (s_ "print 100 -3;") [57; 55; 10]%N /\
  prints oc (start) (s_ "print 100* 3;") [51; 48; 48; 10]%N /\
  prints oc (start) (s_ "print 99 / 3;") [51; 51; 10]%N /\
  prints oc (start) (s_ "print 100 / 3;") [51; 51; 10]%N /\
  prints oc (start) (s_ "print 100 % 3;") [49; 10]%N /\
  prints oc (start) (s_ "print 1 == 1;") [116; 114; 117; 101; 10]%N /\
  prints oc (start) (s_ "print true == false;") [102; 97; 108; 115; 101; 10]%N /\
  prints oc (start) (s_ "print true != false;") [116; 114; 117; 101; 10]%N /\
  prints oc (start) (s_ "print true != false && 2 == 2;") [116; 114; 117; 101; 10]%N /\
  prints oc (start) (s_ "print true != false && 2 != 2;") [102; 97; 108; 115; 101; 10]%N /\
  prints oc (start) (s_ "print true != false || 2 != 2;") [116; 114; 117; 101; 10]%N /\
  prints oc (start) (s_ "print 7 & 1;") [49; 10]%N /\
  prints oc (start) (s_ "print 0 | 1 | 2;") [51; 10]%N /\
  prints oc (start) (s_ "print 1 ^ 2;") [51; 10]%N /\
  prints oc (start) (s_ "print 1 << 2;") [52; 10]%N /\
  prints oc (start) (s_ "print 1 << 3;") [56; 10]%N /\
  prints oc (start) (s_ "print 1 < 3;") [116; 114; 117; 101; 10]%N /\
  prints oc (start) (s_ "print 3 <= 3;") [116; 114; 117; 101; 10]%N /\
  prints oc (start) (s_ "print 3 > 3;") [102; 97; 108; 115; 101; 10]%N /\
  prints oc (start) (s_ "print 3 >= 3;") [116; 114; 117; 101; 10]%N /\
  prints oc (start) (s_ "print !1;") [102; 97; 108; 115; 101; 10]%N /\
  prints oc (start) (s_ "print !!1;") [116; 114; 117; 101; 10]%N /\
  prints oc (start) (s_ "print !!!!!5;") [102; 97; 108; 115; 101; 10]%N /\
  prints oc (start) (s_ "print ~1;") [45; 50; 10]%N /\
  prints oc (start) (s_ "print -~~~5;") [54; 10]%N /\
  prints oc (start) (s_ "print --5;") [53; 10]%N.
Proof. intros [|]; vm_compute; repeat split; reflexivity. Qed.

(** eval.rs:895-927, [test_expression] *)
Example test_expression_2 : forall oc,
  errs oc (start) (s_ "!""str"";") /\
  errs oc (start) (s_ "~""asdf"";") /\
  errs oc (start) (s_ "~true;") /\
  errs oc (start) (s_ "-""str"";") /\
  errs oc (start) (s_ "-true;") /\
  errs oc (start) (s_ "true + 3;") /\
  errs oc (start) (s_ """string"" * false;") /\
  errs oc (start) (s_ """string"" / 1234;") /\
  errs oc (start) (s_ """string"" % 1234;") /\
  errs oc (start) (s_ "true && 3;") /\
  errs oc (start) (s_ "false || 3;") /\
  errs oc (start) (s_ "false | 3;") /\
  errs oc (start) (s_ "3 & true;") /\
  errs oc (start) (s_ "3 ^ true;") /\
  errs oc (start) (s_ "1 << ""asdf"";") /\
  errs oc (start) (s_ "true >> 3;") /\
  errs oc (start) (s_ "1 < ""str"";") /\
  errs oc (start) (s_ "1 > ""str"";") /\
  errs oc (start) (s_ "1 >= ""str"";") /\
  errs oc (start) (s_ "1 <= ""str"";").
Proof. intros [|]; vm_compute; repeat split; reflexivity. Qed.

(** eval.rs:932-956, [test_if] *)
Example test_if_1 : forall oc,
  prints oc (start) (s_ "x = 3; if x == 3 { print ""yep""; }") [121; 101; 112; 10]%N /\
  prints oc (start) (s_ "x = 3; if x != 3 { print ""nope""; } else { print ""yep""; }") [121; 101; 112; 10]%N /\
  prints oc (start) (s_ "x = 3; if x != 3 { print ""nope""; } else { print ""yep""; if x == 3 { x = 4; } } print x;") [121; 101; 112; 10; 52; 10]%N.
Proof. intros [|]; vm_compute; repeat split; reflexivity. Qed.

(** eval.rs:961-978, [test_loop] *)
Example test_loop_1 : forall oc,
  prints oc (start) (s_ "x = 0; while x < 5 { if x == 3 { print x; break; } x = x + 1; }") [51; 10]%N.
Proof. intros [|]; vm_compute; repeat split; reflexivity. Qed.

(** eval.rs:995-1046, [test_function_key] *)
Example test_function_key_1 : forall oc,
  prints oc (start) (s_ "k = key(0, 1, 2, 3); print k.min_objectid;") [48; 10]%N /\
  prints oc (start) (s_ "k = key(0, 1, 2, 3); print k.min_type;") [49; 10]%N /\
  prints oc (start) (s_ "k = key(0, 1, 2, 3); print k.min_offset;") [50; 10]%N /\
  prints oc (start) (s_ "k = key(0, 1, 2, 3); print k.min_transid;") [51; 10]%N /\
  prints oc (start) (s_ "k = key(0, 1, 2, 3); print k.max_objectid;") [49; 56; 52; 52; 54; 55; 52; 52; 48; 55; 51; 55; 48; 57; 53; 53; 49; 54; 49; 53; 10]%N /\
  prints oc (start) (s_ "k = key(0, 1, 2, 3); print k.max_type;") [50; 53; 53; 10]%N /\
  prints oc (start) (s_ "k = key(0, 1, 2, 3); print k.max_offset;") [49; 56; 52; 52; 54; 55; 52; 52; 48; 55; 51; 55; 48; 57; 53; 53; 49; 54; 49; 53; 10]%N /\
  prints oc (start) (s_ "k = key(0, 1, 2, 3); print k.max_transid;") [49; 56; 52; 52; 54; 55; 52; 52; 48; 55; 51; 55; 48; 57; 53; 53; 49; 54; 49; 53; 10]%N /\
  prints oc (start) (s_ "k = key(0, 1, 2, 3); k.min_type = 33; print k.min_type;") [51; 51; 10]%N.
Proof. intros [|]; vm_compute; repeat split; reflexivity. Qed.

(** eval.rs:1051-1073, [test_function_typeof] *)
Example test_function_typeof_1 : forall oc,
  prints oc (start) (s_ "k = key(0, 1, 2, 3); print typeof(k);") [115; 116; 114; 117; 99; 116; 32; 95; 98; 116; 114; 102; 115; 95; 105; 111; 99; 116; 108; 95; 115; 101; 97; 114; 99; 104; 95; 107; 101; 121; 10]%N /\
  prints oc (start) (s_ "k = 1; print typeof(k);") [105; 110; 116; 101; 103; 101; 114; 10]%N /\
  prints oc (start) (s_ "k = false; print typeof(k);") [98; 111; 111; 108; 101; 97; 110; 10]%N /\
  prints oc (start) (s_ "k = ""str""; print typeof(k);") [115; 116; 114; 105; 110; 103; 10]%N.
Proof. intros [|]; vm_compute; repeat split; reflexivity. Qed.

(** eval.rs:1078-1116, [test_array] *)
Example test_array_1 : forall oc,
  prints oc (start_with (s_ "arr") (VArr [VInt 3; VInt 5; VStr (s_ "asdf")] false)) (s_ "print arr[0];") [51; 10]%N /\
  prints oc (start_with (s_ "arr") (VArr [VInt 3; VInt 5; VStr (s_ "asdf")] false)) (s_ "print arr[1];") [53; 10]%N /\
  prints oc (start_with (s_ "arr") (VArr [VInt 3; VInt 5; VStr (s_ "asdf")] false)) (s_ "print arr[2];") [97; 115; 100; 102; 10]%N /\
  prints oc (start_with (s_ "arr") (VArr [VInt 3; VInt 5; VStr (s_ "asdf")] false)) (s_ "print len(arr);") [51; 10]%N /\
  prints oc (start_with (s_ "arr") (VArr [VInt 3; VInt 5; VStr (s_ "asdf")] false)) (s_ "arr += 99; print len(arr); print arr[3];") [52; 10; 57; 57; 10]%N /\
  prints oc (start_with (s_ "arr") (VArr [VInt 3; VInt 5; VStr (s_ "asdf")] false)) (s_ "for v in arr { print v; }") [51; 10; 53; 10; 97; 115; 100; 102; 10]%N.
Proof. intros [|]; vm_compute; repeat split; reflexivity. Qed.

(** eval.rs:1122-1135, [test_logical_lazy_eval] *)
Example test_logical_lazy_eval_1 : forall oc,
  succeeds oc (start) (s_ "if false && (""string"" + 3) { 1; }") /\
  succeeds oc (start) (s_ "if true || (""string"" + 3) { 1; }").
Proof. intros [|]; vm_compute; repeat split; reflexivity. Qed.

(** eval.rs:1140-1164, [test_string_concat] *)
Example test_string_concat_1 : forall oc,
  prints oc (start) (s_ "print ""one"" + ""two"";") [111; 110; 101; 116; 119; 111; 10]%N /\
  prints oc (start) (s_ "print ""one"" + ""two"" + ""three"";") [111; 110; 101; 116; 119; 111; 116; 104; 114; 101; 101; 10]%N /\
  prints oc (start) (s_ "s = ""one""; ss = ""two""; print (s + ss);") [111; 110; 101; 116; 119; 111; 10]%N.
Proof. intros [|]; vm_compute; repeat split; reflexivity. Qed.

(** eval.rs:1169-1190, [test_function_str] *)
Example test_function_str_1 : forall oc,
  prints oc (start) (s_ "print str(1);") [49; 10]%N /\
  prints oc (start) (s_ "print str(1+3);") [52; 10]%N /\
  prints oc (start) (s_ "print str(""str"");") [115; 116; 114; 10]%N /\
  prints oc (start) (s_ "print str(true);") [116; 114; 117; 101; 10]%N /\
  prints oc (start) (s_ "print str(str);") [115; 116; 114; 40; 41; 10]%N /\
  prints oc (start) (s_ "print str(hist());") [91; 10; 93; 10]%N.
Proof. intros [|]; vm_compute; repeat split; reflexivity. Qed.

(** eval.rs:1195-1236, [test_lossless_string] *)
Example test_lossless_string_1 : forall oc,
  prints oc (start_with (s_ "binstring") (VStr [0; 1; 2; 128]%N)) (s_ "print ""string\n"";") [115; 116; 114; 105; 110; 103; 10; 10]%N /\
  prints oc (start_with (s_ "binstring") (VStr [0; 1; 2; 128]%N)) (s_ "print ""string\r\t"";") [115; 116; 114; 105; 110; 103; 13; 9; 10]%N /\
  prints oc (start_with (s_ "binstring") (VStr [0; 1; 2; 128]%N)) (s_ "print str(""string\r\t"");") [115; 116; 114; 105; 110; 103; 13; 9; 10]%N /\
  prints oc (start_with (s_ "binstring") (VStr [0; 1; 2; 128]%N)) (s_ "print binstring;") [92; 120; 48; 48; 92; 120; 48; 49; 92; 120; 48; 50; 92; 120; 56; 48; 10]%N /\
  prints oc (start_with (s_ "binstring") (VStr [0; 1; 2; 128]%N)) (s_ "print str(binstring);") [92; 120; 48; 48; 92; 120; 48; 49; 92; 120; 48; 50; 92; 120; 56; 48; 10]%N /\
  prints oc (start_with (s_ "binstring") (VStr [0; 1; 2; 128]%N)) (s_ "print str(binstring) + ""\n"";") [92; 120; 48; 48; 92; 120; 48; 49; 92; 120; 48; 50; 92; 120; 56; 48; 10; 10]%N.
Proof. intros [|]; vm_compute; repeat split; reflexivity. Qed.

(** eval.rs:982-991, [test_interactive] *)
Example test_interactive : forall oc,
  match run oc true (start oc) (s_ "2+3;") with
  | Some (s', ROk) => w_out (e_w s') = s_ "5" ++ nl
  | _ => False
  end.
Proof. intros [|]; vm_compute; reflexivity. Qed.

(** ** semantics.rs *)
Definition accepted (input : str) : Prop :=
  match parse input with
  | Ok l => match snd (analyze sem_new l) with Ok _ => True | _ => False end
  | _ => False
  end.
Definition rejected (input : str) : Prop :=
  match parse input with
  | Ok l => match snd (analyze sem_new l) with Err _ => True | _ => False end
  | _ => False
  end.

(** semantics.rs:265-300, [test_jump_outside_loop] *)
Example test_jump_outside_loop :
  rejected (nl ++ s_ "            break;" ++ nl ++ s_ "        ") /\
  rejected (nl ++ s_ "            continue;" ++ nl ++ s_ "        ") /\
  accepted (nl ++ s_ "            while true {" ++ nl ++ s_ "                break;" ++ nl ++ s_ "                continue;" ++ nl ++ s_ "            }" ++ nl ++ s_ "        ") /\
  accepted (nl ++ s_ "            for i in true {" ++ nl ++ s_ "                break;" ++ nl ++ s_ "                continue;" ++ nl ++ s_ "            }" ++ nl ++ s_ "        ").
Proof. vm_compute; repeat split; reflexivity. Qed.

(** semantics.rs:303-344, [test_variable_scope] *)
Example test_variable_scope :
  rejected (nl ++ s_ "            while true {" ++ nl ++ s_ "                inner_var = 3;" ++ nl ++ s_ "            }" ++ nl ++ s_ "            outer_var = inner_var;" ++ nl ++ s_ "        ") /\
  rejected (nl ++ s_ "            for i in true {" ++ nl ++ s_ "                inner_var = 3;" ++ nl ++ s_ "            }" ++ nl ++ s_ "            outer_var = inner_var;" ++ nl ++ s_ "        ") /\
  accepted (nl ++ s_ "            while true {" ++ nl ++ s_ "                inner_var = 3;" ++ nl ++ s_ "                inner_var = 4;" ++ nl ++ s_ "            }" ++ nl ++ s_ "        ") /\
  accepted (nl ++ s_ "            for i in true {" ++ nl ++ s_ "                inner_var = 3;" ++ nl ++ s_ "                inner_var2 = inner_var;" ++ nl ++ s_ "            }" ++ nl ++ s_ "        ").
Proof. vm_compute; repeat split; reflexivity. Qed.

(** semantics.rs:347-360, [test_builtin] *)
Example test_builtin :
  accepted (nl ++ s_ "            help;" ++ nl ++ s_ "            quit;" ++ nl ++ s_ "            filesystem ""/mnt/asdf/waa"";" ++ nl ++ s_ "            print 3;" ++ nl ++ s_ "            print true;" ++ nl ++ s_ "            print ""asdf"";" ++ nl ++ s_ "        ").
Proof. vm_compute; repeat split; reflexivity. Qed.

(** semantics.rs:363-378, [test_type_cast] *)
Example test_type_cast :
  accepted (nl ++ s_ "            (struct btrfs_key) 1;" ++ nl ++ s_ "        ") /\
  rejected (nl ++ s_ "            (struct btrfs_keyz) 1;" ++ nl ++ s_ "        ").
Proof. vm_compute; repeat split; reflexivity. Qed.

(** ** input.rs *)
Definition bs : str := [92%N].
(** input.rs:67-79, [test_strip_comments] *)
Example test_strip_comments :
  strip_comments (s_ "asdf") = s_ "asdf" /\
  strip_comments (s_ "asdf #comment") = s_ "asdf " /\
  strip_comments (s_ "asdf#comment") = s_ "asdf" /\
  strip_comments (s_ """string#notcomment""") = s_ """string#notcomment""" /\
  strip_comments (s_ """string\#notcomment""") = s_ """string\#notcomment""".
Proof. vm_compute; repeat split. Qed.
(** input.rs:82-89, [test_fixup_input] *)
Example test_fixup_input :
  fixup_input (s_ "asdf " ++ bs ++ nl ++ s_ "me") = s_ "asdf  me;" /\
  fixup_input (s_ "asdf " ++ bs ++ s_ " " ++ nl ++ s_ "me") = s_ "asdf " ++ bs ++ s_ " " ++ nl ++ s_ "me;" /\
  fixup_input (s_ "asdf " ++ bs ++ s_ " " ++ nl ++ s_ "me;") = s_ "asdf " ++ bs ++ s_ " " ++ nl ++ s_ "me;" /\
  fixup_input (s_ "meline") = s_ "meline;" /\
  fixup_input (s_ "meline;") = s_ "meline;" /\
  fixup_input (s_ "meline ;  ") = s_ "meline ;  ".
Proof. vm_compute; repeat split. Qed.

(** ** structs.rs *)
Definition foo : ty := TStruct (s_ "foo") km_none [fld "f1" TU32; fld "f2" TU8].
(** structs.rs:138-292, [test_type_size] *)
Example test_type_size :
  map ty_size
    [TU8; TU32; TU64; TArray TU8 5; TArray TU32 5; foo; TArray foo 4;
     TUnion (s_ "foo") [fld "f1" TU32; fld "f2" TU8; fld "f3" TU64];
     TStruct (s_ "foo") km_none
       [fld "f1" (TUnion (s_ "union_one") [fld "f1" TU32; fld "f1" TU8]);
        fld "f2" (TUnion (s_ "union_two") [fld "f1" TU8; fld "f1" TU16])];
     TStruct (s_ "bar") km_none [fld "f1" TU32; fld "f2" foo]]
  = [1; 4; 8; 5; 20; 5; 20; 8; 6; 9]%Z.
Proof. vm_compute; reflexivity. Qed.

(** ** value.rs *)
(** value.rs:560-571, [test_previous_power_2] *)
Example test_previous_power_2 :
  map (previous_power_2 300) [0; 1; 3; 5; 2049; -2049; -2048; -1; -3; -4]%Z
  = map (fun z => Ok (Some z)) [0; 1; 2; 4; 2048; -4096; -2048; -1; -4; -4]%Z.
Proof. vm_compute; reflexivity. Qed.
(** value.rs:574-583, [test_next_power_2] *)
Example test_next_power_2 :
  map (next_power_2 300) [0; 1; 2; 3; 5; -1; -3; -4]%Z
  = map (fun z => Ok (Some z)) [1; 2; 4; 4; 8; 0; -2; -2]%Z.
Proof. vm_compute; reflexivity. Qed.
(** value.rs:586-594, [test_num_bytes_to_pretty] *)
Example test_num_bytes_to_pretty : forall oc,
  map (num_bytes_to_pretty 300 oc)
    [0; 8; 4096; Z.shiftl 4 20; Z.shiftl 8 30; Z.shiftl 16 40; Z.shiftl (-16) 40]%Z
  = map Ok [s_ "0"; s_ "8"; s_ "4K"; s_ "4M"; s_ "8G"; s_ "16T"; s_ "-16T"].
Proof. intros [|]; vm_compute; reflexivity. Qed.

(** The bytes of a little-endian integer of [n] bytes ([any_as_u8_slice] of a packed field). *)
Fixpoint raw (n : nat) (z : Z) : str :=
  match n with O => [] | S n' => Z.to_N (z mod 256) :: raw n' (z / 256) end.
Definition some_struct (fs : list field) : strct := mk_strct (s_ "some_struct") km_none fs.
Definition reads (oc : bool) (fs : list field) (bytes : str) (r : list (str * value)) : Prop :=
  from_bytes oc (some_struct fs) None bytes = Ok (VStruct (s_ "some_struct") None r).
Definition two_fields : list field := [fld "one" TU64; fld "two" TU32].
(** value.rs:603-1137, [test_struct_deserialize], its seven cases in order *)
Example test_struct_deserialize : forall oc,
  reads oc [fld "one" TU64; fld "two" TU32; fld "three" TU16; fld "four" TU8]
    (raw 8 11111 ++ raw 4 2222 ++ raw 2 333 ++ raw 1 4)
    [(s_ "one", VInt 11111); (s_ "two", VInt 2222); (s_ "three", VInt 333); (s_ "four", VInt 4)] /\
  reads oc [fld "one" (TArray TU32 5); fld "two" TU64]
    (raw 4 666 ++ raw 4 555 ++ raw 4 444 ++ raw 4 333 ++ raw 4 222 ++ raw 8 11111)
    [(s_ "one", VArr [VInt 666; VInt 555; VInt 444; VInt 333; VInt 222] false); (s_ "two", VInt 11111)] /\
  reads oc [anon (TStruct (s_ "_anon_struct") km_none
                    [fld "one" TU64; fld "two" TU64;
                     fld "inner" (TStruct (s_ "inner_struct") km_none [fld "three" TU8])])]
    (raw 8 12345 ++ raw 8 543210 ++ raw 1 3)
    [(s_ "one", VInt 12345); (s_ "two", VInt 543210);
     (s_ "inner", VStruct (s_ "inner_struct") None [(s_ "three", VInt 3)])] /\
  reads oc [anon (TUnion (s_ "_anon_union")
                    [fld "one" TU64;
                     anon (TStruct (s_ "_anon_struct") km_none [fld "two" TU64; fld "three" TU64])])]
    (raw 8 88888888888 ++ raw 8 7777777777777)
    [(s_ "one", VInt 88888888888); (s_ "two", VInt 88888888888); (s_ "three", VInt 7777777777777)] /\
  reads oc [fld "name_1_len" TU16; fld "name_2_len" TU16;
            fld "name1" (TTrailStr (s_ "name_1_len")); fld "name2" (TTrailStr (s_ "name_2_len"))]
    (raw 2 5 ++ raw 2 7 ++ s_ "hello" ++ s_ "world12")
    [(s_ "name_1_len", VInt 5); (s_ "name_2_len", VInt 7);
     (s_ "name1", VStr (s_ "hello")); (s_ "name2", VStr (s_ "world12"))] /\
  reads oc [fld "boo" TU16; fld "nr_trailing" TU16;
            fld "trailing" (TTrailTypes (TStruct (s_ "trailing_struct") km_none two_fields) (s_ "nr_trailing"))]
    (raw 2 5 ++ raw 2 2 ++ raw 8 1 ++ raw 4 2 ++ raw 8 (2 ^ 64 - 1) ++ raw 4 (2 ^ 32 - 1))
    [(s_ "boo", VInt 5); (s_ "nr_trailing", VInt 2);
     (s_ "trailing",
      VArr [VStruct (s_ "trailing_struct") None [(s_ "one", VInt 1); (s_ "two", VInt 2)];
            VStruct (s_ "trailing_struct") None
              [(s_ "one", VInt (2 ^ 64 - 1)); (s_ "two", VInt (2 ^ 32 - 1))]] false)] /\
  reads oc [fld "_" (TDyn (fun _ => Ok two_fields))]
    (raw 8 11111 ++ raw 4 2222)
    [(s_ "one", VInt 11111); (s_ "two", VInt 2222)].
Proof. intros [|]; vm_compute; repeat split; reflexivity. Qed.

(** ** definitions.rs *)
Fixpoint distinct (l : list str) : bool :=
  match l with [] => true | x :: r => negb (existsb (str_eqb x) r) && distinct r end.
(** definitions.rs:1440-1446, [test_constant_names_unique] *)
Example test_constant_names_unique : distinct (map fst CONSTANTS) = true.
Proof. vm_compute; reflexivity. Qed.
(** [recurse_fields]: the names met, or [None] when an anonymous field is neither a struct, a
    union nor dynamic *)
Fixpoint names_of (t : ty) : option (list str) :=
  let fix go (l : list (option str * ty)) : option (list str) :=
    match l with
    | [] => Some []
    | (n, t) :: r =>
      match (match n with Some x => Some [x] | None => names_of t end), go r with
      | Some a, Some b => Some (a ++ b)
      | _, _ => None
      end
    end in
  match t with
  | TStruct _ _ fs => go fs
  | TUnion _ fs => go fs
  | TDyn _ => Some []
  | _ => None
  end.
(** definitions.rs:1449-1470, [test_struct_field_names_unique] *)
Example test_struct_field_names_unique :
  forallb (fun s => match names_of (ty_of s) with Some l => distinct l | None => false end) STRUCTS = true.
Proof. vm_compute; reflexivity. Qed.
(** definitions.rs:1473-1479, [test_struct_names_unique] *)
Example test_struct_names_unique : distinct (map st_name STRUCTS) = true.
Proof. vm_compute; reflexivity. Qed.
(** definitions.rs:1482-1496, [test_only_anon_struct_unions_or_dynamicstruct] *)
Example test_only_anon_struct_unions_or_dynamicstruct :
  forallb (fun s => forallb (fun f : field =>
    match fst f, snd f with
    | Some _, _ => true
    | None, (TStruct _ _ _ | TUnion _ _ | TDyn _) => true
    | None, _ => false
    end) (st_fields s)) STRUCTS = true.
Proof. vm_compute; reflexivity. Qed.
(** definitions.rs:1499-1516, [test_trailing_fields_exist] *)
Example test_trailing_fields_exist :
  forallb (fun s => forallb (fun f : field =>
    match snd f with
    | TTrailStr n | TTrailTypes _ n =>
      existsb (fun g : field =>
        match fst g with Some m => str_eqb m n | None => false end &&
        match snd g with TU8 | TU16 | TU32 | TU64 => true | _ => false end) (st_fields s)
    | _ => true
    end) (st_fields s)) STRUCTS = true.
Proof. vm_compute; reflexivity. Qed.

(** ** README.md *)
(** README.md:15-28: the key of the demo, as printed (the README shows a further blank line,
    which the code does not write) *)
Example readme_key : forall oc,
  prints oc start
    (s_ "k = key(BTRFS_DEV_TREE_OBJECTID, BTRFS_ROOT_ITEM_KEY, 0, 0); print k;")
    (s_ "struct _btrfs_ioctl_search_key {" ++ nl
     ++ s_ "    .min_objectid = 4," ++ nl
     ++ s_ "    .max_objectid = 18446744073709551615," ++ nl
     ++ s_ "    .min_type = 132," ++ nl
     ++ s_ "    .max_type = 255," ++ nl
     ++ s_ "    .min_offset = 0," ++ nl
     ++ s_ "    .max_offset = 18446744073709551615," ++ nl
     ++ s_ "    .min_transid = 0," ++ nl
     ++ s_ "    .max_transid = 18446744073709551615," ++ nl
     ++ s_ "}" ++ nl).
Proof. intros [|]; vm_compute; reflexivity. Qed.
