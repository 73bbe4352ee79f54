(** C89: parsing takes polynomially many steps, although the grammar backtracks.
    PomSteps and ParseSteps are the combinators and the grammar with a counter: every call of
    a combinator or of a character test is one step.  [parse_steps i] is the number of steps
    of parse on i; in [parse_rules i] the steps inside a token (name, constant, string, white
    space, cast) count as one. *)
From Verif Require Import Base Ast Pom Parse PomSteps ParseSteps Lib Proof_Parse Proof_Steps Proof_StepsExpr Proof_StepsOps Proof_StepsStmt Proof_StepsAll.
Require Import Lia.
Arguments s_ s%string_scope.
Open Scope Z_scope.
(** The counted parser is the parser: the result is that of [parse]. *)
Theorem C89_the_parser_is_counted :
  forall tok i, parse i = match fst (k_program tok i) with POk l _ => Ok l | PFail => Err EParse | PFuel => Fuel end.
Proof. intros tok i. rewrite (er_program tok i). reflexivity. Qed.
Print Assumptions C89_the_parser_is_counted.
(** An expression: the number of rules tried is linear in the length of the text, however it
    is nested and wherever the error is. *)
Theorem C89_expressions_are_linear :
  forall i, snd (k_p_expr true i) <= 10000 * zlen i + 4000.
Proof. apply expr_steps. Qed.
Print Assumptions C89_expressions_are_linear.
(** A program: the number of rules tried is at most quadratic. *)
Theorem C89_rules_are_quadratic :
  forall i, parse_rules i <= 200000 * (zlen i + 1) ^ 2.
Proof.
  intros i. pose proof (rules_bound i). pose proof (zlen_nonneg i). replace ((zlen i + 1) ^ 2) with ((zlen i + 1) * (zlen i + 1)) by ring.
  assert (20 * (10000 * zlen i + 4000) * (zlen i + 1) <= 200000 * ((zlen i + 1) * (zlen i + 1))) by nia. lia.
Qed.
Print Assumptions C89_rules_are_quadratic.
(** All steps: at most cubic.  So no text makes the interpreter hang in the parser. *)
Theorem C89_parsing_is_polynomial :
  forall i, parse_steps i <= 40000000 * (zlen i + 1) ^ 3.
Proof. apply steps_bound. Qed.
Print Assumptions C89_parsing_is_polynomial.
(** Accepted, nested to depth 1, 9, 17, 33, 65: the steps per level do not change. *)
Definition nested (n : nat) : str := repeat 40%N n ++ s_ "1" ++ repeat 41%N n ++ s_ ";".
(** rejected at the very end: every block and parenthesis is open *)
Definition open_blocks (n : nat) : str := concat (repeat (s_ "if a {") n).
Definition open_else (n : nat) : str := concat (repeat (s_ "if a {} else {") n).
Definition open_parens (n : nat) : str := repeat 40%N n.
Definition open_calls (n : nat) : str := concat (repeat (s_ "f(1,") n).
Example C89_example :
  map (fun n => parse_rules (nested n)) [1; 9; 17; 33; 65]%nat = [1944; 8312; 14680; 27416; 52888] /\
  map (fun n => parse_rules (open_blocks n)) [8; 16; 32]%nat = [8755; 17171; 34003] /\
  map (fun n => parse_rules (open_else n)) [8; 16; 32]%nat = [18227; 36115; 71891] /\
  map (fun n => parse_rules (open_parens n)) [8; 16; 32]%nat = [2163; 3987; 7635] /\
  map (fun n => parse_rules (open_calls n)) [8; 16; 32]%nat = [12767; 25215; 50111] /\
  map (fun n => parse_steps (nested n)) [8; 16; 32]%nat = [10076; 18652; 35804].
Proof. vm_compute. repeat split; reflexivity. Qed.
