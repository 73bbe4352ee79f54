(** The step counter: erasing it gives the parser back; elementary facts. *)
From Verif Require Import Base Ast Pom Parse PomSteps ParseSteps Lib Proof_Parse.
Require Import Lia.
Arguments s_ s%string_scope.
Arguments c_ a%char_scope.

(** ** Erasure *)
Definition er {A} (p : cparser A) (q : parser A) : Prop := forall i, fst (p i) = q i.
Section Er.
Context {A B : Type}.
Lemma er_prim (p : parser A) : er (cprim p) p.
Proof. intros i. reflexivity. Qed.
Lemma er_lex tok (p : cparser A) q : er p q -> er (lexical tok p) q.
Proof. intros H i. rewrite <- H. unfold lexical. destruct (p i); reflexivity. Qed.
Lemma er_map (f : A -> B) p q : er p q -> er (cmap f p) (pmap f q).
Proof. intros H i. unfold cmap, pmap. rewrite <- H. destruct (p i) as [[| |] c]; reflexivity. Qed.
Lemma er_convert (f : A -> option B) p q : er p q -> er (cconvert p f) (pconvert q f).
Proof. intros H i. unfold cconvert, pconvert. rewrite <- H. destruct (p i) as [[| |] c]; reflexivity. Qed.
Lemma er_seq (p : cparser A) q (p' : cparser B) q' : er p q -> er p' q' -> er (cseq p p') (pseq q q').
Proof. intros H H' i. unfold cseq, pseq. rewrite <- H. destruct (p i) as [[a r| |] c]; try reflexivity. cbn [fst]. rewrite <- H'. destruct (p' r) as [[| |] c']; reflexivity. Qed.
Lemma er_alt (p : cparser A) q p' q' : er p q -> er p' q' -> er (calt p p') (palt q q').
Proof. intros H H' i. unfold calt, palt. rewrite <- H. destruct (p i) as [[a r| |] c]; try reflexivity. cbn [fst]. rewrite <- H'. destruct (p' i); reflexivity. Qed.
Lemma er_opt (p : cparser A) q : er p q -> er (copt p) (popt q).
Proof. intros H i. unfold copt, popt. rewrite <- H. destruct (p i) as [[| |] c]; reflexivity. Qed.
Lemma er_rep_n (p : cparser A) q n : er p q -> er (crep_n n p) (prep_n n q).
Proof.
  intros H. induction n as [|n IH]; intros i; [reflexivity|]. cbn [crep_n prep_n]. rewrite <- H. destruct (p i) as [[a r| |] c]; try reflexivity. cbn [fst]. rewrite <- IH. destruct (crep_n n p r) as [[| |] c']; reflexivity.
Qed.
Lemma er_rep (p : cparser A) q : er p q -> er (crep p) (prep q).
Proof. intros H i. apply er_rep_n. exact H. Qed.
Lemma er_collect (p : cparser A) q : er p q -> er (ccollect p) (pcollect q).
Proof. intros H i. unfold ccollect, pcollect. rewrite <- H. destruct (p i) as [[| |] c]; reflexivity. Qed.
End Er.
Lemma er_right {A B} (p : cparser A) q (p' : cparser B) q' : er p q -> er p' q' -> er (cright p p') (pright q q').
Proof. intros. apply er_map, er_seq; assumption. Qed.
Lemma er_left {A B} (p : cparser A) q (p' : cparser B) q' : er p q -> er p' q' -> er (cleft p p') (pleft q q').
Proof. intros. apply er_map, er_seq; assumption. Qed.
Lemma er_discard {A} (p : cparser A) q : er p q -> er (cdiscard p) (pdiscard q).
Proof. intros. apply er_map. assumption. Qed.
Lemma er_rep1 {A} (p : cparser A) q : er p q -> er (crep1 p) (prep1 q).
Proof. intros. apply er_convert, er_rep. assumption. Qed.
Lemma er_times {A} (p : cparser A) q n : er p q -> er (ctimes n p) (ptimes n q).
Proof. intros H. induction n as [|n IH]; [intros i; reflexivity|]. apply er_map, er_seq; assumption. Qed.
Lemma er_list {A B} (p : cparser A) q (p' : cparser B) q' : er p q -> er p' q' -> er (clist p p') (plist q q').
Proof.
  intros H H' i. unfold clist, plist. rewrite <- H. destruct (p i) as [[a r| |] c]; try reflexivity. cbn [fst].
  rewrite <- (er_rep _ _ (er_right _ _ _ _ H' H)). destruct (crep _ r) as [[| |] c']; reflexivity.
Qed.
Ltac er1 := match goal with
  | H : er ?p ?q |- er ?p ?q => exact H
  | |- er (cprim _) _ => apply er_prim
  | |- er (lexical _ _) _ => apply er_lex
  | |- er (calt _ _) _ => apply er_alt
  | |- er (copt _) _ => apply er_opt
  | |- er (crep1 _) _ => apply er_rep1
  | |- er (crep _) _ => apply er_rep
  | |- er (ctimes _ _) _ => apply er_times
  | |- er (cdiscard _) _ => apply er_discard
  | |- er (cright _ _) _ => apply er_right
  | |- er (cleft _ _) _ => apply er_left
  | |- er (clist _ _) _ => apply er_list
  | |- er (ccollect _) _ => apply er_collect
  | |- er (cconvert _ _) _ => apply er_convert
  | |- er (cmap _ _) _ => apply er_map
  | |- er (cseq _ _) _ => apply er_seq
  end.
Ltac er := repeat er1.
Section Rules.
Variable tok : bool.
Lemma er_space : er (k_space tok) space. Proof. unfold k_space, space. er. Qed.
Lemma er_string : er (k_p_string tok) p_string. Proof. unfold k_p_string, p_string. unfold k_char_string, char_string, k_utf16_string, utf16_string, k_utf16_char, utf16_char, k_escape_sequence, escape_sequence, k_special_char, special_char. er. Qed.
Lemma er_constant : er (k_constant tok) constant. Proof. unfold k_constant, constant, k_number, number, k_integer, integer. er. Qed.
Lemma er_ident : er (k_ident tok) ident. Proof. unfold k_ident, ident, k_ident_name, ident_name. er. Qed.
Lemma er_cast : er (k_cast tok) cast.
Proof. pose proof er_space. pose proof er_ident. unfold k_cast, cast, k_type_specifier, type_specifier. er. Qed.
Section Ex.
Variables (pe : cparser expr) (qe : parser expr).
Hypothesis He : er pe qe.
Lemma er_primary : er (k_primary_expr tok pe) (primary_expr qe).
Proof. pose proof er_space. pose proof er_constant. pose proof er_ident. pose proof er_string. unfold k_primary_expr, primary_expr, k_paren, paren. er. Qed.
Lemma er_postfix : er (k_postfix_expr tok pe) (postfix_expr qe).
Proof. pose proof er_space. pose proof er_primary. pose proof er_ident. unfold k_postfix_expr, postfix_expr, k_function_call, function_call, k_array_index, array_index, k_field_access, field_access, k_arg_list, arg_list. er. Qed.
Lemma er_unary : er (k_unary_expr tok pe) (unary_expr qe).
Proof. pose proof er_space. pose proof er_postfix. pose proof er_cast. unfold k_unary_expr, unary_expr, k_unary_ops, unary_ops. er. Qed.
Lemma er_level ops ops' next next' : er ops ops' -> er next next' -> er (k_binary_level tok ops next) (binary_level ops' next').
Proof. intros. pose proof er_space. unfold k_binary_level, binary_level. er. Qed.
Lemma er_level1 ops ops' next next' : er ops ops' -> er next next' -> er (k_single_level tok ops next) (single_level ops' next').
Proof. apply er_level. Qed.
Lemma er_or : er (k_or_expr tok pe) (or_expr qe).
Proof.
  unfold k_or_expr, or_expr, k_and_expr, and_expr, k_bit_or_expr, bit_or_expr, k_bit_xor_expr, bit_xor_expr, k_bit_and_expr, bit_and_expr.
  repeat (apply er_level1; [unfold k_op_tag, op_tag; er|]). unfold k_eq_expr, eq_expr.
  assert (er (k_relation_expr tok pe) (relation_expr qe)).
  { unfold k_relation_expr, relation_expr, k_shift_expr, shift_expr, k_add_expr, add_expr, k_mult_expr, mult_expr.
    repeat (apply er_level; [unfold k_relation_ops, relation_ops, k_shift_ops, shift_ops, k_add_ops, add_ops, k_mult_ops, mult_ops, k_op_tag, op_tag; er|]). apply er_unary. }
  pose proof er_space. unfold k_eq_ops, eq_ops, k_op_tag, op_tag. er.
Qed.
End Ex.
Lemma er_expr_f f : er (k_p_expr_f tok f) (p_expr_f f).
Proof. induction f as [|f IH]; [intros i; reflexivity|]. cbn [k_p_expr_f p_expr_f]. apply er_right; [apply er_space|]. apply er_or. exact IH. Qed.
Lemma er_expr : er (k_p_expr tok) p_expr.
Proof. intros i. exact (er_expr_f (S (length i)) i). Qed.
Lemma er_semicolon : er (k_stmt_semicolon tok) stmt_semicolon.
Proof.
  pose proof er_space. pose proof er_expr. pose proof er_string.
  unfold k_stmt_semicolon, stmt_semicolon, k_builtin_stmt, builtin_stmt, k_jump_stmt, jump_stmt, k_assign_stmt, assign_stmt, k_expr_stmt, expr_stmt, k_filesystem_stmt, filesystem_stmt, k_print_stmt, print_stmt, k_help_stmt, help_stmt, k_quit_stmt, quit_stmt, k_plus_equals, plus_equals, k_minus_equals, minus_equals, k_regular_assign, regular_assign.
  er.
Qed.
Lemma er_stmt ps qs : er ps qs -> er (k_p_stmt tok ps) (p_stmt qs).
Proof.
  intros Hs. pose proof er_space. pose proof er_semicolon. pose proof er_expr. pose proof er_ident.
  unfold k_p_stmt, p_stmt, k_block_stmt, block_stmt, k_if_else_stmt, if_else_stmt, k_if_stmt, if_stmt, k_else_stmt, else_stmt, k_while_stmt, while_stmt, k_for_stmt, for_stmt.
  er.
Qed.
Lemma er_stmts_f f : er (k_p_stmts_f tok f) (p_stmts_f f).
Proof. induction f as [|f IH]; [intros i; reflexivity|]. cbn [k_p_stmts_f p_stmts_f]. apply er_rep, er_stmt, IH. Qed.
Lemma er_program : er (k_program tok) program.
Proof. assert (er (k_p_stmts tok) p_stmts) by (intros i; exact (er_stmts_f (S (length i)) i)). pose proof er_space. unfold k_program, program. er. Qed.
End Rules.
