(** C48, C49, C50, C56: texts and the programs they denote.
    The grammar is Spec_Grammar.v, canonical texts are Spec_Render.v. *)
From Verif Require Import Base Ast Pom Parse Value Variables Semantics Fs Eval Runtime Lib Demo Spec_Grammar Spec_Run Spec_Render Proof_Text Proof_Pom Proof_Parse Proof_Complete
  Proof_Complete2 Proof_Complete3 Proof_Render Proof_Syntax.
Require Import Lia.
Arguments s_ s%string_scope.

(** ** C48 *)
(** rendering and parsing gives the program back *)
Theorem C48_render_then_parse :
  forall prog, wf_stmts unambiguous_start prog -> parse (render_program prog) = Ok prog.
Proof. exact parse_render. Qed.
Print Assumptions C48_render_then_parse.

(** so does any other layout: whitespace, redundant semicolons, escapes in strings *)
Theorem C48_every_layout :
  forall text prog, g_program unambiguous_start text prog -> parse text = Ok prog.
Proof. exact parse_complete. Qed.
Print Assumptions C48_every_layout.

(** well-formedness excludes nothing the parser can yield, except that an assignment or
    expression statement must not begin with print *)
Theorem C48_parse_yields_well_formed :
  forall text prog, parse text = Ok prog -> wf_stmts unreserved prog.
Proof. exact parse_wf. Qed.
Print Assumptions C48_parse_yields_well_formed.

(** hence no text of the grammar has two meanings *)
Theorem C48_unambiguous :
  forall text p q, g_program unambiguous_start text p -> g_program unambiguous_start text q -> p = q.
Proof. intros text p q Hp Hq. apply parse_complete in Hp. apply parse_complete in Hq. congruence. Qed.
Print Assumptions C48_unambiguous.

Definition C48_prog : list stmt :=
  [SIf (EBin OEquals (EIdent (s_ "x")) (EUn UMinus (EInt 1)))
       [SPrint (EBin OMinus (EBin OMinus (EInt 3) (EInt 2)) (EParen (EBin OMinus (EInt 1) (EInt 0))))]
       [SFor (EIdent (s_ "i")) (ECall (EIdent (s_ "f")) [EInt 1; EStr [34; 92; 10; 233]%N])
             [SAssign (EIndex (EField (EIdent (s_ "a")) (EIdent (s_ "b"))) (EInt 0)) (EBin OPlus (EIndex (EField (EIdent (s_ "a")) (EIdent (s_ "b"))) (EInt 0)) (EInt 7));
              SBreak]]].
Ltac idn := constructor; [unfold letter; lia|try apply Forall_nil].
Ltac nob := intros [? ?]; discriminate.
Ltac wfs := repeat first [apply wfs_nil | apply wfs_cons | apply wf_if | apply wf_for | apply wf_print | apply wf_break | apply wf_assign
  | apply wf_nil | apply wf_cons | apply wf_int | apply wf_str | apply wf_call | apply wf_index | apply wf_field | apply wf_paren | apply wf_un
  | apply wf_ident | (apply wf_eq; [| |reflexivity| |]) | apply wf_bin | idn | nob | lia | discriminate].
Example C48_example : wf_stmts unambiguous_start C48_prog /\
  render_program C48_prog = s_ "if x == -1 {print 3 - 2 - (1 - 0);} else {for i in f(1, ""\""\\" ++ [10; 233]%N ++ s_ """) {a.b[0] += 7;break;}}".
Proof.
  split; [|vm_compute; reflexivity]. unfold C48_prog. change (s_ "x") with [120%N]. change (s_ "i") with [105%N]. change (s_ "a") with [97%N]. change (s_ "b") with [98%N].
  change (s_ "f") with [102%N]. wfs; cbn; unfold postfix_level, unary_level, primary_level; try lia.
  repeat split; nob.
Qed.

(** ** C49 *)
(** Refuted: an identifier that begins with a reserved word is not usable. *)
Theorem C49_any_identifier_refuted :
  identifier (s_ "printer") /\ parse (s_ "printer = 5;") = Err EParse /\ parse (s_ "printer;") = Ok [SPrint (EIdent (s_ "er"))] /\
  identifier (s_ "truest") /\ parse (s_ "truest = 5;") = Err EParse.
Proof.
  assert (I1 : identifier (s_ "printer")) by (constructor; [unfold letter; cbn; lia|]; lets).
  assert (I2 : identifier (s_ "truest")) by (constructor; [unfold letter; cbn; lia|]; lets).
  split; [exact I1|]. split; [vm_compute; reflexivity|]. split; [vm_compute; reflexivity|]. split; [exact I2|vm_compute; reflexivity].
Qed.
Print Assumptions C49_any_identifier_refuted.
(** No text at all is parsed as an assignment to (or a statement reading) a variable whose
    name begins with one of these words; this holds for statements inside blocks too. *)
Theorem C49_reserved_prefixes_refuted :
  forall text prog k x,
    parse text = Ok prog -> In k [s_ "true"; s_ "false"; s_ "help"; s_ "quit"; s_ "break"; s_ "continue"] -> begins k x ->
    (forall e, ~ In (SAssign (EIdent x) e) prog) /\ ~ In (SExpr (EIdent x)) prog.
Proof.
  intros text prog k x P Hk B. apply parse_wf in P.
  assert (X : forall st, In st prog -> wf_stmt unreserved st).
  { induction P as [|st l H Hl IH]; [intros ? []|]. intros st' [<-|Hin]; auto. }
  assert (Y : wf (EIdent x) -> unreserved x -> False).
  { intros W (U1 & U2 & U3 & U4). inversion W; subst. cbn in Hk. destruct Hk as [<-|[<-|[<-|[<-|[<-|[<-|[]]]]]]]; tauto. }
  split.
  - intros e Hin. apply X in Hin. inversion Hin; subst; auto.
  - intros Hin. apply X in Hin. inversion Hin; subst; auto.
Qed.
Print Assumptions C49_reserved_prefixes_refuted.
(** Every other identifier is. *)
Theorem C49_other_identifiers_partial :
  forall x s e,
    identifier x ->
    (forall k, In k [s_ "true"; s_ "false"; s_ "print"; s_ "help"; s_ "quit"; s_ "break"; s_ "continue"] -> ~ begins k x) ->
    g_full s e ->
    parse (x ++ s_ " =" ++ s ++ s_ ";") = Ok [SAssign (EIdent x) e] /\ parse (x ++ s_ ";") = Ok [SExpr (EIdent x)].
Proof. intros x s e H1 H2 He. split; [apply assign_name|apply read_name]; try split; assumption. Qed.
Print Assumptions C49_other_identifiers_partial.
Example C49_example : parse (s_ "_if9 = 3;") = Ok [SAssign (EIdent (s_ "_if9")) (EInt 3)] /\ parse (s_ "iffy;") = Ok [SExpr (EIdent (s_ "iffy"))].
Proof. vm_compute. split; reflexivity. Qed.

(** ** C50 *)
(** The two commands have the same result and leave the same runtime in every state and
    environment.  [st] is the text of the target (binding at least as tightly as the
    operator, as identifiers, members and elements do), [se] that of the right side; the
    excluded case is that "(se)" is read as a cast because se is an identifier that begins
    with struct. *)
Theorem C50_compound_assignment_is_its_expansion :
  forall n E interactive r st t se e o,
    o = OPlus \/ o = OMinus -> unambiguous_start st -> g_expr 8 st t -> g_expr 0 se e ->
    (forall x, e = EIdent (s_ "struct" ++ x) -> ~ identifier x) ->
    rt_eval n E interactive r (st ++ s_ " " ++ op_text o ++ s_ "= " ++ se ++ s_ ";") =
    rt_eval n E interactive r (st ++ s_ " = " ++ st ++ s_ " " ++ op_text o ++ s_ " (" ++ se ++ s_ ");").
Proof. intros. eapply compound_effect; eassumption. Qed.
Print Assumptions C50_compound_assignment_is_its_expansion.
(** the expansion itself, for every layout-free text *)
Theorem C50_compound_assignment_parses :
  forall st t se e o, o = OPlus \/ o = OMinus -> unambiguous_start st -> g_expr 0 st t -> g_expr 0 se e ->
    parse (st ++ s_ " " ++ op_text o ++ s_ "= " ++ se ++ s_ ";") = Ok [SAssign t (EBin o t e)].
Proof. intros. apply parse_compound; assumption. Qed.
Print Assumptions C50_compound_assignment_parses.
Example C50_example :
  demo_out (demo_run true true "x = 10; x -= 1 + 2; print x;") = s_ "7" ++ [10%N] /\
  demo_out (demo_run true true "x = 10; x = x - (1 + 2); print x;") = s_ "7" ++ [10%N] /\
  demo_out (demo_run true true "x = 10; x = x - 1 + 2; print x;") = s_ "11" ++ [10%N].
Proof. vm_compute. repeat split. Qed.

(** ** C56 *)
(** integers display as a canonical decimal numeral *)
Theorem C56_display_is_canonical :
  forall z, exists ds, numeral ds (Z.abs z) /\ ds <> [] /\ (forall u, ds = 48%N :: u -> u = []) /\
    display (VInt z) = if (z <? 0)%Z then s_ "-" ++ ds else ds.
Proof.
  intros z. exists (dec_N (Z.to_N (Z.abs z))). repeat split.
  - pose proof (dec_N_numeral (Z.to_N (Z.abs z))) as H. rewrite Z2N.id in H by lia. exact H.
  - apply dec_N_nonempty.
  - apply dec_N_canonical.
  - cbn [display]. unfold dec_Z. destruct (Z.ltb_spec z 0).
    + rewrite Z.abs_neq by lia. reflexivity.
    + rewrite Z.abs_eq by lia. reflexivity.
Qed.
Print Assumptions C56_display_is_canonical.
Theorem C56_literal_reads_back :
  forall z, (0 <= z <= 2 ^ 127 - 1)%Z -> parse (display (VInt z) ++ s_ ";") = Ok [SExpr (EInt z)].
Proof.
  intros z Hz. 
  replace (display (VInt z) ++ s_ ";") with (render_program [SExpr (EInt z)]) by (unfold render_program; cbn [flat_map]; rewrite app_nil_r; reflexivity).
  apply parse_render. repeat constructor; try lia; intros [u E]; discriminate.
Qed.
Print Assumptions C56_literal_reads_back.
(** a negative integer is read back by the minus operator *)
Theorem C56_negative_reads_back :
  forall z, (- 2 ^ 127 < z < 0)%Z ->
    parse (display (VInt z) ++ s_ ";") = Ok [SExpr (EUn UMinus (EInt (- z)))] /\
    forall E s, evals E s (EUn UMinus (EInt (- z))) (e_w s) (Ok (VInt z)).
Proof.
  intros z Hz. split.
  - replace (display (VInt z) ++ s_ ";") with (render_program [SExpr (EUn UMinus (EInt (- z)))]).
    + apply parse_render. constructor; [|constructor]. apply wf_expr.
      * apply wf_un; [apply wf_int; lia|cbn; unfold unary_level, primary_level; lia].
      * repeat split; intros [u E]; discriminate.
    + unfold render_program. cbn [flat_map]. rewrite app_nil_r. cbn [render_stmt render display unop_text]. f_equal.
      unfold dec_Z. replace (z <? 0)%Z with true by (symmetry; apply Z.ltb_lt; lia). replace (- z <? 0)%Z with false by (symmetry; apply Z.ltb_ge; lia). reflexivity.
  - intros E s. split; [discriminate|]. exists 0%nat. cbn. unfold mbind, mret, eval_unop, as_integer, bind, i128_neg.
    replace (- - z)%Z with z by lia. replace (in_i128 z) with true; [reflexivity|].
    symmetry. apply in_i128_iff. unfold I128_MIN, I128_MAX. lia.
Qed.
Print Assumptions C56_negative_reads_back.
(** a literal above 2^127-1 is an error, whatever follows it *)
Theorem C56_large_literal_is_rejected :
  forall ds z rest, numeral ds z -> ds <> [] -> (z > 2 ^ 127 - 1)%Z -> (forall c u, rest = c :: u -> ~ decimal c) ->
    parse (ds ++ rest) = Err EParse.
Proof.
  intros ds z rest H1 H2 H3 H4. apply (big_literal ds z rest H1 H2 H3). destruct rest as [|c u]; [exact I|]. exact (H4 c u eq_refl).
Qed.
Print Assumptions C56_large_literal_is_rejected.
Example C56_example :
  parse (s_ "170141183460469231731687303715884105727;") = Ok [SExpr (EInt (2 ^ 127 - 1))] /\
  parse (s_ "170141183460469231731687303715884105728;") = Err EParse /\
  parse (s_ "-170141183460469231731687303715884105728;") = Err EParse.
Proof. vm_compute. repeat split. Qed.
