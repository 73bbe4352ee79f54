(** C46, C47: the parser.  The grammar is Spec_Grammar.v. *)
From Verif Require Import Base Ast Pom Parse Value Variables Fs Eval Runtime Demo Spec_Grammar Proof_Parse.
Arguments s_ s%string_scope.

(** ** C46 *)
(** The budgets of the model's recursive rules and repetitions are the length of the text;
    running out of one is the result [Fuel], which never happens. *)
Theorem C46_parse_terminates :
  forall text, (exists prog, parse text = Ok prog) \/ parse text = Err EParse.
Proof. exact parse_total. Qed.
Print Assumptions C46_parse_terminates.

Example C46_example :
  parse (s_ "((((((1))))") = Err EParse /\ parse (s_ "print ((((((1))))));;;") <> Err EParse.
Proof. vm_compute. split; [reflexivity|discriminate]. Qed.

(** ** C47 *)
Theorem C47_parse_is_sound_for_the_grammar :
  forall text prog, parse text = Ok prog -> g_program unreserved text prog.
Proof. exact parse_sound. Qed.
Print Assumptions C47_parse_is_sound_for_the_grammar.

Example C47_example :
  parse (s_ " x = 1 + 2*3 - y.f[0] ; if x==1 { print ""a\n\u00e9""; } else { }") =
  Ok [SAssign (EIdent (s_ "x"))
        (EBin OMinus (EBin OPlus (EInt 1) (EBin OMultiply (EInt 2) (EInt 3)))
           (EIndex (EField (EIdent (s_ "y")) (EIdent (s_ "f"))) (EInt 0)));
      SIf (EBin OEquals (EIdent (s_ "x")) (EInt 1)) [SPrint (EStr [97; 10; 233]%N)] []].
Proof. vm_compute. reflexivity. Qed.
