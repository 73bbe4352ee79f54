(** C64: expressions evaluate by the language's rules (Spec_Lang). *)
From Verif Require Import Base Ast Structs Definitions Value Variables Fs Eval Lib Demo Spec_Vars Spec_Run Spec_Lang Proof_Lang.
Arguments s_ s%string_scope.

(** An expression has a value, with its interactions with the outside, exactly when the
    rules give it. *)
Theorem C64_values :
  forall E s e w v, evals E s e w (Ok v) <-> gives E (e_vars s) (e_fs s) e (e_w s) w (Some v).
Proof. exact evals_value. Qed.
Print Assumptions C64_values.

(** It is an error, after these interactions, exactly when the rules say so. *)
Theorem C64_errors :
  forall E s e w, (exists er, evals E s e w (Err er)) <-> gives E (e_vars s) (e_fs s) e (e_w s) w None.
Proof. exact evals_error. Qed.
Print Assumptions C64_errors.

(** The rules are deterministic: at most one outcome. *)
Theorem C64_deterministic :
  forall E vs f e w w1 w2 o1 o2, gives E vs f e w w1 o1 -> gives E vs f e w w2 o2 -> w1 = w2 /\ o1 = o2.
Proof. exact gives_fun. Qed.
Print Assumptions C64_deterministic.

(** [("a" + "b") == "ab" && !0] is true; [1 - true] is an error and [len(1, x)] is one before x is looked at *)
Example C64_example :
  let E := demo_env true in
  let e := EBin OLogicalAnd (EBin OEquals (EParen (EBin OPlus (EStr (s_ "a")) (EStr (s_ "b")))) (EStr (s_ "ab"))) (EUn UNot (EInt 0)) in
  gives E [] None e w0 w0 (Some (VBool true)) /\
  gives E [] None (EBin OMinus (EInt 1) (EBool true)) w0 w0 None /\
  gives E [[(s_ "len", VFun FLen)]] None (ECall (EIdent (s_ "len")) [EInt 1; EIdent (s_ "x")]) w0 w0 None.
Proof.
  cbn zeta. split; [|split].
  - eapply gv_right; [left; split; reflexivity| |].
    + eapply gv_op; [reflexivity| |].
      * econstructor; [|constructor|].
        -- constructor. eapply gv_op; [reflexivity| |apply rs_concat]. econstructor; [constructor|constructor|]. econstructor; [constructor|constructor|constructor].
        -- econstructor; [constructor|constructor|constructor].
      * apply rs_eq. split; reflexivity.
    + econstructor; [|apply hk_bool|constructor]. eapply gv_op; [reflexivity| |].
      * econstructor; [constructor|constructor|constructor].
      * apply rs_not_int. split; reflexivity.
  - eapply gv_op_operand; [reflexivity|]. eapply ga_later; [constructor|constructor|]. eapply ga_kind; [constructor|]. intros H. inversion H.
  - eapply gv_call_arity with (F := FLen); [|reflexivity]. apply gv_var with (i := 0); [|reflexivity]. split; [discriminate|]. intros j Hj. inversion Hj.
Qed.
