(** C69: interactive sessions and scripts differ only in the echo of expression statements. *)
From Verif Require Import Base Ast Pom Parse Value Variables Semantics Fs Eval Runtime Lib Demo Spec_Session Spec_Text Spec_Echo Proof_Echo.
Arguments s_ s%string_scope.

(** A command without expression statements does exactly the same in both modes, whatever
    the outside world does. *)
Theorem C69_no_expression_statements_no_difference :
  forall n E r cmd, (forall l, parse cmd = Ok l -> ~ has_expression_statement l) ->
  rt_eval n E true r cmd = rt_eval n E false r cmd.
Proof. exact rt_eval_same. Qed.
Print Assumptions C69_no_expression_statements_no_difference.

(** Any command, when the outside world does not change: same result, same variables, same
    filesystem, and the same interactions and output except for additional writes. *)
Theorem C69_only_the_echo_differs :
  forall n E r r' cmd, steady E -> alike r r' ->
  snd (rt_eval n E true r' cmd) = snd (rt_eval n E false r cmd) /\
  alike (fst (rt_eval n E false r cmd)) (fst (rt_eval n E true r' cmd)).
Proof. intros n E r r' cmd HE H. apply rt_eval_sim; assumption. Qed.
Print Assumptions C69_only_the_echo_differs.

(** hence whole sessions *)
Inductive entered (n : nat) (E : env) (inter : bool) : list str -> list eres -> rt -> Prop :=
| en_new : entered n E inter [] [] (rt_new E)
| en_step h qs r cmd : entered n E inter h qs r ->
    entered n E inter (h ++ [cmd]) (qs ++ [snd (rt_eval n E inter r cmd)]) (fst (rt_eval n E inter r cmd)).
Theorem C69_sessions :
  forall n E h qs r, steady E -> entered n E false h qs r -> exists r', entered n E true h qs r' /\ alike r r'.
Proof.
  intros n E h qs r HE H. induction H as [|h qs r cmd H (r' & IH1 & IH2)].
  - exists (rt_new E). split; [constructor|]. constructor; try reflexivity. constructor.
  - destruct (rt_eval_sim E HE n r r' cmd IH2) as [H1 H2]. exists (fst (rt_eval n E true r' cmd)). split; [rewrite <- H1; constructor; exact IH1|exact H2].
Qed.
Print Assumptions C69_sessions.

(** the additional writes leave the script's output as a subsequence of the session's *)
Inductive subsequence : str -> str -> Prop :=
| sub_nil : subsequence [] []
| sub_keep c s t : subsequence s t -> subsequence (s ++ [c]) (t ++ [c])
| sub_more c s t : subsequence s t -> subsequence s (t ++ [c]).
Theorem C69_output_is_a_subsequence :
  forall r r', alike r r' -> subsequence (w_out (e_w (r_eval r))) (w_out (e_w (r_eval r'))).
Proof.
  intros r r' [_ _ _ H]. generalize dependent (e_w (r_eval r')). generalize (e_w (r_eval r)). clear r r'. intros w w' H.
  assert (K : forall u s t, subsequence s t -> subsequence (s ++ u) (t ++ u)).
  { induction u as [|c u IH]; intros s t Hs; [rewrite !app_nil_r; exact Hs|]. change (c :: u) with ([c] ++ u). rewrite !app_assoc. apply IH. constructor. exact Hs. }
  assert (L : forall u s t, subsequence s t -> subsequence s (t ++ u)).
  { induction u as [|c u IH]; intros s t Hs; [rewrite app_nil_r; exact Hs|]. change (c :: u) with ([c] ++ u). rewrite app_assoc. apply IH. constructor. exact Hs. }
  induction H as [w|w w' ev Hn H IH|w w' t H IH|w w' t H IH]; [exact (K (w_out w) [] [] sub_nil)|exact IH|exact (K t _ _ IH)|exact (L t _ _ IH)].
Qed.
Print Assumptions C69_output_is_a_subsequence.

Example C69_example : steady (demo_env true) /\
  demo_out (demo_run true false "1 + 1; print 3;") = s_ "3" ++ [10%N] /\
  demo_out (demo_run true true "1 + 1; print 3;") = s_ "2" ++ [10%N] ++ s_ "3" ++ [10%N].
Proof. split; [constructor; reflexivity|]. split; vm_compute; reflexivity. Qed.
