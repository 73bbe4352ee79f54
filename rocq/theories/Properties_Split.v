(** C68: a program may be entered in one command or in several. *)
From Verif Require Import Base Ast Pom Parse Value Variables Semantics Fs Eval Runtime Lib Demo Spec_Session Spec_Grammar Spec_Render Proof_Parse Proof_Complete3 Proof_Render Proof_Split.
From Coq Require Import Lia.
Arguments s_ s%string_scope.
Local Notation program := (g_program unambiguous_start).

(** the text of two programs one after the other is the text of the combined program *)
Theorem C68_programs_can_be_concatenated :
  forall t1 p1 t2 p2, program t1 p1 -> program t2 p2 -> program (t1 ++ t2) (p1 ++ p2).
Proof. intros t1 p1 t2 p2. apply program_app. Qed.
Print Assumptions C68_programs_can_be_concatenated.

(** Entering both at once succeeds exactly when entering one after the other succeeds, and
    then leads to the same state (variables, filesystem, output, kernel interaction). *)
Theorem C68_two_commands_are_one :
  forall n E inter r t1 p1 t2 p2 r2, program t1 p1 -> program t2 p2 ->
  (rt_eval n E inter r (t1 ++ t2) = (r2, ROk) <->
   exists r1, rt_eval n E inter r t1 = (r1, ROk) /\ rt_eval n E inter r1 t2 = (r2, ROk)).
Proof. intros n E inter r t1 p1 t2 p2 r2. apply split_ok. Qed.
Print Assumptions C68_two_commands_are_one.

(** any number of commands *)
Inductive entered_all (n : nat) (E : env) (inter : bool) : rt -> list str -> rt -> Prop :=
| ea_nil r : entered_all n E inter r [] r
| ea_cons r t r1 ts r2 : rt_eval n E inter r t = (r1, ROk) -> entered_all n E inter r1 ts r2 -> entered_all n E inter r (t :: ts) r2.
Theorem C68_many_commands_are_one :
  forall n E inter ts r r2, Forall (fun t => exists p, program t p) ts ->
  (rt_eval n E inter r (concat ts) = (r2, ROk) <-> entered_all n E inter r ts r2).
Proof.
  intros n E inter ts. induction ts as [|t ts IH]; intros r r2 H.
  - cbn [concat]. rewrite rt_eval_empty. split; [intros X; injection X as <-; constructor|intros X; inversion X; reflexivity].
  - inversion H as [|? ? [p Hp] Hts]; subst. cbn [concat]. destruct (programs_concat _ ts Hts) as [ps Hps]. rewrite (split_ok n E inter r _ _ _ _ r2 Hp Hps). split.
    + intros (r1 & H1 & H2). econstructor; [exact H1|]. apply IH; assumption.
    + intros X. inversion X as [|? ? r1 ? ? H1 H2]; subst. exists r1. split; [exact H1|]. apply IH; assumption.
Qed.
Print Assumptions C68_many_commands_are_one.

(** If the first part does not end normally, the rest is not run: provided the analyser
    accepts both, the state and the result are those of the first part alone. *)
Theorem C68_the_rest_is_not_run :
  forall n E inter r t1 p1 t2 p2 r1 q1, program t1 p1 -> program t2 p2 ->
  rt_eval n E inter r t1 = (r1, q1) -> q1 <> ROk -> snd (analyze (r_sem r) (p1 ++ p2)) = Ok tt ->
  exists r', rt_eval n E inter r (t1 ++ t2) = (r', q1) /\ r_eval r' = r_eval r1.
Proof. intros n E inter r t1 p1 t2 p2 r1 q1. apply split_stop. Qed.
Print Assumptions C68_the_rest_is_not_run.

(** Otherwise nothing is run at all: the one difference between one command and several. *)
Theorem C68_a_rejected_part_stops_everything :
  forall n E inter r t1 p1 t2 p2 e, program t1 p1 -> program t2 p2 ->
  snd (analyze (r_sem r) (p1 ++ p2)) = Err e ->
  exists r', rt_eval n E inter r (t1 ++ t2) = (r', RErr e) /\ r_eval r' = r_eval r.
Proof. intros n E inter r t1 p1 t2 p2 e. apply split_reject. Qed.
Print Assumptions C68_a_rejected_part_stops_everything.

(** every well-formed program has such a text *)
Theorem C68_rendered_programs_qualify :
  forall p, wf_stmts unambiguous_start p -> program (render_program p) p.
Proof.
  intros p H. unfold render_program. rewrite <- (app_nil_r (flat_map render_stmt p)). constructor; [apply (proj2 render_stmts), H|apply ws_nil].
Qed.
Print Assumptions C68_rendered_programs_qualify.

Definition C68_first : list stmt := [SAssign (EIdent [120%N]) (EInt 1); SIf (EBin OEquals (EIdent [120%N]) (EInt 1)) [SAssign (EIdent [120%N]) (EInt 2)] []].
Definition C68_second : list stmt := [SPrint (EIdent [120%N])].
Ltac nob := intros [? ?]; discriminate.
Ltac wfs := repeat first [apply wfs_nil | apply wfs_cons | apply wf_if | apply wf_print | apply wf_assign | apply wf_int
  | apply wf_ident | (apply wf_eq; [| |reflexivity| |]) | (constructor; [unfold letter; lia|apply Forall_nil]) | nob | lia | discriminate].
Example C68_example :
  wf_stmts unambiguous_start C68_first /\ wf_stmts unambiguous_start C68_second /\
  render_program C68_first ++ render_program C68_second = s_ "x = 1;if x == 1 {x = 2;}print x;" /\
  (exists r, rt_eval 300 (demo_env true) false (rt_new (demo_env true)) (render_program C68_first ++ render_program C68_second) = (r, ROk) /\
  w_out (e_w (r_eval r)) = s_ "2" ++ [10%N]) /\
  (* a jump is rejected before the rest runs: nothing is printed *)
  (exists r e, rt_eval 300 (demo_env true) false (rt_new (demo_env true)) (s_ "print 1;" ++ s_ "break;") = (r, RErr e) /\ w_out (e_w (r_eval r)) = []).
Proof.
  split; [|split; [|split; [vm_compute; reflexivity|split]]].
  - wfs; try (cbn; unfold primary_level; lia); repeat split; nob.
  - wfs.
  - destruct (rt_eval 300 (demo_env true) false (rt_new (demo_env true)) (render_program C68_first ++ render_program C68_second)) as [r q] eqn:H.
    assert (X : q = ROk /\ w_out (e_w (r_eval r)) = s_ "2" ++ [10%N]).
    { change q with (snd (r, q)). change r with (fst (r, q)) at 2. rewrite <- H. split; vm_compute; reflexivity. }
    destruct X as [-> X]. exists r. auto.
  - destruct (rt_eval 300 (demo_env true) false (rt_new (demo_env true)) (s_ "print 1;" ++ s_ "break;")) as [r q] eqn:H.
    assert (X : (exists e, q = RErr e) /\ w_out (e_w (r_eval r)) = []).
    { change q with (snd (r, q)). change r with (fst (r, q)) at 2. rewrite <- H. split; [eexists|]; vm_compute; reflexivity. }
    destruct X as [[e ->] X]. exists r, e. auto.
Qed.
