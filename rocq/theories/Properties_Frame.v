(** C72: a command changes only what it assigns.  C73: it depends only on what it mentions. *)
From Verif Require Import Base Ast Pom Parse Value Variables Semantics Fs Eval Runtime Lib Demo Spec_Vars Spec_Run Spec_Session Spec_Safe Spec_Frame
  Proof_Vars Proof_Session Proof_Frame Proof_Frame2.
Require Import Lia.
Arguments s_ s%string_scope.

(** ** C72 *)
(** However a statement ends (normally, with an error, a jump, quit or a crash, or not at all
    within the step budget), in every scope a variable it does not assign keeps its value, or
    stays undefined. *)
Theorem C72_other_variables_are_unchanged :
  forall n E inter s st s' r x, eval_stmt n E inter s st = (s', r) -> ~ In x (may_assign st) ->
  forall j, binding (e_vars s') j x = binding (e_vars s) j x.
Proof. intros n E inter s st s' r x H Hx. pose proof (stmt_keeps x E inter n st Hx s) as P. unfold kp in P. rewrite H in P. exact P. Qed.
Print Assumptions C72_other_variables_are_unchanged.

(** the same for commands: reading x afterwards gives what it gave before *)
Theorem C72_commands :
  forall n E inter r cmd r' q x, rt_eval n E inter r cmd = (r', q) ->
  (forall l, parse cmd = Ok l -> ~ In x (flat_map may_assign l)) ->
  forall k f w, eval_expr k E (e_vars (r_eval r')) f (EIdent x) w = eval_expr k E (e_vars (r_eval r)) f (EIdent x) w.
Proof.
  intros n E inter r cmd r' q x H Hx k f w. cbn [eval_expr]. replace (vars_get x (e_vars (r_eval r'))) with (vars_get x (e_vars (r_eval r))); [reflexivity|].
  destruct (parse cmd) as [l|e|p|] eqn:Hp.
  - pose proof (command_keeps x E inter n r cmd l Hp (Hx l eq_refl)) as K. rewrite H in K. cbn [fst] in K. unfold keeps in K. clear H Hx.
    assert (G : forall (v v' : vars value), keeps x v v' -> vars_get x v = vars_get x v').
    { intros v v'. revert v. induction v' as [|m' v' IH]; intros [|m v] H; cbn [vars_get]; [reflexivity| | |].
      - apply (vars_get_none (m :: v) x). intros j. rewrite <- (H j). unfold binding. destruct j; reflexivity.
      - symmetry. apply (vars_get_none (m' :: v') x). intros j. rewrite (H j). unfold binding. destruct j; reflexivity.
      - pose proof (H 0) as H0. unfold binding in H0. cbn [nth_error] in H0. rewrite H0. destruct (assoc x m); [reflexivity|]. apply IH. intros j. exact (H (S j)). }
    apply G. exact K.
  - unfold rt_eval in H. rewrite Hp in H. injection H as <- _. reflexivity.
  - unfold rt_eval in H. rewrite Hp in H. injection H as <- _. reflexivity.
  - unfold rt_eval in H. rewrite Hp in H. injection H as <- _. reflexivity.
Qed.
Print Assumptions C72_commands.

(** a program that assigns a, b and i (through a field, an index and a loop), reads c and fails *)
Definition frame_cmd : str := s_ "b = hist() + c; a = key(1, 2, 3, 4); for i in b { a.min_type = i; b[0] = c + 1; } print b[7];".
Example C72_example :
  let E := demo_env true in
  let r := fst (rt_eval 300 E false (rt_new E) (s_ "c = 5; i = 6;")) in
  (exists l, parse frame_cmd = Ok l /\ ~ In (s_ "c") (flat_map may_assign l) /\ In (s_ "a") (flat_map may_assign l) /\ In (s_ "b") (flat_map may_assign l) /\ In (s_ "i") (flat_map may_assign l)) /\
  snd (rt_eval 300 E false r frame_cmd) = RErr (EIndexOutOfRange 7 1) /\
  vars_get (s_ "c") (e_vars (r_eval (fst (rt_eval 300 E false r frame_cmd)))) = Some (VInt 5) /\
  vars_get (s_ "i") (e_vars (r_eval (fst (rt_eval 300 E false r frame_cmd)))) = Some (VInt 5).
Proof.
  cbv zeta. split; [|vm_compute; auto]. eexists. split; [vm_compute; reflexivity|]. vm_compute. repeat split; try tauto. intros H. repeat (destruct H as [H|H]; [discriminate H|]). exact H.
Qed.

(** ** C73 *)
(** Two debuggers that agree on the names X (known, and the same values), have the same
    filesystem selected and face the same outside world from now on answer any commands that
    mention only names of X alike: the same results, the same interactions, the same output,
    and again agreement on X. *)
Theorem C73_results_depend_only_on_mentioned_variables :
  forall X n E1 E2 inter r1 r2 cmds r1' r2' l1 l2,
  same_future E1 (length (w_log (seen r1))) E2 (length (w_log (seen r2))) -> agree_on X r1 r2 ->
  (forall cmd l x, In cmd cmds -> parse cmd = Ok l -> In x (flat_map mentions l) -> In x X) ->
  entering n E1 inter r1 cmds = (r1', l1) -> entering n E2 inter r2 cmds = (r2', l2) ->
  l1 = l2 /\ agree_on X r1' r2' /\ same_since (seen r1) (seen r2) (seen r1') (seen r2').
Proof.
  intros X n E1 E2 inter r1 r2 cmds r1' r2' l1 l2 HE Ha Hm H1 H2.
  destruct (commands_agree X E1 E2 (seen r1) (seen r2) HE n inter cmds) with (r1 := r1) (r2 := r2) as (P1 & P2 & P3).
  - apply Forall_forall. intros cmd Hc l Hl x Hx. exact (Hm cmd l x Hc Hl Hx).
  - exact Ha.
  - exists [], []. rewrite !app_nil_r. split; [destruct (seen r1)|destruct (seen r2)]; reflexivity.
  - rewrite H1, H2 in P1, P2, P3. cbn [fst snd] in *. auto.
Qed.
Print Assumptions C73_results_depend_only_on_mentioned_variables.

(** Two sessions (with any histories) agree on variables that are defined and have the same
    values in both. *)
Theorem C73_sessions_agree_on_equal_variables :
  forall X E1 h1 r1 E2 h2 r2, session E1 h1 r1 -> session E2 h2 r2 ->
  (forall x, In x X -> exists v, vars_get x (e_vars (r_eval r1)) = Some v /\ vars_get x (e_vars (r_eval r2)) = Some v) ->
  e_fs (r_eval r1) = e_fs (r_eval r2) -> agree_on X r1 r2.
Proof.
  intros X E1 h1 r1 E2 h2 r2 H1 H2 Hx Hf. apply session_inv in H1. apply session_inv in H2. destruct H1 as [d1 s1 e1 k1], H2 as [d2 s2 e2 k2].
  assert (G : forall A (v1 v2 : vars A), length v1 = 1 -> length v2 = 1 -> (forall x, In x X -> vars_get x v1 = vars_get x v2) -> agree X v1 v2).
  { intros A [|m1 [|? ?]] [|m2 [|? ?]] L1 L2 H; try discriminate. split; [reflexivity|]. intros x Hin. specialize (H x Hin). cbn [vars_get] in H.
    intros [|j]; [|destruct j; reflexivity]. unfold binding. cbn [nth_error]. destruct (assoc x m1), (assoc x m2); congruence. }
  constructor; [| congruence| |exact Hf].
  - apply G; [assumption|assumption|]. intros x Hin. destruct (Hx x Hin) as (v & V1 & V2). specialize (k1 x). specialize (k2 x). unfold knows in *.
    destruct (vars_get x (s_vars (r_sem r1))) as [[]|]; [|elim k1; congruence]. destruct (vars_get x (s_vars (r_sem r2))) as [[]|]; [reflexivity|elim k2; congruence].
  - apply G; [assumption|assumption|]. intros x Hin. destruct (Hx x Hin) as (v & -> & ->). reflexivity.
Qed.
Print Assumptions C73_sessions_agree_on_equal_variables.

(** Hence: the commands a session is continued with do not notice earlier commands that
    neither change the variables they mention nor the selected filesystem, when the outside
    world answers the same. *)
Theorem C73_unrelated_history_is_not_noticed :
  forall E h r h' r' n inter cmds,
  session E h r -> session E (h ++ h') r' ->
  (forall cmd l x, In cmd cmds -> parse cmd = Ok l -> In x (flat_map mentions l) ->
     exists v, vars_get x (e_vars (r_eval r)) = Some v /\ vars_get x (e_vars (r_eval r')) = Some v) ->
  e_fs (r_eval r) = e_fs (r_eval r') ->
  same_future E (length (w_log (seen r))) E (length (w_log (seen r'))) ->
  snd (entering n E inter r cmds) = snd (entering n E inter r' cmds) /\
  exists out, w_out (seen (fst (entering n E inter r cmds))) = w_out (seen r) ++ out /\
              w_out (seen (fst (entering n E inter r' cmds))) = w_out (seen r') ++ out.
Proof.
  intros E h r h' r' n inter cmds H1 H2 Hx Hf HE. set (X := flat_map (fun cmd => match parse cmd with Ok l => flat_map mentions l | _ => [] end) cmds).
  assert (Ha : agree_on X r r').
  { apply (C73_sessions_agree_on_equal_variables X E h r E (h ++ h') r' H1 H2); [|exact Hf]. intros x Hin. unfold X in Hin. apply in_flat_map in Hin. destruct Hin as (cmd & Hc & Hin).
    destruct (parse cmd) as [l|e|p|] eqn:Hp; try destruct Hin. all: eauto. }
  destruct (entering n E inter r cmds) as [t1 l1] eqn:T1, (entering n E inter r' cmds) as [t2 l2] eqn:T2.
  destruct (C73_results_depend_only_on_mentioned_variables X n E E inter r r' cmds t1 t2 l1 l2 HE Ha) as (-> & _ & evs & out & W1 & W2); [|exact T1|exact T2|].
  - intros cmd l x Hc Hp Hin. unfold X. apply in_flat_map. exists cmd. split; [exact Hc|]. rewrite Hp. exact Hin.
  - split; [reflexivity|]. exists out. cbn [fst]. rewrite W1, W2. auto.
Qed.
Print Assumptions C73_unrelated_history_is_not_noticed.

(** two sessions that differ in x and y, and have printed different things *)
Definition frame_r1 : rt := fst (entering 300 (demo_env true) true (rt_new (demo_env true)) [s_ "a = 4; x = 1;"]).
Definition frame_r2 : rt := fst (entering 300 (demo_env true) true (rt_new (demo_env true)) [s_ "a = 4; x = 2;"; s_ "print x; y = 7;"]).
Definition frame_cmds : list str := [s_ "b = len(hist() + a);"; s_ "while a > b { a = a - 1; print a; }"].
Lemma demo_future a b : same_future (demo_env true) a (demo_env true) b.
Proof. constructor; reflexivity. Qed.
Example C73_example :
  same_future (demo_env true) (length (w_log (seen frame_r1))) (demo_env true) (length (w_log (seen frame_r2))) /\
  agree_on [s_ "b"; s_ "len"; s_ "hist"; s_ "a"] frame_r1 frame_r2 /\
  (forall x, In x [s_ "a"; s_ "len"; s_ "hist"] -> exists v, vars_get x (e_vars (r_eval frame_r1)) = Some v /\ vars_get x (e_vars (r_eval frame_r2)) = Some v) /\
  map (fun c => match parse c with Ok l => flat_map mentions l | _ => [] end) frame_cmds =
    [[s_ "b"; s_ "len"; s_ "hist"; s_ "a"]; [s_ "a"; s_ "b"; s_ "a"; s_ "a"; s_ "a"]] /\
  vars_get (s_ "x") (e_vars (r_eval frame_r1)) = Some (VInt 1) /\ vars_get (s_ "x") (e_vars (r_eval frame_r2)) = Some (VInt 2) /\
  w_out (seen (fst (entering 300 (demo_env true) true frame_r1 frame_cmds))) = s_ "3
2
1
" /\ w_out (seen (fst (entering 300 (demo_env true) true frame_r2 frame_cmds))) = s_ "2
3
2
1
".
Proof.
  split; [apply demo_future|]. split.
  { constructor; [|vm_compute; reflexivity| |vm_compute; reflexivity]; (split; [vm_compute; reflexivity|]);
    intros x [H|[H|[H|[H|[]]]]] j; rewrite <- H; destruct j as [|[|j]]; vm_compute; reflexivity. }
  split.
  { intros x [H|[H|[H|[]]]]; rewrite <- H; eexists; (split; vm_compute; reflexivity). }
  split; [vm_compute; reflexivity|]. split; [vm_compute; reflexivity|]. split; [vm_compute; reflexivity|]. split; vm_compute; reflexivity.
Qed.
