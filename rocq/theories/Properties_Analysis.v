(** C85: the checks before execution.  Spec_Analysis reads a command from left to right as a
    list of items and says which of them are problems. *)
From Verif Require Import Base Ast Pom Parse Structs Definitions Value Variables Semantics Fs Eval Runtime Errors Lib Demo Spec_Vars Spec_Session Spec_Safe Spec_Run Spec_Lang Spec_Exec Spec_Errors Spec_Analysis
  Proof_Vars Proof_Parse Proof_Session Proof_Safe Proof_Run Proof_Errors2 Proof_Analysis Proof_Analysis2.
Require Import Lia.
Arguments s_ s%string_scope.

Lemma knows_new x : knows (s_vars sem_new) x <-> builtin x.
Proof.
  rewrite knows_names. set (L := map fst (hd [] (s_vars sem_new))).
  assert (HL : scope_names (s_vars sem_new) = [L]) by reflexivity. rewrite HL.
  assert (H1 : forallb (fun y => existsb (str_eqb y) (map fst CONSTANTS ++ map func_name FUNCTIONS)) L = true) by (vm_compute; reflexivity).
  assert (H2 : forallb (fun y => existsb (str_eqb y) L) (map fst CONSTANTS ++ map func_name FUNCTIONS) = true) by (vm_compute; reflexivity).
  clearbody L. unfold builtin. rewrite <- in_app_iff. rewrite forallb_forall in H1, H2. split.
  - intros (l & [<-|[]] & Hx). specialize (H1 _ Hx). apply existsb_exists in H1. destruct H1 as (y & Hy & He). apply str_eqb_eq in He. subst. exact Hy.
  - intros Hx. exists L. split; [left; reflexivity|]. specialize (H2 _ Hx). apply existsb_exists in H2. destruct H2 as (y & Hy & He). apply str_eqb_eq in He. subst. exact Hy.
Qed.
Lemma start_holds (K : str -> Prop) r : inv r -> (forall x, knows (s_vars (r_sem r)) x <-> K x) -> holds K [] (r_sem r).
Proof.
  intros [Hd Hs _ _] Hk. split; [exact (len1_ne _ Hs)|]. split; [exact Hd|]. intros n x Hn. rewrite Hs in Hn. replace n with 0 by lia. cbn [skipn rev vis]. rewrite Hk. tauto.
Qed.
Lemma session_known E h r : session E h r -> forall x, knows (s_vars (r_sem r)) x <-> known_after (rev h) x.
Proof.
  induction 1 as [|h r n inter cmd Hs IH]; intros x; [apply knows_new|]. pose proof (session_inv _ _ _ Hs) as Hi. pose proof (start_holds _ r Hi IH) as Hh.
  rewrite rev_app_distr. cbn [rev app known_after].
  assert (Hsem : r_sem (fst (rt_eval n E inter r cmd)) = match parse cmd with Ok l => fst (analyze (r_sem r) l) | _ => r_sem r end).
  { unfold rt_eval. destruct (parse cmd) as [l| | |]; try reflexivity. destruct (analyze (r_sem r) l) as [sem' [u| | |]]; try reflexivity. destruct (eval_prog n E inter (r_eval r) l); reflexivity. }
  rewrite Hsem. destruct (parse cmd) as [l|e|p|].
  - rewrite (analyze_names _ l _ x Hh (inv_sem _ Hi)). apply or_iff_compat_l. unfold declares. split.
    + intros (a & b & H1 & H2 & H3). exists l, a, b. auto.
    + intros (l' & a & b & [= <-] & H). exists a, b. exact H.
  - rewrite IH. split; [auto|]. intros [H|(l & a & b & [=] & _)]. exact H.
  - rewrite IH. split; [auto|]. intros [H|(l & a & b & [=] & _)]. exact H.
  - rewrite IH. split; [auto|]. intros [H|(l & a & b & [=] & _)]. exact H.
Qed.

(** After any history h of commands: a command without problems is executed; of one with
    problems nothing is executed, and the text of the first problem is reported. *)
Theorem C85_checks :
  forall E h r n inter cmd l, session E h r -> parse cmd = Ok l ->
  let K := known_after (rev h) in
  (clean K (items l) ->
     (r_eval (fst (rt_eval n E inter r cmd)), snd (rt_eval n E inter r cmd)) = eval_prog n E inter (r_eval r) l) /\
  (forall t, first_problem K (items l) t ->
     r_eval (fst (rt_eval n E inter r cmd)) = r_eval r /\ exists er, snd (rt_eval n E inter r cmd) = RErr er /\ message er = Some t) /\
  (clean K (items l) \/ exists t, first_problem K (items l) t).
Proof.
  intros E h r n inter cmd l Hs Hp. cbv zeta. set (K := known_after (rev h)).
  pose proof (analyze_agrees K l (r_sem r) (start_holds K r (session_inv _ _ _ Hs) (session_known E h r Hs))) as Ha.
  unfold rt_eval. rewrite Hp. destruct (analyze (r_sem r) l) as [sem' [[]|er|q|]]; cbn [fst snd agrees] in Ha; try contradiction.
  - destruct Ha as [Hc _]. split; [|split; [|left; exact Hc]].
    + intros _. destruct (eval_prog n E inter (r_eval r) l). reflexivity.
    + intros t Ht. elim (first_problem_unclean _ _ _ Ht Hc).
  - destruct Ha as (a & i & b & t & d & Hit & Hc & Hpb & Hm & _). assert (Hfirst : first_problem K (items l) t) by (exists a, i, b; auto).
    split; [|split; [|right; exists t; exact Hfirst]].
    + intros Hcl. elim (first_problem_unclean _ _ _ Hfirst Hcl).
    + intros t' Ht'. rewrite (first_problem_fun _ _ _ _ Ht' Hfirst). split; [reflexivity|]. exists er. auto.
Qed.
Print Assumptions C85_checks.

(** There is only one first problem. *)
Theorem C85_one_report : forall K l t t', first_problem K l t -> first_problem K l t' -> t = t'.
Proof. exact first_problem_fun. Qed.
Print Assumptions C85_one_report.

(** The errors of a command: it is no program; or the first problem; or, if there is none,
    the first statement that fails (C84). *)
Theorem C85_commands :
  forall E h r inter cmd m, env_typed E -> session E h r ->
  let K := known_after (rev h) in
  (exists n er, snd (rt_eval n E inter r cmd) = RErr er /\ message er = m) <->
  (parse cmd = Err EParse /\ m = None) \/
  (exists l, parse cmd = Ok l /\
     ((exists t, first_problem K (items l) t /\ m = Some t) \/
      (clean K (items l) /\ exists s', fails_list E inter (r_eval r) l s' m))).
Proof.
  intros E h r inter cmd m HE Hs. cbv zeta. set (K := known_after (rev h)). split.
  - intros (n & er & Hr & Hm). destruct (parse_total cmd) as [(l & Hp)|Hp].
    + right. exists l. split; [exact Hp|]. destruct (C85_checks E h r n inter cmd l Hs Hp) as (H1 & H2 & H3). fold K in H1, H2, H3. destruct H3 as [Hc|(t & Ht)].
      * right. split; [exact Hc|]. specialize (H1 Hc). destruct (rt_eval_safe n E inter h r cmd HE Hs (session_safe _ _ _ HE Hs)) as [_ Hu]. rewrite Hr in Hu.
        unfold eval_prog in H1. destruct (run_list (eval_stmt n E inter) (r_eval r) l) as [s' q] eqn:Hl. injection H1 as _ H1. rewrite Hr in H1.
        exists s'. apply list_fails_iff. exists er. split; [|exact Hm]. destruct q; cbn in H1; try discriminate; try (injection H1 as ->; congruence). injection H1 as ->. split; [discriminate|]. exists n. exact Hl.
      * left. exists t. split; [exact Ht|]. destruct (H2 t Ht) as (_ & er' & Hr' & Hm'). rewrite Hr in Hr'. injection Hr' as <-. congruence.
    + left. split; [exact Hp|]. unfold rt_eval in Hr. rewrite Hp in Hr. cbn in Hr. injection Hr as <-. subst m. reflexivity.
  - intros [[Hp ->]|(l & Hp & [(t & Ht & ->)|(Hc & s' & Hf)])].
    + exists 0, EParse. unfold rt_eval. rewrite Hp. split; reflexivity.
    + destruct (C85_checks E h r 0 inter cmd l Hs Hp) as (_ & H2 & _). destruct (H2 t Ht) as (_ & er & H). exists 0, er. exact H.
    + apply list_fails_iff in Hf. destruct Hf as (er & [_ [n Hn]] & Hm). exists n, er. split; [|exact Hm]. destruct (C85_checks E h r n inter cmd l Hs Hp) as (H1 & _). specialize (H1 Hc).
      unfold eval_prog in H1. rewrite Hn in H1. injection H1 as _ H1. exact H1.
Qed.
Print Assumptions C85_commands.

(** [b] is known only in the if; [i] only in its loop; the right side of the rejected [y = z]
    is reported, [y] is known afterwards (finding 8). *)
Definition reported (cmds : list str) : list (option text) :=
  snd (fold_left (fun p cmd => let '(r, out) := p in let '(r', res) := rt_eval 50 (demo_env true) false r cmd in
    (r', out ++ [match res with RErr e => Some (message e) | _ => None end])) cmds (rt_new (demo_env true), [])).
Example C85_example :
  reported [s_ "a = 1; if a == 1 { b = 2; a = 3; } print a + b;"; s_ "for i in hist() { if a == i { break; } } continue;"; s_ "y = z;"; s_ "if false { y; }"; s_ "i;"; s_ "a = 2; a = len(y);"] =
  [Some (Some (s_ "Unknown variable: b")); Some (Some (s_ "Cannot 'continue' outside of a loop")); Some (Some (s_ "Unknown variable: z"));
   None; Some (Some (s_ "Unknown variable: i")); Some (Some (s_ "Unknown variable: y"))] /\
  (exists l, parse (s_ "y = z;") = Ok l /\ first_problem builtin (items l) (s_ "Unknown variable: z") /\ items l = [] ++ Declare (s_ "y") :: [Use (s_ "z")]) /\
  (exists l, parse (s_ "while true { if false { continue; } x = 1; break; }") = Ok l /\ clean builtin (items l)).
Proof.
  split; [vm_compute; reflexivity|]. split.
  - eexists. split; [vm_compute; reflexivity|]. split; [|reflexivity]. exists [Declare (s_ "y")], (Use (s_ "z")), []. split; [reflexivity|]. split.
    + intros [|j [|k a]] i b t H; try discriminate. injection H as <- _. intros Hp. inversion Hp.
    + constructor.
      * intros Hk. apply knows_new in Hk. vm_compute in Hk. apply Hk. reflexivity.
      * intros (a & b & H & _). destruct a as [|j [|k a]]; discriminate.
  - eexists. split; [vm_compute; reflexivity|].
    match goal with |- clean _ (items ?l) => destruct (C85_checks (demo_env true) [] _ 50 false (s_ "while true { if false { continue; } x = 1; break; }") l (ses_new _)) as (_ & H2 & [H3|(t & Ht)]); [vm_compute; reflexivity|exact H3|] end.
    exfalso. destruct (H2 t Ht) as (_ & er & He & _). vm_compute in He. discriminate.
Qed.
