(** C74: a program ends unless it comes to a while loop, or to a histogram print, that does not. *)
From Verif Require Import Base Ast Pom Parse Structs Value Variables Semantics Fs Eval Runtime Lib Demo Demo_Search Spec_Vars Spec_Run Spec_Session Spec_Text Spec_Search Spec_Safe Spec_Ends
  Proof_Session Proof_Safe Proof_Search Proof_Run Proof_Ends.
Require Import Lia.
Arguments s_ s%string_scope.

Lemma session_stmts cmd l : parse cmd = Ok l -> Forall (stmt_ok False) l.
Proof.
  intros Hp. apply parse_lits in Hp. apply stmts_ok. rewrite Forall_forall in *. intros e He. split; [apply Hp; exact He|intros []].
Qed.
(** From any state a user can get to, with any kernel that answers like a btrfs filesystem (also
    one that changes while it is read): the program has a last state if and only if each while
    loop, and each print of a histogram with a value above 2^125, it comes to ends.  In
    particular no search, for loop, index, cast, decode or formatting goes on forever. *)
Theorem C74_a_program_ends_iff_its_loops_do :
  forall E h r inter cmd l, env_typed E -> kernel_honest E -> session E h r -> parse cmd = Ok l ->
  ((exists s' q, runs_list E inter (r_eval r) l s' q) <->
   (forall st s1, arrives E inter (r_eval r) l st s1 -> (exists c b, st = SWhile c b) \/ large_histogram E s1 st ->
    exists s' q, runs E inter s1 st s' q)).
Proof.
  intros E h r inter cmd l HE HH Hs Hp. split.
  - intros H st s1 Ha _. exact (proj1 (arrived_ends E inter) _ _ _ _ Ha H).
  - intros HF. exact (fine_ends E HE HH inter l 1 (r_eval r) (session_safe E h r HE Hs) (session_stmts cmd l Hp) HF).
Qed.
Print Assumptions C74_a_program_ends_iff_its_loops_do.

(** the same for a command as it is entered, whether or not it is accepted: with a large enough
    step budget the answer is not "budget used up", and it is the same from there on *)
Theorem C74_commands :
  forall E h r inter cmd, env_typed E -> kernel_honest E -> session E h r ->
  (forall l st s1, parse cmd = Ok l -> arrives E inter (r_eval r) l st s1 -> (exists c b, st = SWhile c b) \/ large_histogram E s1 st ->
    exists s' q, runs E inter s1 st s' q) ->
  exists n p, snd p <> RFuel /\ forall m, n <= m -> rt_eval m E inter r cmd = p.
Proof.
  intros E h r inter cmd HE HH Hs HF. unfold rt_eval. destruct (Proof_Parse.parse_total cmd) as [(l & Hp)|Hp]; rewrite Hp.
  2: { exists 0. eexists. split; [|reflexivity]. discriminate. }
  destruct (analyze (r_sem r) l) as [sem' a] eqn:Ha. pose proof (analyze_good _ _ _ _ (len1_ne _ (inv_sem _ (session_inv _ _ _ Hs))) Ha) as (_ & _ & N).
  destruct a as [[]|e|p|]; try contradiction; [|exists 0; eexists; split; [|reflexivity]; discriminate].
  destruct (fine_ends E HE HH inter l 1 (r_eval r) (session_safe E h r HE Hs) (session_stmts cmd l Hp) (fun st q => HF l st q Hp)) as (s' & q & Hq & n & Hn).
  exists n, (mk_rt sem' s', into_eval_result q). split; [destruct q; cbn; congruence|].
  intros m Hm. unfold eval_prog. rewrite (run_list_up _ _ _ _ _ _ _ _ Hn Hq Hm). reflexivity.
Qed.
Print Assumptions C74_commands.

(** so a program without while loops (and without histograms of such values) always ends *)
Theorem C74_programs_without_while_end :
  forall E h r inter cmd, env_typed E -> kernel_honest E -> session E h r ->
  (forall l, parse cmd = Ok l -> ~ has_while l /\ forall st s1, arrives E inter (r_eval r) l st s1 -> ~ large_histogram E s1 st) ->
  exists n p, snd p <> RFuel /\ forall m, n <= m -> rt_eval m E inter r cmd = p.
Proof.
  intros E h r inter cmd HE HH Hs HF. apply (C74_commands E h r inter cmd HE HH Hs). intros l st s1 Hp Ha [(c & b & ->)|Hl].
  - destruct (HF l Hp) as [Hw _]. elim Hw. apply (proj1 (arrives_sub E inter)) in Ha. apply in_flat_map in Ha. destruct Ha as (st & H1 & H2). exists st, c, b. auto.
  - destruct (HF l Hp) as [_ Hn]. elim (Hn st s1 Ha Hl).
Qed.
Print Assumptions C74_programs_without_while_end.

(** ** Examples *)
(** a mounted filesystem with the four items of demo_tree, which the kernel hands out one per request *)
Definition disk_env (oc : bool) : env :=
  mk_env oc (ioctl (tree_env oc 1 demo_tree)) (fun _ _ => OpDir 3 (Some 0x9123683E%Z)) (fun _ _ => SkOk) (Some (s_ "/mnt")).
Lemma disk_typed oc : env_typed (disk_env oc).
Proof. split; [|intros n p img H; discriminate]. exact (tree_typed oc 1 demo_tree (proj1 demo_tree_ok) eq_refl). Qed.
Lemma disk_honest oc : kernel_honest (disk_env oc).
Proof.
  intros fd. exists (fun _ _ st => st = demo_tree). destruct demo_tree_ok as (H1 & H2 & H3). exact (tree_honest oc 1 demo_tree fd ltac:(discriminate) H1 H2 H3).
Qed.
Definition walk : str := s_ "k = key(0, 0, 0, 0); k.max_type = 200; n = 0; for i in search(1, k) { if n == 1 { n = n + 1; continue; } n = n + 1; keyof(i).offset; } n;".
(** the hypotheses of C74_programs_without_while_end hold of a program with a search that needs
    several requests, a loop and a jump *)
Example C74_example oc :
  (exists n p, snd p <> RFuel /\ forall m, n <= m -> rt_eval m (disk_env oc) true (rt_new (disk_env oc)) walk = p) /\
  w_out (e_w (r_eval (fst (rt_eval 500 (disk_env oc) true (rt_new (disk_env oc)) walk)))) = s_ "5" ++ nl ++ s_ "300" ++ nl ++ s_ "3" ++ nl.
Proof.
  split; [|destruct oc; vm_compute; reflexivity].
  apply (C74_programs_without_while_end (disk_env oc) [] (rt_new (disk_env oc)) true walk (disk_typed oc) (disk_honest oc) (ses_new _)).
  intros l Hl. assert (Hs : forall st, In st (flat_map substmts l) -> (forall c b, st <> SWhile c b) /\ forall e, st <> SPrint e).
  { assert (Q : exists l0, parse walk = Ok l0 /\ forall st, In st (flat_map substmts l0) -> (forall c b, st <> SWhile c b) /\ forall e, st <> SPrint e).
    { eexists. split; [vm_compute; reflexivity|]. cbn [flat_map substmts app]. intros st H. repeat (destruct H as [<-|H]; [split; discriminate|]). destruct H. }
    destruct Q as (l0 & Hl0 & Q). rewrite Hl in Hl0. injection Hl0 as ->. exact Q. }
  split.
  - intros (st & c & b & H1 & H2). destruct (Hs (SWhile c b)) as [H _]; [apply in_flat_map; eauto|]. elim (H c b eq_refl).
  - intros st s1 Ha (e & w & vec & z & -> & _). apply (proj1 (arrives_sub _ _)) in Ha. destruct (Hs _ Ha) as [_ H]. elim (H e eq_refl).
Qed.
(** a program that comes to a while loop that ends *)
Definition count : str := s_ "i = 0; while i < 3 { i = i + 1; } i;".
Example C74_while_example oc : exists l c b s1, parse count = Ok l /\ arrives (disk_env oc) true (r_eval (rt_new (disk_env oc))) l (SWhile c b) s1 /\
  (exists s' q, runs (disk_env oc) true s1 (SWhile c b) s' q) /\ rt_eval 50 (disk_env oc) true (rt_new (disk_env oc)) count = rt_eval 60 (disk_env oc) true (rt_new (disk_env oc)) count /\
  snd (rt_eval 50 (disk_env oc) true (rt_new (disk_env oc)) count) = ROk.
Proof.
  assert (H : exists x c b y, parse count = Ok [x; SWhile c b; y] /\ exists s1, eval_stmt 50 (disk_env oc) true (r_eval (rt_new (disk_env oc))) x = (s1, IOk) /\
    exists s', eval_stmt 50 (disk_env oc) true s1 (SWhile c b) = (s', IOk)).
  { eexists _, _, _, _. split; [vm_compute; reflexivity|]. destruct oc; (eexists; split; [vm_compute; reflexivity|]; eexists; vm_compute; reflexivity). }
  destruct H as (x & c & b & y & Hp & s1 & H1 & s' & H2). exists [x; SWhile c b; y], c, b, s1. split; [exact Hp|]. split.
  - eapply ar_later; [split; [|exists 50; exact H1]; discriminate|]. constructor.
  - split; [exists s', IOk; split; [discriminate|exists 50; exact H2]|]. destruct oc; split; vm_compute; reflexivity.
Qed.
(** and one that never ends: the condition on while loops cannot be dropped *)
Example C74_while_true oc n : snd (rt_eval n (disk_env oc) false (rt_new (disk_env oc)) (s_ "while true { }")) = RFuel.
Proof.
  assert (Hp : parse (s_ "while true { }") = Ok [SWhile (EBool true) []]) by (vm_compute; reflexivity). unfold rt_eval. rewrite Hp.
  assert (Ha : exists sem', analyze (r_sem (rt_new (disk_env oc))) [SWhile (EBool true) []] = (sem', Ok tt)) by (eexists; destruct oc; vm_compute; reflexivity).
  destruct Ha as (sem' & ->). unfold eval_prog. cbn [run_list]. destruct n as [|n]; [reflexivity|]. cbn [eval_stmt].
  assert (W : forall ev ke E k s, snd (while_loop ev ke E k (EBool true) [] s) = IFuel).
  { clear. intros ev ke E k. induction k as [|k IH]; intros s; [reflexivity|]. cbn [while_loop]. unfold with_expr. destruct ke; cbn; apply IH. }
  assert (L : forall ev ke E k s, length (e_vars (fst (while_loop ev ke E k (EBool true) [] s))) = length (e_vars s)).
  { clear. intros ev ke E k. induction k as [|k IH]; intros s; [reflexivity|]. cbn [while_loop]. unfold with_expr. destruct ke; cbn; rewrite IH; reflexivity. }
  unfold in_scope. match goal with |- context [while_loop ?ev ?ke ?E ?k ?c ?b ?s] => pose proof (W ev ke E k s) as W1; pose proof (L ev ke E k s) as L1; destruct (while_loop ev ke E k c b s) as [s1 r1] end.
  cbn [fst snd] in *. subst r1. destruct (e_vars s1) as [|m v]; [discriminate L1|]. reflexivity.
Qed.
