(** Properties C03 (128-bit integers only), C13 (no escaping break/continue), C21 (no crashes).
    Vocabulary: Spec_Safe, Spec_Session, Spec_Run. *)
From Verif Require Import Base Ast Structs Definitions Value Variables Fs Eval Semantics Pom Parse Runtime Lib
  Spec_Run Proof_Run Spec_Session Proof_Session Spec_Decode Spec_Search Spec_Safe Proof_Safe Demo Demo_Search.
From Coq Require Import Lia.
Arguments s_ s%string_scope.

(** C03. After any history of commands every integer inside every variable of every scope is a
    128-bit signed integer. *)
Theorem C03_variables E h r : env_typed E -> session E h r -> store_i128 (e_vars (r_eval r)).
Proof. intros HE Hs. apply store_iff. apply (session_safe E h r HE Hs). Qed.
Print Assumptions C03_variables.

(** C03. The integer literals of a program text are 128-bit signed integers. *)
Theorem C03_literals cmd l e z : parse cmd = Ok l -> In e (flat_map exprs l) -> In z (literals e) -> i128 z.
Proof. intros Hp He Hz. apply parse_lits in Hp. rewrite Forall_forall in Hp. specialize (Hp e He). unfold lits in Hp. rewrite Forall_forall in Hp. exact (Hp z Hz). Qed.
Print Assumptions C03_literals.

(** C03. Every integer inside the value of an expression, evaluated in any state whose variables hold
    128-bit integers (which the previous and the next theorem provide), is a 128-bit integer. *)
Theorem C03_expressions E s e w v z : env_typed E -> store_i128 (e_vars s) -> (forall img, e_fs s = Some (FsImage img) -> bytes_ok img) ->
  (forall z, In z (literals e) -> i128 z) -> evals E s e w (Ok v) -> occurs z v -> i128 z.
Proof.
  intros HE Hs Hf Hl [_ (k & H)] Hz. pose proof (eval_expr_good False k E HE (e_vars s) (e_fs s) (proj1 (store_iff _) Hs) Hf e) as G.
  specialize (G (conj (proj2 (Forall_forall _ _) Hl) (fun X : False => match X with end)) (e_w s)). rewrite H in G. exact (G z Hz).
Qed.
Print Assumptions C03_expressions.

(** C03. Also inside a running program: statements keep all variables in range, whatever their result. *)
Theorem C03_statements E inter s l s' q : env_typed E -> e_vars s <> [] -> store_i128 (e_vars s) -> (forall img, e_fs s = Some (FsImage img) -> bytes_ok img) ->
  (forall e z, In e (flat_map exprs l) -> In z (literals e) -> i128 z) ->
  runs_list E inter s l s' q -> store_i128 (e_vars s') /\ (forall img, e_fs s' = Some (FsImage img) -> bytes_ok img).
Proof.
  intros HE Hne Hs Hf Hl [_ (n & H)].
  assert (Ho : est_ok (length (e_vars s)) s). { split; [reflexivity|]. split; [destruct (e_vars s); [congruence|cbn; lia]|]. split; [apply store_iff; exact Hs|exact Hf]. }
  destruct (run_list_good False E _ (eval_stmt_good False E inter HE n) l _ s Ho) as [(_ & _ & G1 & G2) _].
  { apply stmts_ok. apply Forall_forall. intros e He. split; [apply Forall_forall; intros z Hz; eapply Hl; eassumption|intros []]. }
  rewrite H in *. split; [apply store_iff; exact G1|exact G2].
Qed.
Print Assumptions C03_statements.

(** C13. No accepted program ends with the internal error. *)
Theorem C13_no_unhandled_control_flow E h r n inter cmd : env_typed E -> session E h r ->
  snd (rt_eval n E inter r cmd) <> RErr EUnhandledControlFlow.
Proof.
  intros HE Hs. pose proof (rt_eval_safe n E inter h r cmd HE Hs (session_safe E h r HE Hs)) as [_ G].
  destruct (snd (rt_eval n E inter r cmd)); congruence.
Qed.
Print Assumptions C13_no_unhandled_control_flow.

(** C13. A loop never passes a break or continue on, in any environment and state, accepted or not. *)
Theorem C13_loops_consume_jumps E inter s st s' q : (exists c b, st = SWhile c b) \/ (exists i e b, st = SFor i e b) ->
  runs E inter s st s' q -> q <> IBreak /\ q <> IContinue.
Proof.
  intros Hst [_ (n & H)]. destruct n as [|n]; [cbn in H; injection H as _ <-; split; discriminate|]. revert H.
  assert (W : forall ev c k b s s' q, while_loop ev n E k c b s = (s', q) -> q <> IBreak /\ q <> IContinue).
  { clear. intros ev c k b. induction k as [|k IH]; intros s s' q H; cbn [while_loop] in H; [injection H as _ <-; split; discriminate|].
    unfold with_expr in H. destruct (eval_expr n E (e_vars s) (e_fs s) c (e_w s)) as [w [v|e|p|]]; try (injection H as _ <-; split; discriminate).
    destruct (as_boolean v) as [[|]|e|p|]; try (injection H as _ <-; split; discriminate). destruct (run_list ev (with_w s w) b) as [s2 q2].
    destruct q2; try (injection H as _ <-; split; discriminate); exact (IH _ _ _ H). }
  assert (F : forall ev x b l s s' q, for_loop ev x b l s = (s', q) -> q <> IBreak /\ q <> IContinue).
  { clear. intros ev x b l. induction l as [|v l IH]; intros s s' q H; cbn [for_loop] in H; [injection H as _ <-; split; discriminate|].
    unfold est_insert in H. destruct (vars_insert x v (e_vars s)) as [vs|]; [|injection H as _ <-; split; discriminate].
    destruct (run_list ev (with_vars s vs) b) as [s2 q2]. destruct q2; try (injection H as _ <-; split; discriminate); exact (IH _ _ _ H). }
  destruct Hst as [(c & b & ->)|(i & e & b & ->)]; cbn [eval_stmt]; unfold in_scope.
  - destruct (while_loop _ n E n c b _) as [s1 q1] eqn:H1. apply W in H1. destruct (pop_scope (e_vars s1)); intros H; injection H as _ <-; [exact H1|split; discriminate].
  - match goal with |- context [let '(_, _) := ?x in _] => destruct x as [s1 q1] eqn:H1 end.
    assert (G : q1 <> IBreak /\ q1 <> IContinue).
    { destruct i; try (injection H1 as _ <-; split; discriminate). unfold with_expr in H1.
      match type of H1 with context [eval_expr ?a ?b ?c ?d ?e ?f] => destruct (eval_expr a b c d e f) as [w [v|z|p|]] end; try (injection H1 as _ <-; split; discriminate).
      destruct (as_vec v) as [items|z|p|]; try (injection H1 as _ <-; split; discriminate). exact (F _ _ _ _ _ _ _ H1). }
    destruct (pop_scope (e_vars s1)); intros H; injection H as _ <-; [exact G|split; discriminate].
Qed.
Print Assumptions C13_loops_consume_jumps.

(** C21. A release build (no overflow checks) never panics: any history, any command, any kernel, any image. *)
Theorem C21_release_never_panics E h r n inter cmd p : env_typed E -> overflow_checks E = false -> session E h r ->
  snd (rt_eval n E inter r cmd) <> RPanic p.
Proof.
  intros HE Ho Hs. pose proof (rt_eval_safe n E inter h r cmd HE Hs (session_safe E h r HE Hs)) as [_ G].
  destruct (snd (rt_eval n E inter r cmd)); try discriminate. destruct G as [_ G]. congruence.
Qed.
Print Assumptions C21_release_never_panics.

(** C21, debug build: the only panic is an arithmetic overflow; slices, unwraps, explicit panics and
    assertions never fail.  Missing: that there is none at all, which is false. *)
Theorem C21_debug_panics_are_overflows_partial E h r n inter cmd p : env_typed E -> session E h r ->
  snd (rt_eval n E inter r cmd) = RPanic p -> p = PArith /\ overflow_checks E = true.
Proof.
  intros HE Hs H. pose proof (rt_eval_safe n E inter h r cmd HE Hs (session_safe E h r HE Hs)) as [_ G]. rewrite H in G. exact G.
Qed.
Print Assumptions C21_debug_panics_are_overflows_partial.

Lemma demo_typed oc : env_typed (demo_env oc).
Proof. split; [intros n fd k nr buf [H|H]; discriminate|intros n p img H; discriminate]. Qed.

(** C21 is false of a debug build: negating the smallest integer aborts. *)
Theorem C21_refuted : exists E h r n inter cmd, env_typed E /\ session E h r /\ snd (rt_eval n E inter r cmd) = RPanic PArith.
Proof.
  exists (demo_env true), [], (rt_new (demo_env true)), 300, false, (s_ "x = -170141183460469231731687303715884105727 - 1; print -x;").
  split; [apply demo_typed|]. split; [constructor|]. vm_compute. reflexivity.
Qed.
Print Assumptions C21_refuted.

(** ** Examples *)
(** the hypotheses hold: a typed environment with an image and a kernel that returns arbitrary bytes, and
    a history of three commands in it *)
Definition noise (b : N) : str := repeat b 200.
Lemma noise_bytes b : (b < 256)%N -> Forall (fun x => (x < 256)%N) (noise b).
Proof. intros H. apply Forall_forall. intros x Hx. apply repeat_spec in Hx. subst x. exact H. Qed.
Lemma noise_len b : zlen (noise b) = 200%Z.
Proof. unfold zlen, noise. rewrite repeat_length. reflexivity. Qed.
Definition wild_env (oc : bool) : env :=
  mk_env oc (fun n _ _ => IoOk 3 (noise (N.of_nat n mod 256)%N)) (fun n p => if n =? 0 then OpDir 3 (Some 0x9123683E%Z) else OpFile (Some (noise 255)))
         (fun n _ => if Nat.even n then SkOk else SkErr 2) None.
Lemma wild_typed oc : env_typed (wild_env oc).
Proof.
  split.
  - intros n fd k nr buf [H|H]; [|discriminate]. assert (H' : IoOk 3 (noise (N.of_nat n mod 256)%N) = IoOk nr buf) by exact H. clear H.
    remember (noise (N.of_nat n mod 256)%N) as x eqn:Ex. injection H' as <- <-. subst x. split; [split; [lia|reflexivity]|]. apply noise_bytes. apply N.mod_lt. discriminate.
  - intros n p img H. assert (H' : (if n =? 0 then OpDir 3 (Some 0x9123683E%Z) else OpFile (Some (noise 255))) = OpFile (Some img)) by exact H. clear H.
    destruct (n =? 0); [discriminate|]. remember (noise 255) as x eqn:Ex. injection H' as <-. subst x. split; [apply noise_bytes; reflexivity|rewrite noise_len; reflexivity].
Qed.
Definition history : list str :=
  [s_ "x = 170141183460469231731687303715884105727; i = 0; while true { i += 1; if i > 3 { break; } }";
   s_ "filesystem ""/mnt"";";
   s_ "y = x * 2; z = -x - 1;"].
Example history_session oc : exists r, session (wild_env oc) history r /\
  vars_get (s_ "i") (e_vars (r_eval r)) = Some (VInt 4) /\ e_fs (r_eval r) = Some (FsMounted 3) /\ vars_get (s_ "z") (e_vars (r_eval r)) = None.
Proof.
  pose proof (ses_step (wild_env oc) [] _ 300 false (s_ "x = 170141183460469231731687303715884105727; i = 0; while true { i += 1; if i > 3 { break; } }") (ses_new _)) as H1.
  pose proof (ses_step _ _ _ 300 false (s_ "filesystem ""/mnt"";") H1) as H2. pose proof (ses_step _ _ _ 300 false (s_ "y = x * 2; z = -x - 1;") H2) as H3.
  eexists. split; [exact H3|]. clear. destruct oc; vm_compute; auto.
Qed.
(** so in this session, with any further command: *)
Example history_safe oc r n inter cmd : session (wild_env oc) history r ->
  store_i128 (e_vars (r_eval r)) /\ snd (rt_eval n (wild_env oc) inter r cmd) <> RErr EUnhandledControlFlow /\
  (oc = false -> forall p, snd (rt_eval n (wild_env oc) inter r cmd) <> RPanic p).
Proof.
  intros H. split; [exact (C03_variables _ _ _ (wild_typed oc) H)|]. split; [exact (C13_no_unhandled_control_flow _ _ _ _ _ _ (wild_typed oc) H)|].
  intros Ho p. exact (C21_release_never_panics _ _ _ _ _ _ p (wild_typed oc) Ho H).
Qed.
(** a program whose break is executed inside an if inside a loop is accepted and runs to its end; the same
    break outside the loop is rejected before it runs *)
Example break_runs : snd (demo_run true false "i = 0; while true { i += 1; if i > 3 { break; } } print i;") = ROk. Proof. vm_compute. reflexivity. Qed.
Example break_rejected : snd (demo_run true false "if true { break; }") = RErr (EJumpOutsideLoop (s_ "break")). Proof. vm_compute. reflexivity. Qed.
(** the casts of an accepted program that a debug build cannot survive: an address close to 2^64 *)
Definition image_env : env := mk_env true (fun _ _ _ => IoErr) (fun _ _ => OpFile (Some (zeros 65600 ++ s_ "_BHRfS_M"))) (fun _ _ => SkOk) None.
Example cast_panics : snd (rt_eval 300 image_env false (rt_new image_env) (s_ "filesystem ""img""; print (struct btrfs_key) 18446744073709551615;")) = RPanic PArith.
Proof. vm_compute. reflexivity. Qed.
