(** C91: a script does what its lines do when they are typed one by one. *)
From Verif Require Import Base Ast Pom Parse Value Variables Semantics Fs Eval Runtime Input Main Process Lib Demo Spec_Session Spec_Grammar Spec_Render Spec_Input Spec_Text Spec_Echo Spec_Driver Spec_Process Spec_Lines
  Proof_Parse Proof_Complete3 Proof_Render Proof_Split Proof_Input Proof_Echo Proof_Process Proof_Lines Properties_Echo Properties_Process.
From Coq Require Import Lia.
Arguments s_ s%string_scope.
(** As long as the outside world does not change: running a script and typing its commands, one line
    for each, ends in the same way, with the same variables and filesystem, the same interactions,
    and the same output except for the echoes; unless the analyser rejects the script, in which case
    nothing of it is run, and typing its lines does not succeed either. *)
Theorem C91_a_script_can_be_typed :
  forall n E text ls ts rz qz, steady E -> has_lines text ls -> covers ls ts ->
  rt_eval n E false (rt_new E) (strip_comments text) = (rz, qz) ->
  exists r' q, typed n E (rt_new E) ts r' q /\
  (q = qz /\ same_but_echo (r_eval rz) (r_eval r') \/
   r_eval rz = r_eval (rt_new E) /\ (exists e, qz = RErr e) /\ q <> ROk).
Proof.
  intros n E text ls ts rz qz HE HL HC HR. apply (script_typed n E HE text ls ts (rt_new E) (rt_new E) rz qz HL HC); [discriminate| |exact HR]. split; try reflexivity. constructor.
Qed.
Print Assumptions C91_a_script_can_be_typed.
(** Without expression statements nothing differs, and the outside world may change. *)
Theorem C91_without_echo_nothing_differs :
  forall n E text ls ts rz qz, has_lines text ls -> covers ls ts ->
  (forall l, parse (strip_comments text) = Ok l -> ~ has_expression_statement l) ->
  rt_eval n E false (rt_new E) (strip_comments text) = (rz, qz) ->
  exists r' q, typed n E (rt_new E) ts r' q /\
  (q = qz /\ r_eval r' = r_eval rz /\ (qz = ROk -> r' = rz) \/
   r_eval rz = r_eval (rt_new E) /\ (exists e, qz = RErr e) /\ q <> ROk).
Proof.
  intros n E text ls ts rz qz HL HC HN HR. apply (script_typed_same n E text ls ts (rt_new E) rz qz HL HC); [discriminate|exact HN|exact HR].
Qed.
Print Assumptions C91_without_echo_nothing_differs.
(** typing has one outcome *)
Theorem C91_typing_has_one_outcome :
  forall n E r ts r1 q1 r2 q2, typed n E r ts r1 q1 -> typed n E r ts r2 q2 -> r1 = r2 /\ q1 = q2.
Proof. intros n E r ts r1 q1 r2 q2 H1 H2. exact (typed_one n E r ts r1 q1 H1 r2 q2 H2). Qed.
Print Assumptions C91_typing_has_one_outcome.
(** hence a script succeeds exactly when all its lines do *)
Theorem C91_success_is_the_same :
  forall n E text ls ts r' q, steady E -> has_lines text ls -> covers ls ts -> typed n E (rt_new E) ts r' q ->
  (snd (rt_eval n E false (rt_new E) (strip_comments text)) = ROk <-> q = ROk).
Proof.
  intros n E text ls ts r' q HE HL HC HT. destruct (rt_eval n E false (rt_new E) (strip_comments text)) as [rz qz] eqn:HR.
  destruct (C91_a_script_can_be_typed n E text ls ts rz qz HE HL HC HR) as (r2 & q2 & HT2 & D). destruct (typed_one _ _ _ _ _ _ HT _ _ HT2) as [<- <-]. cbn [snd].
  destruct D as [[<- _]|(_ & (e & ->) & N)]; [tauto|]. split; [discriminate|]. intros X. elim (N X).
Qed.
Print Assumptions C91_success_is_the_same.
(** The two processes: when [btrd script] ends with exit code 0, then so does [btrd] with the lines as
    input (if the history can be saved); its output contains the script's in order, and on stderr
    there is nothing but a syntax error for each line without code. *)
Theorem C91_the_processes :
  forall n E H text ls ts evs, steady E -> logger_ok H = true -> editor_ok H = true -> save_ok H = true ->
  has_lines text ls -> covers ls ts ->
  let p1 := process n E H (MScript (Some text)) evs in
  let p2 := process n E H MRepl (map RlLine ts ++ [RlEof]) in
  p_status p1 = StExit 0 ->
  p_status p2 = StExit 0 /\ subsequence (stdout p1) (stdout p2) /\
  Forall (fun x => x = NtError EParse) (p_err p2) /\ (Forall (fun t => ~ only_comment t) ts -> p_err p2 = []).
Proof.
  intros n E H text ls ts evs HE HL HD HS Hls HC. cbv zeta. assert (HR : reliable E) by (intros i t; apply (steady_sink E HE)).
  pose proof (C77_script n E H text evs HL) as S. cbv zeta in S. destruct (rt_eval n E false (rt_new E) (strip_comments text)) as [rz qz] eqn:R. destruct S as (S1 & _ & _ & S2 & _).
  rewrite S2. intros HQ. assert (HQ2 : qz = ROk \/ qz = RQuit) by (destruct qz; try discriminate; auto). clear HQ S2. unfold stdout at 1. rewrite S1.
  destruct (script_typed n E HE text ls ts (rt_new E) (first_state E) rz qz Hls HC) as (r' & q & HT & D); [discriminate|apply start_alike; exact HE|exact R|].
  destruct D as [[-> [_ _ DW]]|(_ & (e & ->) & _)]; [|destruct HQ2; discriminate].
  assert (SB : forall u, subsequence (w_out (e_w (r_eval rz))) (w_out (e_w (r_eval r')) ++ u)).
  { intros u. replace (w_out (e_w (r_eval r')) ++ u) with (w_out (wrote (e_w (r_eval r')) u)) by reflexivity.
    apply (C69_output_is_a_subsequence (mk_rt sem_new (mk_est (e_vars (r_eval rz)) (e_fs (r_eval rz)) (e_w (r_eval rz)))) (mk_rt sem_new (mk_est (e_vars (r_eval rz)) (e_fs (r_eval rz)) (wrote (e_w (r_eval r')) u)))).
    split; try reflexivity. cbn. apply ec_echo. exact DW. }
  assert (X : w_out (e_w (r_eval (first_state E))) = banner) by (unfold first_state, rt_start, eval_start; destruct (getcwd E); reflexivity).
  destruct (typed_listens _ _ _ _ _ _ HT) as [T1 T2]. destruct HQ2 as [-> | ->].
  - destruct (T1 eq_refl) as (out & err & H1 & H2 & H3). destruct (C77_end_of_file n E H (map RlLine ts) [] r' out err HL HD HR H1) as (P1 & _ & P2).
    rewrite HS in P2. injection P2 as P2 P3. split; [exact P2|]. split; [|rewrite P3; split; [exact H2|exact H3]]. rewrite P1. rewrite app_assoc.
    rewrite <- X, <- (listens_out _ _ _ _ _ _ _ H1). apply SB.
  - destruct (T2 eq_refl) as (pre & l & post & r1 & out & err & -> & H1 & H2 & H3 & H4). rewrite map_app, <- app_assoc. cbn [map app].
    destruct (C77_quit n E H (map RlLine pre) l (map RlLine post ++ [RlEof]) r1 r' out err HL HD HR H1 H4) as ((last & P0 & P1) & _ & P2).
    rewrite HS in P2. injection P2 as P2 P3. split; [exact P2|]. split; [|rewrite P3; split; [exact H2|exact H3]]. rewrite P1. rewrite app_assoc.
    rewrite <- X, <- (listens_out _ _ _ _ _ _ _ H1), <- P0. rewrite <- (app_nil_r (w_out (e_w (r_eval r')))). apply SB.
Qed.
Print Assumptions C91_the_processes.
Lemma rendered p : wf_stmts unambiguous_start p -> g_program unambiguous_start (render_program p) p.
Proof. intros H. unfold render_program. rewrite <- (app_nil_r (flat_map render_stmt p)). constructor; [apply (proj2 render_stmts), H|apply ws_nil]. Qed.
(** a script of five lines, one of them empty, and the four lines to type *)
Definition C91_lines : list str := [s_ "x = 1; # one"; []; s_ "while x < 4"; s_ "{x += 1;}"; s_ "print x;"].
Definition C91_typed : list str := [s_ "x = 1; # one"; []; s_ "while x < 4 {x += 1;}"; s_ "print x;"].
Definition C91_text : str := s_ "x = 1; # one

while x < 4
{x += 1;}
print x;
".
Ltac nob := intros [? ?]; discriminate.
Ltac wfs := repeat first [apply wfs_nil | apply wfs_cons | apply wf_if | apply wf_while | apply wf_print | apply wf_assign | apply wf_int
  | apply wf_ident | (apply wf_eq; [| |reflexivity| |]) | (apply wf_bin; [| |discriminate| |]) | (constructor; [unfold letter; lia|apply Forall_nil]) | nob | lia | discriminate].
Example C91_example :
  has_lines C91_text C91_lines /\ covers C91_lines C91_typed /\
  (exists r, rt_eval 300 (demo_env true) false (rt_new (demo_env true)) (strip_comments C91_text) = (r, ROk) /\ w_out (e_w (r_eval r)) = s_ "4" ++ [10%N]) /\
  p_results (process 300 (demo_env true) demo_host MRepl (map RlLine C91_typed ++ [RlEof])) = [ROk; RErr EParse; ROk; ROk].
Proof.
  assert (NI : forall x (l : str), existsb (N.eqb x) l = false -> ~ In x l).
  { intros x l HX HI. assert (existsb (N.eqb x) l = true) by (apply existsb_exists; exists x; split; [exact HI|apply N.eqb_refl]). congruence. }
  split; [|split; [|split]].
  - assert (HL : forall l t ls, existsb (N.eqb 10) l = false -> last l 0%N <> 13%N -> has_lines t ls -> has_lines (l ++ [10%N] ++ t) (l :: ls)).
    { intros l t ls A B C. apply hl_line; [apply NI; exact A| |left; reflexivity|exact C]. intros _ l' ->. rewrite last_last in B. apply B. reflexivity. }
    unfold C91_text, C91_lines. apply (HL (s_ "x = 1; # one")); [reflexivity|discriminate|]. apply (HL []); [reflexivity|discriminate|]. apply (HL (s_ "while x < 4")); [reflexivity|discriminate|].
    apply (HL (s_ "{x += 1;}")); [reflexivity|discriminate|]. apply (HL (s_ "print x;") [] []); [reflexivity|discriminate|]. constructor.
  - assert (CO : forall l, existsb (N.eqb 35) l = false -> code_of l l) by (intros l A; right; split; [reflexivity|apply NI; exact A]).
    assert (C1 : code_of (s_ "x = 1; # one") (s_ "x = 1; ")).
    { left. split.
      - repeat (apply cm_char; [discriminate|discriminate|]). apply (cm_comment (s_ " one")).
      - intros (a & b & E). assert (X : In 34%N (s_ "x = 1; # one")) by (rewrite E, !in_app_iff; right; left; right; left; reflexivity). revert X. apply NI. reflexivity. }
    apply (cv_group [s_ "x = 1; # one"] _ [s_ "x = 1; "] [SAssign (EIdent [120%N]) (EInt 1)]); [discriminate|constructor; [exact C1|constructor]|apply NI; reflexivity|exact C1| |].
    { apply (program_blank (s_ "x = 1;")). apply (rendered [SAssign (EIdent [120%N]) (EInt 1)]). wfs; try (cbn; unfold primary_level; lia); repeat split; nob. }
    apply (cv_group [ [] ] _ [ [] ] []); [discriminate|constructor; [apply CO; reflexivity|constructor]|exact (fun x => x)|apply CO; reflexivity|apply (g_prog _ [] [] []); constructor|].
    apply (cv_group [s_ "while x < 4"; s_ "{x += 1;}"] _ [s_ "while x < 4"; s_ "{x += 1;}"] [SWhile (EBin OLessThan (EIdent [120%N]) (EInt 4)) [SAssign (EIdent [120%N]) (EBin OPlus (EIdent [120%N]) (EInt 1))]]);
      [discriminate|constructor; [apply CO; reflexivity|constructor; [apply CO; reflexivity|constructor]]|apply NI; reflexivity|apply CO; reflexivity| |].
    { apply (rendered [SWhile (EBin OLessThan (EIdent [120%N]) (EInt 4)) [SAssign (EIdent [120%N]) (EBin OPlus (EIdent [120%N]) (EInt 1))]]). wfs; try (cbn; unfold primary_level; lia); repeat split; nob. }
    apply (cv_group [s_ "print x;"] _ [s_ "print x;"] [SPrint (EIdent [120%N])] [] []); [discriminate|constructor; [apply CO; reflexivity|constructor]|apply NI; reflexivity|apply CO; reflexivity| |constructor].
    apply (rendered [SPrint (EIdent [120%N])]). wfs; repeat split; nob.
  - destruct (rt_eval 300 (demo_env true) false (rt_new (demo_env true)) (strip_comments C91_text)) as [r q] eqn:H.
    assert (X : q = ROk /\ w_out (e_w (r_eval r)) = s_ "4" ++ [10%N]).
    { change q with (snd (r, q)). change r with (fst (r, q)) at 2. rewrite <- H. split; vm_compute; reflexivity. }
    destruct X as [-> X]. exists r. auto.
  - vm_compute. reflexivity.
Qed.
