(** C71: what reaches the terminal. *)
From Verif Require Import Base Ast Structs Definitions Value Variables Fs Eval Semantics Runtime Spec_Decode Spec_Search Spec_Run Spec_Text Spec_Safe Spec_Session Spec_Utf8 Spec_Output
  Lib Demo Proof_Safe Proof_Run Proof_Display Proof_Output Properties_Safe Properties_Text.
Require Import Lia.
Arguments s_ s%string_scope.

(** Everything a session has written is printable ASCII or white space, whatever is on the
    disk (file names with terminal escape sequences, say), whatever the kernel answers and
    however each command ended. *)
Theorem C71_output_is_safe_for_a_terminal :
  forall E h r, env_typed E -> session E h r -> Forall unicode h -> terminal_safe (w_out (e_w (r_eval r))).
Proof. intros E h r HE Hs Hu. exact (proj2 (proj2 (session_text E h r HE Hs Hu))). Qed.
Print Assumptions C71_output_is_safe_for_a_terminal.

(** Every value held in a variable consists of byte strings and printable names, *)
Theorem C71_variables_are_textual :
  forall E h r, env_typed E -> session E h r -> Forall unicode h -> textual_vars (e_vars (r_eval r)).
Proof. intros E h r HE Hs Hu. apply textual_vars_iff. exact (proj1 (session_text E h r HE Hs Hu)). Qed.
Print Assumptions C71_variables_are_textual.

(** and so does the value of every expression, *)
Theorem C71_values_are_textual :
  forall E h r e w v, env_typed E -> session E h r -> Forall unicode h -> Forall unicode (strings e) ->
  evals E (r_eval r) e w (Ok v) -> textual v.
Proof.
  intros E h r e w v HE Hs Hu He (_ & k & Hv). destruct (session_text E h r HE Hs Hu) as (H1 & H2 & _).
  pose proof (eval_expr_text k E HE _ _ H1 H2 e He (e_w (r_eval r))) as G. rewrite Hv in G. exact G.
Qed.
Print Assumptions C71_values_are_textual.

(** so that the line-by-line format of C55 describes every value a session can print. *)
Theorem C71_every_value_is_shown_line_by_line :
  forall E h r e w v, env_typed E -> session E h r -> Forall unicode h -> Forall unicode (strings e) ->
  evals E (r_eval r) e w (Ok v) ->
  exists ls, shown_lines v ls /\ display v = join ls /\ Forall (fun l => ~ In 10%N l) ls.
Proof.
  intros E h r e w v HE Hs Hu He Hv. pose proof (C71_values_are_textual E h r e w v HE Hs Hu He Hv) as T. apply textual_names in T. destruct T as [T1 T2].
  destruct (C55_every_value_has_lines v T2) as (ls & Hl). exists ls. split; [exact Hl|]. destruct (C55_values_display_line_by_line v T1) as [A B]. split; [exact (A ls Hl)|exact (B ls Hl)].
Qed.
Print Assumptions C71_every_value_is_shown_line_by_line.

(** A file name that would clear the screen (ESC [2J), read from the kernel. *)
Definition evil_name : str := 27%N :: s_ "[2J".
Definition evil_item : str :=
  repeat 0%N 8 ++ (1%N :: repeat 0%N 7) ++ (2%N :: repeat 0%N 7) ++ [12%N; 0%N; 0%N; 0%N] ++ [14%N; 0%N; 0%N; 0%N] ++
  (7%N :: repeat 0%N 7) ++ [4%N; 0%N] ++ evil_name.
Definition evil_env : env :=
  mk_env true (fun n _ _ => if n =? 1 then IoOk 1 evil_item else IoOk 0 []) (fun _ _ => OpDir 3 (Some 0x9123683E%Z)) (fun _ _ => SkOk) None.
Lemma evil_typed : env_typed evil_env.
Proof.
  split.
  - intros n fd k nr buf H. assert (H' : (if n =? 1 then IoOk 1 evil_item else IoOk 0 []) = IoOk nr buf \/ (if n =? 1 then IoOk 1 evil_item else IoOk 0 []) = IoOverflow nr buf) by exact H. clear H.
    assert (B : Forall (fun b => (b < 256)%N) evil_item) by (unfold evil_item; repeat (apply Forall_cons; [reflexivity|]); apply Forall_nil).
    destruct (n =? 1); destruct H' as [H|H]; try discriminate; remember evil_item as x; injection H as <- <-; (split; [split; [lia|reflexivity]|]); [exact B|constructor].
  - intros n p img H. discriminate.
Qed.
Example C71_example : exists r,
  session evil_env [s_ "filesystem ""/mnt""; for i in search(5, key(1, 12, 2, 0)) { x = i.name; print i.name; print i; }"] r /\
  w_out (e_w (r_eval r)) = s_ "\x1b[2J
struct btrfs_inode_ref {
    .index = 7,
    .name_len = 4,
    .name = \x1b[2J,
}
".
Proof.
  eexists. split; [exact (ses_step _ _ _ 300 false _ (ses_new _))|]. vm_compute. reflexivity.
Qed.
