(** C66: which filesystem the debugger talks to. *)
From Verif Require Import Base Ast Pom Parse Structs Definitions Value Variables Semantics Fs Eval Runtime Lib Demo Spec_Session Spec_Fs Spec_Text Spec_Access Proof_Access.
From Coq Require Import Lia.
Arguments s_ s%string_scope.

(** In every session the current filesystem is the one of the last successful open, and
    every kernel query went to the filesystem selected when it was made. *)
Theorem C66_queries_go_to_the_selected_filesystem :
  forall E h r, session E h r ->
  selected E (w_log (e_w (r_eval r))) (e_fs (r_eval r)) /\ only_selected E (w_log (e_w (r_eval r))).
Proof. intros E h r H. exact (consistent_session E h r H). Qed.
Print Assumptions C66_queries_go_to_the_selected_filesystem.

(** the specification determines that filesystem *)
Theorem C66_the_selected_filesystem_is_unique :
  forall E log o o', selected E log o -> selected E log o' -> o = o'.
Proof. intros E log o o'. apply selected_fun. Qed.
Print Assumptions C66_the_selected_filesystem_is_unique.

(** At startup exactly the working directory is tried (nothing if it is unknown). *)
Theorem C66_startup_opens_the_working_directory :
  forall E, w_log (e_w (r_eval (rt_new E))) = match getcwd E with Some d => [EvOpen d] | None => [] end.
Proof.
  intros E. cbn [rt_new r_eval]. unfold eval_new. destruct (getcwd E) as [d|]; [|reflexivity].
  destruct (fs_new E d (mk_world [] [])) as [w r] eqn:Hf. apply fs_new_cases in Hf. destruct Hf as (Hl & _). destruct r; exact Hl.
Qed.
Print Assumptions C66_startup_opens_the_working_directory.

(** Only filesystem commands open anything or change the filesystem. *)
Theorem C66_other_commands_open_nothing :
  forall n E inter r cmd r' q, (forall l, parse cmd = Ok l -> ~ selects l) -> rt_eval n E inter r cmd = (r', q) ->
  e_fs (r_eval r') = e_fs (r_eval r) /\
  exists l, w_log (e_w (r_eval r')) = w_log (e_w (r_eval r)) ++ l /\ forall p, ~ In (EvOpen p) l.
Proof. exact no_select. Qed.
Print Assumptions C66_other_commands_open_nothing.

(** Two mounted filesystems, a path that cannot be opened, one search after each. *)
Definition two_mounts : env := mk_env true (fun _ _ _ => IoErr)
  (fun _ p => if str_eqb p (s_ "/a") then OpDir 3 (Some btrfs_type) else if str_eqb p (s_ "/b") then OpDir 4 (Some btrfs_type) else OpNone)
  (fun _ _ => SkOk) (Some (s_ "/home")).
Definition ask : string := "x = search(1, key(0, 255, 0, 9));".
Definition access_run : rt :=
  fst (rt_eval 300 two_mounts false (fst (rt_eval 300 two_mounts false (fst (rt_eval 300 two_mounts false (rt_new two_mounts)
    (s_ ("filesystem ""/a""; " ++ ask)%string))) (s_ ("filesystem ""/b""; " ++ ask)%string))) (s_ "filesystem ""/nowhere"";")).
Definition event_tag (e : event) : Z := match e with EvOpen _ => 0 | EvIoctl fd _ => fd | _ => 99 end.
Example C66_example : session two_mounts [s_ ("filesystem ""/a""; " ++ ask)%string; s_ ("filesystem ""/b""; " ++ ask)%string; s_ "filesystem ""/nowhere"";"] access_run /\
  map event_tag (w_log (e_w (r_eval access_run))) = [0; 0; 3; 0; 4; 0]%Z /\ e_fs (r_eval access_run) = Some (FsMounted 4).
Proof.
  split; [|split; vm_compute; reflexivity].
  apply (ses_step two_mounts [_; _]). apply (ses_step two_mounts [_]). apply (ses_step two_mounts []). constructor.
Qed.
