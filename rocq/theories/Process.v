(** The whole process: /repo/src/main.rs:21-150, after the command line is parsed (clap, main.rs:140,
    is not modelled). *)
From Verif Require Import Base Value Variables Semantics Fs Eval Runtime Input Main.
Arguments s_ s%string_scope.

(** What the surroundings of the language answer, besides [env]: whether the logger and the line
    editor start (main.rs:43,51) and whether the history file can be written (main.rs:63).  Loading
    the history ignores failures (main.rs:59). *)
Record host : Type := mk_host { logger_ok : bool; editor_ok : bool; save_ok : bool }.

(** main.rs:22-29: with a script (its contents as in [Main.script]) or interactive *)
Inductive mode : Type := MScript (contents : option str) | MRepl.

(** Lines on stderr other than the warnings of [search] (which are [EvWarn] events) *)
Inductive notice : Type :=
| NtError (e : error)       (* "Error: {}", main.rs:98,133 *)
| NtHint                    (* "Press Ctrl-D or type 'quit' to quit", main.rs:104 *)
| NtReadError               (* "Unexpected error: {}", main.rs:111 *)
| NtMain                    (* "Error: {:?}" by the Rust runtime when [main] returns Err *)
| NtPanic.                  (* the message of a panic *)

(** How the process ends: exit code 0, 1 (main returns Err) or 101 (panic), or not (yet): it waits
    for input, or the step budget is exhausted *)
Inductive status : Type := StExit (code : Z) | StWaiting | StBudget.

(** The process so far: what it did to the world, the results of the commands, stderr, whether the
    history file was written, and the status *)
Record proc : Type := mk_proc { p_world : world; p_results : list eres; p_err : list notice; p_save : bool; p_status : status }.

(** [println!] to stdout, the same file the sink writes to (main.rs:143-148): it panics when the write
    fails (false) *)
Definition println (E : env) (w : world) (line : str) : world * bool :=
  let txt := line ++ nl in
  match sink E (tick w) txt with
  | SkOk => (mk_world (w_log w ++ [EvWrite txt]) (w_out w ++ txt), true)
  | SkErr n => (mk_world (w_log w ++ [EvWrite txt]) (w_out w ++ firstn n txt), false)
  end.
Fixpoint printlns (E : env) (w : world) (lines : list str) : world * bool :=
  match lines with
  | [] => (w, true)
  | l :: lines' => let '(w', ok) := println E w l in if ok then printlns E w' lines' else (w', false)
  end.
(** main.rs:69-76, Cargo.toml:4 *)
Definition welcome_lines : list str :=
  [s_ "btrd (the btrfs debugger) v" ++ s_ "0.5.3"; s_ "Type 'help' for help"; []].

(** eval.rs:816-828 [Eval::new], after the interactions of w ([eval_new] is the case of none) *)
Definition eval_start (E : env) (w : world) : est :=
  let vs := vars_new VInt VFun in
  match getcwd E with
  | Some cwd =>
    let '(w', r) := fs_new E cwd w in
    mk_est vs (match r with Ok f => Some f | _ => None end) w'
  | None => mk_est vs None w
  end.
Definition rt_start (E : env) (w : world) : rt := mk_rt sem_new (eval_start E w).
Definition rt_with_w (r : rt) (w : world) : rt := mk_rt (r_sem r) (with_w (r_eval r) w).

(** How the loop of main.rs:85-115 ends *)
Inductive loop_end : Type := LeBreak | LePanic | LeWaiting | LeBudget.
(** main.rs:85-115 with everything written to stdout and stderr *)
Fixpoint process_loop (n : nat) (E : env) (r : rt) (evs : list readline)
  : rt * list eres * list notice * loop_end :=
  match evs with
  | [] => (r, [], [], LeWaiting)
  | RlLine line :: evs' =>                                                     (* main.rs:87-102 *)
    let '(r', q) := rt_eval n E true r (clean line) in
    match q with
    | ROk => let '(r2, qs, ns, x) := process_loop n E r' evs' in (r2, q :: qs, ns, x)
    | RQuit => (r', [q], [], LeBreak)
    | RErr e => let '(r2, qs, ns, x) := process_loop n E r' evs' in (r2, q :: qs, NtError e :: ns, x)
    | RPanic _ => (r', [q], [NtPanic], LePanic)
    | RFuel => (r', [q], [], LeBudget)
    end
  | RlInterrupted :: evs' =>                                                   (* main.rs:103-105 *)
    let '(r2, qs, ns, x) := process_loop n E r evs' in (r2, qs, NtHint :: ns, x)
  | RlEof :: _ =>                                                              (* main.rs:106-109 *)
    let '(w, ok) := println E (e_w (r_eval r)) (s_ "quit") in
    if ok then (rt_with_w r w, [], [], LeBreak) else (rt_with_w r w, [], [NtPanic], LePanic)
  | RlError :: evs' =>                                                         (* main.rs:110-113 *)
    let '(w, ok) := println E (e_w (r_eval r)) (s_ "quit") in
    if ok then let '(r2, qs, ns, x) := process_loop n E (rt_with_w r w) evs' in (r2, qs, NtReadError :: ns, x)
    else (rt_with_w r w, [], [NtReadError; NtPanic], LePanic)
  end.

(** main.rs:78-120 [repl] *)
Definition process_repl (n : nat) (E : env) (H : host) (evs : list readline) : proc :=
  let w0 := mk_world [] [] in
  if editor_ok H then
    let '(w, ok) := printlns E w0 welcome_lines in
    if ok then
      let '(r, qs, ns, x) := process_loop n E (rt_start E w) evs in
      match x with
      | LeBreak => if save_ok H then mk_proc (e_w (r_eval r)) qs ns true (StExit 0)
                   else mk_proc (e_w (r_eval r)) qs (ns ++ [NtMain]) false (StExit 1)
      | LePanic => mk_proc (e_w (r_eval r)) qs ns false (StExit 101)
      | LeWaiting => mk_proc (e_w (r_eval r)) qs ns false StWaiting
      | LeBudget => mk_proc (e_w (r_eval r)) qs ns false StBudget
      end
    else mk_proc w [] [NtPanic] false (StExit 101)
  else mk_proc w0 [] [NtMain] false (StExit 1).

(** main.rs:122-137 [script] *)
Definition process_script (n : nat) (E : env) (contents : option str) : proc :=
  let w0 := mk_world [] [] in
  match contents with
  | None => mk_proc w0 [] [NtMain] false (StExit 1)
  | Some c =>
    let '(r, q) := rt_eval n E false (rt_start E w0) (strip_comments c) in
    let w := e_w (r_eval r) in
    match q with
    | ROk | RQuit => mk_proc w [q] [] false (StExit 0)
    | RErr e => mk_proc w [q] [NtError e; NtMain] false (StExit 1)
    | RPanic _ => mk_proc w [q] [NtPanic] false (StExit 101)
    | RFuel => mk_proc w [q] [] false StBudget
    end
  end.

(** main.rs:139-150 [main] *)
Definition process (n : nat) (E : env) (H : host) (m : mode) (evs : list readline) : proc :=
  if logger_ok H then
    match m with
    | MScript c => process_script n E c
    | MRepl => process_repl n E H evs
    end
  else mk_proc (mk_world [] []) [] [NtMain] false (StExit 1).
