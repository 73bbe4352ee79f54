(** REPL and script drivers: /repo/src/main.rs:78-137. *)
From Verif Require Import Base Value Fs Eval Runtime Input.

(** Result of [editor.readline] (main.rs:86-113) *)
Inductive readline : Type := RlLine (line : str) | RlInterrupted | RlEof | RlError.

(** main.rs:88-89 *)
Definition clean (line : str) : str := fixup_input (strip_comments line).

(** How the REPL ended: by [break] (quit or end of file), a crash or exhausted
    budget while evaluating, or still waiting for input after the given events. *)
Inductive repl_end : Type := ReDone | ReCrash (p : panic) | ReFuel | ReWaiting.

(** main.rs:85-115: the loop of [repl] over the sequence of readline results; also
    returns the result of each evaluated line.  The editor, the history file and
    messages on stdout/stderr are not modelled. *)
Fixpoint repl_loop (n : nat) (E : env) (r : rt) (evs : list readline) : rt * list eres * repl_end :=
  match evs with
  | [] => (r, [], ReWaiting)
  | RlLine line :: evs' =>
    let '(r', res) := rt_eval n E true r (clean line) in
    match res with
    | RQuit => (r', [res], ReDone)
    | RPanic p => (r', [res], ReCrash p)
    | RFuel => (r', [res], ReFuel)
    | ROk | RErr _ =>
      let '(r'', l, e) := repl_loop n E r' evs' in (r'', res :: l, e)
    end
  | RlInterrupted :: evs' => repl_loop n E r evs'
  | RlEof :: _ => (r, [], ReDone)
  | RlError :: evs' => repl_loop n E r evs'
  end.
(** main.rs:78-120 *)
Definition repl (n : nat) (E : env) (evs : list readline) : rt * list eres * repl_end :=
  repl_loop n E (rt_new E) evs.

(** Exit of a script run *)
Inductive script_exit : Type := ExSuccess | ExFailure | ExCrash (p : panic) | ExFuel.
(** main.rs:122-137; [contents] is None when the file cannot be opened or is not UTF-8 *)
Definition script (n : nat) (E : env) (contents : option str) : option rt * script_exit :=
  match contents with
  | None => (None, ExFailure)
  | Some c =>
    let '(r, res) := rt_eval n E false (rt_new E) (strip_comments c) in
    (Some r, match res with
             | ROk | RQuit => ExSuccess
             | RErr _ => ExFailure
             | RPanic p => ExCrash p
             | RFuel => ExFuel
             end)
  end.
