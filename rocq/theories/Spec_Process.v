(** What a run of the program shows and how it ends. *)
From Verif Require Import Base Value Semantics Fs Eval Runtime Input Main Process Spec_Driver.
Arguments s_ s%string_scope.

(** the welcome message, and the line shown at the end of input *)
Definition banner : str := s_ "btrd (the btrfs debugger) v0.5.3
Type 'help' for help

".
Definition quit_line : str := s_ "quit
".
Definition stdout (p : proc) : str := w_out (p_world p).

(** [hears n E r x r' out err]: after reading x in state r the loop goes on in state r'; out is what
    was added to stdout and err what was added to stderr *)
Inductive hears (n : nat) (E : env) : rt -> readline -> rt -> str -> list notice -> Prop :=
| he_good r l r' out : rt_eval n E true r (clean l) = (r', ROk) ->
    w_out (e_w (r_eval r')) = w_out (e_w (r_eval r)) ++ out -> hears n E r (RlLine l) r' out []
| he_bad r l r' out e : rt_eval n E true r (clean l) = (r', RErr e) ->
    w_out (e_w (r_eval r')) = w_out (e_w (r_eval r)) ++ out -> hears n E r (RlLine l) r' out [NtError e]
| he_interrupt r : hears n E r RlInterrupted r [] [NtHint]
| he_read_error r r' :
    r_sem r' = r_sem r -> e_vars (r_eval r') = e_vars (r_eval r) -> e_fs (r_eval r') = e_fs (r_eval r) ->
    w_log (e_w (r_eval r')) = w_log (e_w (r_eval r)) ++ [EvWrite quit_line] ->
    w_out (e_w (r_eval r')) = w_out (e_w (r_eval r)) ++ quit_line ->
    hears n E r RlError r' quit_line [NtReadError].
(** and for a sequence of inputs *)
Inductive listens (n : nat) (E : env) : rt -> list readline -> rt -> str -> list notice -> Prop :=
| li_nil r : listens n E r [] r [] []
| li_cons r x r1 o1 n1 xs r2 o2 n2 :
    hears n E r x r1 o1 n1 -> listens n E r1 xs r2 o2 n2 -> listens n E r (x :: xs) r2 (o1 ++ o2) (n1 ++ n2).
(** the state in which the loop starts: the current directory is opened after the welcome *)
Definition greeted : world :=
  mk_world [EvWrite (s_ "btrd (the btrfs debugger) v0.5.3
"); EvWrite (s_ "Type 'help' for help
"); EvWrite nl] banner.
Definition first_state (E : env) : rt := rt_start E greeted.

(** the input ends the loop: end of file, or a line with quit *)
Definition leaves (n : nat) (E : env) (r : rt) (x : readline) : Prop :=
  x = RlEof \/ exists l r', x = RlLine l /\ rt_eval n E true r (clean l) = (r', RQuit).
Definition aborts (n : nat) (E : env) (r : rt) (x : readline) : Prop :=
  exists l r' p, x = RlLine l /\ rt_eval n E true r (clean l) = (r', RPanic p).
(** some input, reached from the start, does this *)
Definition at_some_input (n : nat) (E : env) (evs : list readline) (P : rt -> readline -> Prop) : Prop :=
  exists pre x post r out err, evs = pre ++ x :: post /\ listens n E (first_state E) pre r out err /\ P r x.

(** the errors reported on stderr, and those of the commands *)
Definition reported (ns : list notice) : list error := flat_map (fun x => match x with NtError e => [e] | _ => [] end) ns.
Definition failures (qs : list eres) : list error := flat_map (fun q => match q with RErr e => [e] | _ => [] end) qs.

(** the same environment seen k interactions later *)
Definition delayed (k : nat) (E : env) : env :=
  mk_env (overflow_checks E) (fun i => ioctl E (k + i)) (fun i => open_path E (k + i)) (fun i => sink E (k + i)) (getcwd E).
