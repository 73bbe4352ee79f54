(** Debug and release builds. *)
From Verif Require Import Base Fs Eval Process Spec_Driver.

(** the outside world E with the program built with (debug) or without (release) overflow checks *)
Definition built (debug : bool) (E : env) : env := mk_env debug (ioctl E) (open_path E) (sink E) (getcwd E).

(** the run d of one build crashed where the run r of the other went on: everything it did to the world, the
    other one had done by then too; what the commands before the crash gave was the same, and so was what
    was reported on stderr *)
Definition crashed_on_the_way (d r : proc) : Prop :=
  p_status d = StExit 101 /\
  (exists log out, w_log (p_world r) = w_log (p_world d) ++ log /\ w_out (p_world r) = w_out (p_world d) ++ out) /\
  (exists before p after, p_results d = before ++ [RPanic p] /\ p_results r = before ++ after) /\
  (exists before after, p_err d = before ++ [NtPanic] /\ p_err r = before ++ after).
