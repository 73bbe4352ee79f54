(** Failures of the outside world. *)
From Verif Require Import Base Value Fs Eval Runtime Spec_Fs.

(** the answer to the i-th interaction was not a failure: the kernel answered the request (the code
    also takes EOVERFLOW for an answer) with a count of items (of at least 32 bytes each) that its
    buffer of 16777216 bytes can hold; the path could be opened as a btrfs filesystem or image; the
    text was written completely *)
Definition good_answer (E : env) (i : nat) (ev : event) : Prop :=
  match ev with
  | EvIoctl fd k => exists nr buf, (ioctl E i fd k = IoOk nr buf \/ ioctl E i fd k = IoOverflow nr buf) /\ (32 * nr <= 16777216)%Z
  | EvOpen p => exists f, accepted (open_path E i p) f
  | EvWrite t => sink E i t = SkOk
  | EvWarn _ _ _ => True
  end.
(** the interactions l, the first of which is number i, had no failure *)
Definition all_good (E : env) (i : nat) (l : list event) : Prop := forall j ev, nth_error l j = Some ev -> good_answer E (i + j) ev.
(** the interactions between two moments *)
Definition between (w w' : world) (l : list event) : Prop := w_log w' = w_log w ++ l.
(** a whole run had no failure, apart from selecting the current directory at the start, which may fail
    silently; that is interaction number k *)
Definition run_good (E : env) (k : nat) (l : list event) : Prop :=
  forall i ev, nth_error l i = Some ev -> (i = k /\ exists cwd, getcwd E = Some cwd /\ ev = EvOpen cwd) \/ good_answer E i ev.
