(** What runs in similar circumstances have in common. *)
From Verif Require Import Base Value Semantics Fs Eval Runtime Input Main Process Spec_Driver Spec_Process.

(** the two environments give the same answers to the first t interactions (and were built alike) *)
Definition agree_until (t : nat) (E1 E2 : env) : Prop :=
  overflow_checks E1 = overflow_checks E2 /\ getcwd E1 = getcwd E2 /\
  forall i, i < t ->
    (forall fd k, ioctl E1 i fd k = ioctl E2 i fd k) /\ (forall p, open_path E1 i p = open_path E2 i p) /\ (forall s, sink E1 i s = sink E2 i s).

(** everything that can be seen up to w can also be seen up to w' *)
Definition continues (w w' : world) : Prop := exists l u, w_log w' = w_log w ++ l /\ w_out w' = w_out w ++ u.
(** the two runs were the same up to w0, at least t interactions long, and both did ev next *)
Definition parted (t : nat) (w1 w2 : world) : Prop :=
  exists w0 ev, t <= tick w0 /\
    (exists l u, w_log w1 = w_log w0 ++ ev :: l /\ w_out w1 = w_out w0 ++ u) /\
    (exists l u, w_log w2 = w_log w0 ++ ev :: l /\ w_out w2 = w_out w0 ++ u).
Definition world_of (r : rt) : world := e_w (r_eval r).
