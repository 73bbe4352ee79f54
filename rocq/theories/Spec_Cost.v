(** How many kernel requests a search makes. *)
From Verif Require Import Base Structs Value Variables Fs Ast Eval Spec_Search.

Definition is_request (fd : Z) (ev : event) : Prop := exists k, ev = EvIoctl fd k.
Definition is_warning (ev : event) : Prop := exists o t f, ev = EvWarn o t f.
(** between the worlds w and w' there were n tree-search requests on fd and otherwise only warnings *)
Definition requests (fd : Z) (w w' : world) (n : nat) : Prop :=
  exists reqs warns, w_log w' = w_log w ++ reqs ++ warns /\ Forall (is_request fd) reqs /\ Forall is_warning warns /\
    length reqs = n.
(** l contains every item that was ever in the range *)
Definition covers (states : history) (k : skey) (l : list chunk) : Prop :=
  forall n st c, states (sk_tree k) n st -> In c st -> in_range k c -> In c l.
