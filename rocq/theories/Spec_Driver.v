(** Output, the interactive loop and scripts. *)
From Verif Require Import Base Ast Pom Parse Semantics Value Fs Eval Runtime Input Main Spec_Run Spec_Text.

(** [written l u]: the writes among the events l put the text u into the output: each of them all
    of its text, or only the beginning of it (when the write fails) *)
Inductive written : list event -> str -> Prop :=
| wn_nil : written [] []
| wn_all t l u : written l u -> written (EvWrite t :: l) (t ++ u)
| wn_cut t t1 t2 l u : t = t1 ++ t2 -> written l u -> written (EvWrite t :: l) (t1 ++ u)
| wn_other ev l u : (forall t, ev <> EvWrite t) -> written l u -> written (ev :: l) u.
(** from w to w' there were some more events and the output grew by what they wrote *)
Definition appended (w w' : world) : Prop :=
  exists l u, w_log w' = w_log w ++ l /\ w_out w' = w_out w ++ u /\ written l u.
(** nothing was written *)
Definition silent (w w' : world) : Prop :=
  w_out w' = w_out w /\ exists l, w_log w' = w_log w ++ l /\ forall t, ~ In (EvWrite t) l.
(** a program that may write: it contains print, help or, interactively, an expression statement *)
Definition may_write (inter : bool) (st : stmt) : Prop :=
  exists u, In u (substmts st) /\ (u = SHelp \/ (exists e, u = SPrint e) \/ inter = true /\ exists e, u = SExpr e).

(** [entered n E r ls rs r']: the lines ls, cleaned and evaluated in this order from r, have the
    results rs and lead to r' *)
Inductive entered (n : nat) (E : env) : rt -> list str -> list eres -> rt -> Prop :=
| en_nil r : entered n E r [] [] r
| en_cons r l ls q rs r1 r' :
    rt_eval n E true r (clean l) = (r1, q) -> entered n E r1 ls rs r' -> entered n E r (l :: ls) (q :: rs) r'.
(** the lines among the events *)
Definition typed_lines (evs : list readline) : list str :=
  flat_map (fun ev => match ev with RlLine l => [l] | _ => [] end) evs.
(** a result after which one can go on: success or a reported error *)
Definition goes_on (q : eres) : Prop := q = ROk \/ exists e, q = RErr e.

(** [exits E c x]: running script c can end with exit status x *)
Definition exits (E : env) (c : option str) (x : script_exit) : Prop :=
  x <> ExFuel /\ exists n, snd (script n E c) = x.
(** a sink that accepts everything, and then the text of the writes among the events *)
Definition reliable (E : env) : Prop := forall i t, sink E i t = SkOk.
Definition texts (l : list event) : str := flat_map (fun ev => match ev with EvWrite t => t | _ => [] end) l.
