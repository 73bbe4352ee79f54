(** Which filesystem the debugger talks to (C66). *)
From Verif Require Import Base Ast Value Variables Fs Eval Spec_Fs Spec_Text.

(** [selected E log f]: after the interactions log, f is the filesystem opened by the last
    successful open (None if there was none).  The answer to the open at position n of the
    log is [open_path E n]. *)
Inductive selected (E : env) : list event -> option fs -> Prop :=
| sl_none : selected E [] None
| sl_opened log p f : accepted (open_path E (length log) p) f -> selected E (log ++ [EvOpen p]) (Some f)
| sl_refused log p o : (forall f, ~ accepted (open_path E (length log) p) f) -> selected E log o -> selected E (log ++ [EvOpen p]) o
| sl_other log ev o : (forall p, ev <> EvOpen p) -> selected E log o -> selected E (log ++ [ev]) o.

(** every kernel query went to the filesystem selected at that moment *)
Definition only_selected (E : env) (log : list event) : Prop :=
  forall before fd k after, log = before ++ EvIoctl fd k :: after -> selected E before (Some (FsMounted fd)).

(** a statement of the program is (or contains) a filesystem command *)
Definition selects (l : list stmt) : Prop := exists st e, In st l /\ In (SFilesystem e) (substmts st).
