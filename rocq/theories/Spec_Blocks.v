(** When may one block of statements be written for another (C93)? *)
From Verif Require Import Base Ast Value Variables Semantics Fs Eval Runtime Spec_Run Spec_Frame.
Arguments s_ s%string_scope.
(** a and b are interchangeable: run in the same state they end in the same state (variables,
    filesystem, output, interactions with the outside world) and in the same way (normally, with a
    jump, a quit, the same error or crash), or neither ends *)
Definition same_block (a b : list stmt) : Prop :=
  forall E inter s s' r, runs_list E inter s a s' r <-> runs_list E inter s b s' r.
(** [rearranged R p q]: q is p with some blocks a, at any depth, replaced by b, where R a b *)
Inductive rearranged (R : list stmt -> list stmt -> Prop) : list stmt -> list stmt -> Prop :=
| ra_here a b : R a b -> rearranged R a b
| ra_same a : rearranged R a a
| ra_app a b c d : rearranged R a b -> rearranged R c d -> rearranged R (a ++ c) (b ++ d)
| ra_if c t u f g : rearranged R t u -> rearranged R f g -> rearranged R [SIf c t f] [SIf c u g]
| ra_while c a b : rearranged R a b -> rearranged R [SWhile c a] [SWhile c b]
| ra_for i r a b : rearranged R a b -> rearranged R [SFor i r a] [SFor i r b]
| ra_then a b c : rearranged R a b -> rearranged R b c -> rearranged R a c.
(** entering command c in r ends with result q and state s, with some step budget and hence with all larger ones *)
Definition command_ends (E : env) (inter : bool) (r : rt) (c : str) (s : est) (q : eres) : Prop :=
  q <> RFuel /\ exists n r', rt_eval n E inter r c = (r', q) /\ r_eval r' = s.
(** every jump *)
Definition is_jump (st : stmt) : Prop := st = SBreak \/ st = SContinue \/ st = SQuit.
(** e is never anything but a boolean, if it has a value *)
Definition always_boolean (e : expr) : Prop :=
  forall E s w v, evals E s e w (Ok v) -> exists t, v = VBool t.
(** comparisons, &&, || and !, true and false, and such in parentheses *)
Inductive boolean_form : expr -> Prop :=
| bf_const b : boolean_form (EBool b)
| bf_and a b : boolean_form (EBin OLogicalAnd a b)
| bf_or a b : boolean_form (EBin OLogicalOr a b)
| bf_eq a b : boolean_form (EBin OEquals a b)
| bf_ne a b : boolean_form (EBin ONotEquals a b)
| bf_lt a b : boolean_form (EBin OLessThan a b)
| bf_le a b : boolean_form (EBin OLessThanEquals a b)
| bf_gt a b : boolean_form (EBin OGreaterThan a b)
| bf_ge a b : boolean_form (EBin OGreaterThanEquals a b)
| bf_paren e : boolean_form e -> boolean_form (EParen e)
| bf_not e : boolean_form (EUn UNot e).
(** the rules of thumb *)
Inductive law : list stmt -> list stmt -> Prop :=
| law_of_and a b l :               (* if a && b { l }  /  if a { if b { l } } *)
    law [SIf (EBin OLogicalAnd a b) l []] [SIf a [SIf b l []] []]
| law_of_or a b l m :              (* if a || b { l } else { m }  /  if a { l } else { if b { l } else { m } } *)
    law [SIf (EBin OLogicalOr a b) l m] [SIf a l [SIf b l m]]
| law_of_not c l m :               (* if !(c) { l } else { m }  /  if c { m } else { l } *)
    boolean_form c -> law [SIf (EUn UNot (EParen c)) l m] [SIf c m l]
| law_of_jump st l :               (* break; l  /  break;   and so on *)
    is_jump st -> law (st :: l) [st]
| law_of_continue_while c l :      (* while c { l continue; }  /  while c { l } *)
    law [SWhile c (l ++ [SContinue])] [SWhile c l]
| law_of_continue_for i e l :      (* for i in e { l continue; }  /  for i in e { l } *)
    law [SFor i e (l ++ [SContinue])] [SFor i e l]
| law_of_condition c l :           (* while c { l }  /  while true { if c {} else { break; } l } *)
    law [SWhile c l] [SWhile (EBool true) (SIf c [] [SBreak] :: l)]
| law_back a b : law a b -> law b a.
