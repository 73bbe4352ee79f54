(** What may reach the terminal (C71). *)
From Verif Require Import Base Ast Value Variables Spec_Text.

(** printable ASCII and white space (tab, line feed, form feed, carriage return, blank):
    no escape sequences, no other control characters, no bytes above 126 *)
Definition terminal_safe (t : str) : Prop := Forall (fun c => printable c \/ blank c) t.
(** names consist of these characters: no blanks *)
Definition visible (c : N) : Prop := (33 <= c <= 126)%N.
(** values made of byte strings and printable names *)
Inductive textual : value -> Prop :=
| tx_int z : textual (VInt z)
| tx_bool b : textual (VBool b)
| tx_fun f : textual (VFun f)
| tx_str s : Forall (fun b => (b < 256)%N) s -> textual (VStr s)
| tx_arr vs h : Forall textual vs -> textual (VArr vs h)
| tx_struct n k fs : Forall visible n -> Forall (fun f => Forall visible (fst f) /\ textual (snd f)) fs -> textual (VStruct n k fs).
(** every variable *)
Definition textual_vars (vs : vars value) : Prop := forall m x v, In m vs -> In (x, v) m -> textual v.
(** the string literals of an expression *)
Fixpoint strings (e : expr) : list str :=
  match e with
  | EStr s => [s]
  | EIdent _ | EBool _ | EInt _ => []
  | EParen e => strings e
  | EField e i => strings e ++ strings i
  | EIndex e i => strings e ++ strings i
  | ECall f args => strings f ++ flat_map strings args
  | EBin _ l r => strings l ++ strings r
  | EUn _ e => strings e
  | ECast t e => strings t ++ strings e
  end.
