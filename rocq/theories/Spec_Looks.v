(** Values a reader cannot tell apart by what is displayed (C88). *)
From Verif Require Import Base Ast Value Spec_Text.

(** A string shown without quotes looks like the number, truth value or function whose text it
    spells; whether an array is a histogram and where a structure lies on the disk is not shown.
    Otherwise only equal values look alike. *)
Inductive looks_alike : value -> value -> Prop :=
| la_int z : looks_alike (VInt z) (VInt z)
| la_bool b : looks_alike (VBool b) (VBool b)
| la_fun f : looks_alike (VFun f) (VFun f)
| la_str s : looks_alike (VStr s) (VStr s)
| la_spelt v s : (forall s', v <> VStr s') -> shown_lines v [s] -> looks_alike v (VStr s)
| la_spells v s : (forall s', v <> VStr s') -> shown_lines v [s] -> looks_alike (VStr s) v
| la_arr vs vs' h h' : Forall2 looks_alike vs vs' -> looks_alike (VArr vs h) (VArr vs' h')
| la_struct n k k' fs fs' : Forall2 (fun f f' => fst f = fst f' /\ looks_alike (snd f) (snd f')) fs fs' ->
    looks_alike (VStruct n k fs) (VStruct n k' fs').
(** no strings and no histograms anywhere in a value; structures without a place on the disk *)
Inductive bare : value -> Prop :=
| ba_int z : bare (VInt z)
| ba_bool b : bare (VBool b)
| ba_fun f : bare (VFun f)
| ba_arr vs : Forall bare vs -> bare (VArr vs false)
| ba_struct n fs : Forall (fun f => bare (snd f)) fs -> bare (VStruct n None fs).
