(** What displayed text should look like. *)
From Verif Require Import Base Ast Value Spec_Grammar Spec_Fs.
Arguments s_ s%string_scope.

(** ASCII white space: tab, line feed, form feed, carriage return, blank *)
Definition blank (b : N) : Prop := In b [9; 10; 12; 13; 32]%N.
Definition printable (c : N) : Prop := (32 <= c <= 126)%N.
(** lower-case hexadecimal digits *)
Definition hex (d : N) (c : N) : Prop := nth_error (s_ "0123456789abcdef") (N.to_nat d) = Some c.

(** the text that stands for one byte; [raw]: white space is shown as it is *)
Inductive shown_byte (raw : bool) : N -> str -> Prop :=
| sb_plain b : plain b -> shown_byte raw b [b]
| sb_raw b : raw = true -> blank b -> shown_byte raw b [b]
| sb_quote b : b = 34%N \/ b = 39%N \/ b = 92%N -> shown_byte raw b [92%N; b]
| sb_tab : raw = false -> shown_byte raw 9%N (92%N :: s_ "t")
| sb_lf : raw = false -> shown_byte raw 10%N (92%N :: s_ "n")
| sb_cr : raw = false -> shown_byte raw 13%N (92%N :: s_ "r")
| sb_hex b x y : ~ printable b -> ~ In b [9; 10; 13]%N -> (raw = true -> ~ blank b) ->
    hex (b / 16) x -> hex (b mod 16) y -> shown_byte raw b (92%N :: s_ "x" ++ [x; y]).
Definition shown (raw : bool) (s t : str) : Prop := exists parts, Forall2 (shown_byte raw) s parts /\ t = concat parts.

(** ** Values *)
Definition bool_text (b : bool) : str := if b then s_ "true" else s_ "false".
(** lines of text, and their concatenation with newlines between them *)
Fixpoint join (ls : list str) : str :=
  match ls with
  | [] => []
  | [l] => l
  | l :: ls' => l ++ [10%N] ++ join ls'
  end.
Definition tab4 : str := s_ "    ".
(** a comma after the last line; a prefix before the first *)
Fixpoint with_comma (ls : list str) : list str :=
  match ls with
  | [] => []
  | [l] => [l ++ s_ ","]
  | l :: ls' => l :: with_comma ls'
  end.
Definition with_prefix (p : str) (ls : list str) : list str :=
  match ls with [] => [] | l :: ls' => (p ++ l) :: ls' end.

(** the lines of a displayed value *)
Inductive shown_lines : value -> list str -> Prop :=
| sl_int z t : (0 <= z)%Z -> numeral t z -> t <> [] -> (forall u, t = 48%N :: u -> u = []) -> shown_lines (VInt z) [t]
| sl_neg z t : (z < 0)%Z -> numeral t (- z) -> (forall u, t <> 48%N :: u) -> shown_lines (VInt z) [s_ "-" ++ t]
| sl_str s t : shown false s t -> shown_lines (VStr s) [t]
| sl_bool b : shown_lines (VBool b) [bool_text b]
| sl_fun f : shown_lines (VFun f) [func_name f ++ s_ "()"]
| sl_arr vs h ls :
    Forall2 shown_lines vs ls ->
    shown_lines (VArr vs h) ([s_ "["] ++ concat (map (fun l => map (app tab4) (with_comma l)) ls) ++ [s_ "]"])
| sl_struct n k fs ls :
    Forall2 (fun f l => exists l', shown_lines (snd f) l' /\ l = with_prefix (s_ "." ++ fst f ++ s_ " = ") (with_comma l')) fs ls ->
    shown_lines (VStruct n k fs) ([s_ "struct " ++ n ++ s_ " {"] ++ concat (map (map (app tab4)) ls) ++ [s_ "}"]).

(** no line break in the names of structs and fields (true of all shipped structs) *)
Fixpoint names_ok (v : value) : Prop :=
  match v with
  | VArr vs _ => (fix all (l : list value) := match l with [] => True | x :: l' => names_ok x /\ all l' end) vs
  | VStruct n _ fs => ~ In 10%N n /\
      (fix all (l : list (str * value)) := match l with [] => True | x :: l' => (~ In 10%N (fst x) /\ names_ok (snd x)) /\ all l' end) fs
  | _ => True
  end.
(** all strings in v are byte strings *)
Fixpoint str_bytes (v : value) : Prop :=
  match v with
  | VStr s => Forall (fun b => (b < 256)%N) s
  | VArr vs _ => (fix all (l : list value) := match l with [] => True | x :: l' => str_bytes x /\ all l' end) vs
  | VStruct n _ fs => (fix all (l : list (str * value)) := match l with [] => True | x :: l' => str_bytes (snd x) /\ all l' end) fs
  | _ => True
  end.
(** ** Types *)
Inductive type_name : value -> str -> Prop :=
| tn_int z : type_name (VInt z) (s_ "integer")
| tn_str s : type_name (VStr s) (s_ "string")
| tn_bool b : type_name (VBool b) (s_ "boolean")
| tn_arr vs h : type_name (VArr vs h) (s_ "array")
| tn_fun f : type_name (VFun f) (s_ "function")
| tn_struct n k fs : type_name (VStruct n k fs) (s_ "struct " ++ n).
(** ** Histograms: equal up to the histogram mark of arrays *)
Inductive same_but_hist : value -> value -> Prop :=
| sh_int z : same_but_hist (VInt z) (VInt z)
| sh_str s : same_but_hist (VStr s) (VStr s)
| sh_bool b : same_but_hist (VBool b) (VBool b)
| sh_fun f : same_but_hist (VFun f) (VFun f)
| sh_arr vs vs' h h' : Forall2 same_but_hist vs vs' -> same_but_hist (VArr vs h) (VArr vs' h')
| sh_struct n k fs fs' : Forall2 (fun f f' => fst f = fst f' /\ same_but_hist (snd f) (snd f')) fs fs' ->
    same_but_hist (VStruct n k fs) (VStruct n k fs').
(** two stores with the same variables, whose values are equal up to histogram marks *)
From Verif Require Import Variables Fs Eval.
Definition same_store (vs vs' : vars value) : Prop :=
  Forall2 (Forall2 (fun p p' => fst p = fst p' /\ same_but_hist (snd p) (snd p'))) vs vs'.
Definition same_state (s s' : est) : Prop :=
  same_store (e_vars s) (e_vars s') /\ e_fs s = e_fs s' /\ e_w s = e_w s'.
(** all statements of a program, nested ones included; all subexpressions *)
Fixpoint substmts (s : stmt) : list stmt :=
  s :: match s with
       | SIf _ a b => flat_map substmts a ++ flat_map substmts b
       | SWhile _ b => flat_map substmts b
       | SFor _ _ b => flat_map substmts b
       | _ => []
       end.
Fixpoint subexprs (e : expr) : list expr :=
  e :: match e with
       | EInt _ | EIdent _ | EBool _ | EStr _ => []
       | EParen e => subexprs e
       | EField e i => subexprs e ++ subexprs i
       | EIndex e i => subexprs e ++ subexprs i
       | ECall f args => subexprs f ++ flat_map subexprs args
       | EBin _ l r => subexprs l ++ subexprs r
       | EUn _ e => subexprs e
       | ECast t e => subexprs t ++ subexprs e
       end.
(** no comparison of values with == or != *)
Definition no_equality (e : expr) : Prop :=
  forall op l r, In (EBin op l r) (subexprs e) -> op <> OEquals /\ op <> ONotEquals.
