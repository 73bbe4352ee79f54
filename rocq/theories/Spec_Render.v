(** Well-formed programs and their canonical text, independent of the parser. *)
From Verif Require Import Base Ast Value Spec_Grammar.
Arguments s_ s%string_scope.

(** ** Well-formed expressions *)
(** how tightly an expression binds *)
Definition level (e : expr) : nat :=
  match e with
  | EIdent _ | EInt _ | EBool _ | EStr _ | EParen _ => primary_level
  | EField _ _ | EIndex _ _ | ECall _ _ => postfix_level
  | EUn _ _ | ECast _ _ => unary_level
  | EBin o _ _ => op_level o
  end.
(** Every operand binds tightly enough for its place (otherwise the program must have
    explicit parentheses), literals are in range, names are identifiers. *)
Inductive wf : expr -> Prop :=
| wf_ident x : identifier x -> ~ begins (s_ "true") x -> ~ begins (s_ "false") x -> wf (EIdent x)
| wf_int z : (0 <= z <= 2 ^ 127 - 1)%Z -> wf (EInt z)
| wf_bool b : wf (EBool b)
| wf_str s : wf (EStr s)
| wf_paren e : wf e -> (forall t, e = EIdent (s_ "struct" ++ t) -> ~ identifier t) -> wf (EParen e)
| wf_field e f : wf e -> postfix_level <= level e -> identifier f -> wf (EField e (EIdent f))
| wf_index e i : wf e -> postfix_level <= level e -> wf i -> wf (EIndex e i)
| wf_call e args : wf e -> postfix_level <= level e -> wf_list args -> wf (ECall e args)
| wf_un o e : wf e -> unary_level <= level e -> wf (EUn o e)
| wf_cast t e : identifier t -> wf e -> unary_level <= level e -> wf (ECast (EIdent t) e)
| wf_bin o l r : wf l -> wf r -> op_level o <> 5 -> op_level o <= level l -> op_level o < level r -> wf (EBin o l r)
| wf_eq o l r : wf l -> wf r -> op_level o = 5 -> 5 < level l -> 5 < level r -> wf (EBin o l r)
with wf_list : list expr -> Prop :=
| wf_nil : wf_list []
| wf_cons e l : wf e -> wf_list l -> wf_list (e :: l).

(** ** Canonical text of an expression *)
Definition quote_char (c : N) : str := if (c =? 34)%N || (c =? 92)%N then [92; c]%N else [c].
Definition quote (s : str) : str := s_ """" ++ flat_map quote_char s ++ s_ """".
Fixpoint render (e : expr) : str :=
  match e with
  | EIdent x => x
  | EInt z => dec_Z z
  | EBool b => if b then s_ "true" else s_ "false"
  | EStr s => quote s
  | EParen e => s_ "(" ++ render e ++ s_ ")"
  | EField e f => render e ++ s_ "." ++ render f
  | EIndex e i => render e ++ s_ "[" ++ render i ++ s_ "]"
  | ECall e args =>
      render e ++ s_ "(" ++
      match args with
      | [] => []
      | a :: rest => render a ++ flat_map (fun b => s_ ", " ++ render b) rest
      end ++ s_ ")"
  | EUn o e => unop_text o ++ render e
  | ECast t e => s_ "(struct " ++ render t ++ s_ ")" ++ render e
  | EBin o l r => render l ++ s_ " " ++ op_text o ++ s_ " " ++ render r
  end.

(** ** Statements *)
Definition expr_dec : forall a b : expr, {a = b} + {a <> b}.
Proof.
  fix IH 1. intros a b. decide equality; try apply list_eq_dec; try apply N.eq_dec; try apply Z.eq_dec; try apply Bool.bool_dec;
    try exact IH; decide equality.
Defined.
(** the word an expression's text begins with, if it begins with one *)
Fixpoint first_word (e : expr) : str :=
  match e with
  | EIdent x => x
  | EBool b => if b then s_ "true" else s_ "false"
  | EField e _ | EIndex e _ | ECall e _ | EBin _ e _ => first_word e
  | EInt _ | EStr _ | EParen _ | EUn _ _ | ECast _ _ => []
  end.
Section Statements.
Variable word_ok : str -> Prop.
Inductive wf_stmt : stmt -> Prop :=
| wf_assign t e : wf t -> word_ok (first_word t) -> wf e -> wf_stmt (SAssign t e)
| wf_compound t o e : wf t -> word_ok (first_word t) -> o = OPlus \/ o = OMinus -> wf e -> wf_stmt (SAssign t (EBin o t e))
| wf_if c tb fb : wf c -> wf_stmts tb -> wf_stmts fb -> wf_stmt (SIf c tb fb)
| wf_while c b : wf c -> wf_stmts b -> wf_stmt (SWhile c b)
| wf_for x e b : identifier x -> wf e -> wf_stmts b -> wf_stmt (SFor (EIdent x) e b)
| wf_break : wf_stmt SBreak
| wf_continue : wf_stmt SContinue
| wf_help : wf_stmt SHelp
| wf_quit : wf_stmt SQuit
| wf_filesystem s : wf_stmt (SFilesystem (EStr s))
| wf_print e : wf e -> wf_stmt (SPrint e)
| wf_expr e : wf e -> word_ok (first_word e) -> wf_stmt (SExpr e)
with wf_stmts : list stmt -> Prop :=
| wfs_nil : wf_stmts []
| wfs_cons st l : wf_stmt st -> wf_stmts l -> wf_stmts (st :: l).
End Statements.

(** t = t + e and t = t - e are written as compound assignments *)
Definition render_assign (t e : expr) : str :=
  let plain := render t ++ s_ " = " ++ render e ++ s_ ";" in
  match e with
  | EBin o t' r =>
      if expr_dec t t' then
        match o with
        | OPlus => render t ++ s_ " += " ++ render r ++ s_ ";"
        | OMinus => render t ++ s_ " -= " ++ render r ++ s_ ";"
        | _ => plain
        end
      else plain
  | _ => plain
  end.
Fixpoint render_stmt (st : stmt) : str :=
  match st with
  | SAssign t e => render_assign t e
  | SIf c tb fb =>
      s_ "if " ++ render c ++ s_ " {" ++ flat_map render_stmt tb ++ s_ "}" ++
      match fb with [] => [] | _ => s_ " else {" ++ flat_map render_stmt fb ++ s_ "}" end
  | SWhile c b => s_ "while " ++ render c ++ s_ " {" ++ flat_map render_stmt b ++ s_ "}"
  | SFor x e b => s_ "for " ++ render x ++ s_ " in " ++ render e ++ s_ " {" ++ flat_map render_stmt b ++ s_ "}"
  | SBreak => s_ "break;"
  | SContinue => s_ "continue;"
  | SHelp => s_ "help;"
  | SQuit => s_ "quit;"
  | SFilesystem e => s_ "filesystem " ++ render e ++ s_ ";"
  | SPrint e => s_ "print " ++ render e ++ s_ ";"
  | SExpr e => render e ++ s_ ";"
  end.
Definition render_program (p : list stmt) : str := flat_map render_stmt p.
