(** The language's grammar, as a context-free grammar with semantic values, independent of
    the parser.  Documented by /repo/src/lang/parse.rs:1-35 (precedence follows C) and the
    README. *)
From Verif Require Import Base Ast.
Arguments s_ s%string_scope.

(** optional whitespace: blank, tab, CR, LF *)
Definition ws (s : str) : Prop := Forall (fun c => c = 32%N \/ c = 9%N \/ c = 13%N \/ c = 10%N) s.

(** ** Tokens *)
Definition letter (c : N) : Prop := (65 <= c <= 90 \/ 97 <= c <= 122 \/ c = 95)%N.
Definition decimal (c : N) : Prop := (48 <= c <= 57)%N.
Inductive identifier : str -> Prop :=
| ident_intro c s : letter c -> Forall (fun c => letter c \/ decimal c) s -> identifier (c :: s).

(** decimal digit strings and their value *)
Inductive numeral : str -> Z -> Prop :=
| num_nil : numeral [] 0
| num_snoc s z c : numeral s z -> decimal c -> numeral (s ++ [c]) (10 * z + (Z.of_N c - 48)).
(** an unsigned decimal integer without leading zeros, of at most 2^127-1; a minus sign in
    front of it is an operator *)
Inductive number_text : str -> Z -> Prop :=
| nt_intro s z : numeral s z -> s <> [] -> (forall t, s = 48%N :: t -> t = []) -> (z <= I128_MAX)%Z -> number_text s z.
(** s begins with t *)
Definition begins (t s : str) : Prop := exists u, s = t ++ u.

(** characters of a string literal: one source character, or a backslash escape *)
Inductive str_char : str -> N -> Prop :=
| sc_raw c : c <> 34%N -> c <> 92%N -> str_char [c] c
| sc_backslash : str_char [92; 92]%N 92%N
| sc_slash : str_char [92; 47]%N 47%N
| sc_quote : str_char [92; 34]%N 34%N
| sc_b : str_char (92%N :: s_ "b") 8%N
| sc_f : str_char (92%N :: s_ "f") 12%N
| sc_n : str_char (92%N :: s_ "n") 10%N
| sc_r : str_char (92%N :: s_ "r") 13%N
| sc_t : str_char (92%N :: s_ "t") 9%N.
Inductive hexdigit : N -> N -> Prop :=
| hx_digit v : (v < 10)%N -> hexdigit (48 + v) v
| hx_lower v : (10 <= v < 16)%N -> hexdigit (87 + v) v
| hx_upper v : (10 <= v < 16)%N -> hexdigit (55 + v) v.
(** \uXXXX: one UTF-16 code unit *)
Inductive utf16_unit : str -> N -> Prop :=
| uu a b c d x y z w : hexdigit a x -> hexdigit b y -> hexdigit c z -> hexdigit d w ->
    utf16_unit (92 :: 117 :: a :: b :: c :: d :: nil)%N (((x * 16 + y) * 16 + z) * 16 + w)%N.
Definition high_surrogate (u : N) : Prop := (55296 <= u < 56320)%N.
Definition low_surrogate (u : N) : Prop := (56320 <= u < 57344)%N.
(** what a sequence of characters (inl) and UTF-16 code units (inr) denotes: adjacent
    units that form a surrogate pair are one character, unpaired surrogates become U+FFFD *)
Inductive denotes : list (N + N) -> str -> Prop :=
| den_nil : denotes [] []
| den_char c l s : denotes l s -> denotes (inl c :: l) (c :: s)
| den_bmp u l s : ~ high_surrogate u -> ~ low_surrogate u -> denotes l s -> denotes (inr u :: l) (u :: s)
| den_pair h l us s : high_surrogate h -> low_surrogate l -> denotes us s ->
    denotes (inr h :: inr l :: us) ((65536 + (h - 55296) * 1024 + (l - 56320))%N :: s)
| den_low u l s : low_surrogate u -> denotes l s -> denotes (inr u :: l) (65533%N :: s)
| den_high u l s : high_surrogate u -> (forall v l', l = inr v :: l' -> ~ low_surrogate v) -> denotes l s ->
    denotes (inr u :: l) (65533%N :: s).

(** [many R s l]: s is a concatenation of R-texts with values l *)
Inductive many {A} (R : str -> A -> Prop) : str -> list A -> Prop :=
| many_nil : many R [] []
| many_cons s1 a s2 l : R s1 a -> many R s2 l -> many R (s1 ++ s2) (a :: l).

(** string literals: characters and \u escapes between quotes *)
Inductive str_token : str -> N + N -> Prop :=
| tok_char s c : str_char s c -> str_token s (inl c)
| tok_unit s u : utf16_unit s u -> str_token s (inr u).
Inductive string_lit : str -> str -> Prop :=
| sl_intro s toks v : many str_token s toks -> denotes toks v -> string_lit (34%N :: s ++ [34%N]) v.

(** ** Operators: spelling and precedence (higher binds tighter) *)
Definition op_text (o : binop) : str :=
  match o with
  | OLogicalOr => s_ "||" | OLogicalAnd => s_ "&&" | OBitOr => s_ "|" | OBitXor => s_ "^" | OBitAnd => s_ "&"
  | OEquals => s_ "==" | ONotEquals => s_ "!="
  | OLessThan => s_ "<" | OLessThanEquals => s_ "<=" | OGreaterThan => s_ ">" | OGreaterThanEquals => s_ ">="
  | OLeftShift => s_ "<<" | ORightShift => s_ ">>"
  | OPlus => s_ "+" | OMinus => s_ "-"
  | OMultiply => s_ "*" | ODivide => s_ "/" | OModulo => s_ "%"
  end.
Definition op_level (o : binop) : nat :=
  match o with
  | OLogicalOr => 0 | OLogicalAnd => 1 | OBitOr => 2 | OBitXor => 3 | OBitAnd => 4
  | OEquals | ONotEquals => 5
  | OLessThan | OLessThanEquals | OGreaterThan | OGreaterThanEquals => 6
  | OLeftShift | ORightShift => 7
  | OPlus | OMinus => 8
  | OMultiply | ODivide | OModulo => 9
  end.
Definition unop_text (o : unop) : str :=
  match o with UBitNot => s_ "~" | UNot => s_ "!" | UMinus => s_ "-" end.
(** levels above the binary operators *)
Definition unary_level : nat := 10.
Definition postfix_level : nat := 11.
Definition primary_level : nat := 12.

(** ** Expressions: [g_expr k s e], text s is a level-k expression denoting e *)
Inductive g_expr : nat -> str -> expr -> Prop :=
(* primary expressions *)
| g_int s z : number_text s z -> g_expr primary_level s (EInt z)
| g_true : g_expr primary_level (s_ "true") (EBool true)
| g_false : g_expr primary_level (s_ "false") (EBool false)
(* an identifier; one that begins with true or false is not a variable *)
| g_ident s : identifier s -> ~ begins (s_ "true") s -> ~ begins (s_ "false") s -> g_expr primary_level s (EIdent s)
| g_str s v : string_lit s v -> g_expr primary_level s (EStr v)
(* parentheses; those around struct and an identifier are a cast *)
| g_paren s e w : g_full s e -> ws w -> (forall t, e = EIdent (s_ "struct" ++ t) -> ~ identifier t) -> g_expr primary_level (s_ "(" ++ s ++ w ++ s_ ")") (EParen e)
(* postfix operators *)
| g_call s e w sa args w' : g_expr postfix_level s e -> ws w -> g_args sa args -> ws w' ->
    g_expr postfix_level (s ++ w ++ s_ "(" ++ sa ++ w' ++ s_ ")") (ECall e args)
| g_index s e w si i w' : g_expr postfix_level s e -> ws w -> g_full si i -> ws w' ->
    g_expr postfix_level (s ++ w ++ s_ "[" ++ si ++ w' ++ s_ "]") (EIndex e i)
| g_field s e w f : g_expr postfix_level s e -> ws w -> identifier f ->
    g_expr postfix_level (s ++ w ++ s_ "." ++ f) (EField e (EIdent f))
(* unary operators *)
| g_unop o w s e : ws w -> g_expr unary_level s e -> g_expr unary_level (unop_text o ++ w ++ s) (EUn o e)
| g_cast w1 w2 t w3 w4 s e : ws w1 -> ws w2 -> identifier t -> ws w3 -> ws w4 -> g_expr unary_level s e ->
    g_expr unary_level (s_ "(" ++ w1 ++ s_ "struct" ++ w2 ++ t ++ w3 ++ s_ ")" ++ w4 ++ s) (ECast (EIdent t) e)
(* binary operators associate to the left; == and != do not associate *)
| g_binop o s1 e1 w1 w2 s2 e2 : op_level o <> 5 ->
    g_expr (op_level o) s1 e1 -> ws w1 -> ws w2 -> g_expr (S (op_level o)) s2 e2 ->
    g_expr (op_level o) (s1 ++ w1 ++ op_text o ++ w2 ++ s2) (EBin o e1 e2)
| g_eqop o s1 e1 w1 w2 s2 e2 : op_level o = 5 ->
    g_expr 6 s1 e1 -> ws w1 -> ws w2 -> g_expr 6 s2 e2 ->
    g_expr 5 (s1 ++ w1 ++ op_text o ++ w2 ++ s2) (EBin o e1 e2)
(* a tighter expression is also a looser one *)
| g_weaken k s e : g_expr (S k) s e -> g_expr k s e
(* a full expression: optional whitespace, then any level *)
with g_full : str -> expr -> Prop :=
| g_ws w s e : ws w -> g_expr 0 s e -> g_full (w ++ s) e
with g_args : str -> list expr -> Prop :=
| ga_none : g_args [] []
| ga_some s e sr args : g_full s e -> g_more sr args -> g_args (s ++ sr) (e :: args)
with g_more : str -> list expr -> Prop :=
| gm_nil : g_more [] []
| gm_cons w s e sr args : ws w -> g_full s e -> g_more sr args ->
    g_more (w ++ s_ "," ++ s ++ sr) (e :: args).

(** ** Statements *)
(** How an assignment or expression statement must not begin.  The grammar of statements is
    parameterised by this condition, because the parser lies between two of them: it never
    reads a statement that begins with help, quit, break or continue as an assignment or
    expression, and one that begins with print only if no expression can be read after
    that word. *)
Definition unreserved (s : str) : Prop :=
  ~ begins (s_ "help") s /\ ~ begins (s_ "quit") s /\ ~ begins (s_ "break") s /\ ~ begins (s_ "continue") s.
Definition unambiguous_start (s : str) : Prop := unreserved s /\ ~ begins (s_ "print") s.

Section Statements.
Variable start_ok : str -> Prop.
(** simple statements, which are followed by a semicolon *)
Inductive g_simple : str -> stmt -> Prop :=
| g_filesystem w s v : ws w -> string_lit s v -> g_simple (s_ "filesystem" ++ w ++ s) (SFilesystem (EStr v))
| g_print s e : g_full s e -> g_simple (s_ "print" ++ s) (SPrint e)
| g_help : g_simple (s_ "help") SHelp
| g_quit : g_simple (s_ "quit") SQuit
| g_break : g_simple (s_ "break") SBreak
| g_continue : g_simple (s_ "continue") SContinue
| g_assign s1 t w s2 e : start_ok s1 -> g_expr 0 s1 t -> ws w -> g_full s2 e -> g_simple (s1 ++ w ++ s_ "=" ++ s2) (SAssign t e)
| g_plus_assign s1 t w s2 e : start_ok s1 -> g_expr 0 s1 t -> ws w -> g_full s2 e ->
    g_simple (s1 ++ w ++ s_ "+=" ++ s2) (SAssign t (EBin OPlus t e))
| g_minus_assign s1 t w s2 e : start_ok s1 -> g_expr 0 s1 t -> ws w -> g_full s2 e ->
    g_simple (s1 ++ w ++ s_ "-=" ++ s2) (SAssign t (EBin OMinus t e))
| g_expr_stmt s e : start_ok s -> g_expr 0 s e -> g_simple s (SExpr e).
(** any number of semicolons *)
Inductive g_semis : str -> Prop :=
| gs_nil : g_semis []
| gs_cons w s : ws w -> g_semis s -> g_semis (w ++ s_ ";" ++ s).
Inductive g_stmt : str -> stmt -> Prop :=
| g_simple_stmt w s st w' t : ws w -> g_simple s st -> ws w' -> g_semis t ->
    g_stmt (w ++ s ++ w' ++ s_ ";" ++ t) st
| g_block_stmt w s st t : ws w -> g_block s st -> g_semis t -> g_stmt (w ++ s ++ t) st
with g_block : str -> stmt -> Prop :=
| g_if sc c w sb b w' : g_full sc c -> ws w -> g_stmts sb b -> ws w' ->
    g_block (s_ "if" ++ sc ++ w ++ s_ "{" ++ sb ++ w' ++ s_ "}") (SIf c b [])
| g_if_else sc c w sb b w' w1 w2 se eb w3 : g_full sc c -> ws w -> g_stmts sb b -> ws w' ->
    ws w1 -> ws w2 -> g_stmts se eb -> ws w3 ->
    g_block (s_ "if" ++ sc ++ w ++ s_ "{" ++ sb ++ w' ++ s_ "}" ++ w1 ++ s_ "else" ++ w2 ++ s_ "{" ++ se ++ w3 ++ s_ "}")
            (SIf c b eb)
| g_while sc c w sb b w' : g_full sc c -> ws w -> g_stmts sb b -> ws w' ->
    g_block (s_ "while" ++ sc ++ w ++ s_ "{" ++ sb ++ w' ++ s_ "}") (SWhile c b)
| g_for w1 x w2 se e w3 sb b w4 : ws w1 -> identifier x -> ws w2 -> w2 <> [] -> g_full se e -> ws w3 -> g_stmts sb b -> ws w4 ->
    g_block (s_ "for" ++ w1 ++ x ++ w2 ++ s_ "in" ++ se ++ w3 ++ s_ "{" ++ sb ++ w4 ++ s_ "}") (SFor (EIdent x) e b)
with g_stmts : str -> list stmt -> Prop :=
| g_nil : g_stmts [] []
| g_cons s st sr l : g_stmt s st -> g_stmts sr l -> g_stmts (s ++ sr) (st :: l).
(** a program: statements and trailing whitespace *)
Inductive g_program : str -> list stmt -> Prop :=
| g_prog s l w : g_stmts s l -> ws w -> g_program (s ++ w) l.
End Statements.
