(** What the checks before a command is executed accept and report (C85), on the command read
    from left to right as a list of items. *)
From Verif Require Import Base Ast Structs Definitions Value Parse.
Arguments s_ s%string_scope.

Inductive item : Type :=
| Use (x : str)          (* a variable is read, or a member or element of it is written *)
| Declare (x : str)      (* it is assigned, or is the variable of a for *)
| TypeName (x : str)     (* struct x in a cast *)
| Wrong (t : str)        (* something that is never allowed *)
| Jump (word : str)      (* break or continue *)
| Enter (loop : bool)    (* the beginning and end of an if (both branches together) or a loop *)
| Leave.

Fixpoint expr_items (e : expr) : list item :=
  match e with
  | EIdent x => [Use x]
  | EInt _ | EBool _ | EStr _ => []
  | EParen e => expr_items e
  | EField e (EIdent _) => expr_items e
  | EField _ _ => [Wrong (s_ "Field in a field access must be an identifier")]
  | EIndex e i => expr_items e ++ expr_items i
  | ECall f args => expr_items f ++ flat_map expr_items args
  | EBin _ l r => expr_items l ++ expr_items r
  | EUn _ e => expr_items e
  | ECast (EIdent x) e => TypeName x :: expr_items e
  | ECast _ _ => [Wrong (s_ "Invalid type in type cast")]
  end.
(** the target of an assignment comes before the value, the variable of a for before its range *)
Fixpoint stmt_items (st : stmt) : list item :=
  match st with
  | SAssign (EIdent x) e => Declare x :: expr_items e
  | SAssign t e => expr_items t ++ expr_items e
  | SIf c tb fb => Enter false :: expr_items c ++ flat_map stmt_items tb ++ flat_map stmt_items fb ++ [Leave]
  | SWhile c b => Enter true :: expr_items c ++ flat_map stmt_items b ++ [Leave]
  | SFor (EIdent x) r b => Enter true :: Declare x :: expr_items r ++ flat_map stmt_items b ++ [Leave]
  | SFor _ _ _ => [Wrong (s_ "Temporary variable in a for-loop must be an identifier")]
  | SBreak => [Jump (s_ "break")]
  | SContinue => [Jump (s_ "continue")]
  | SHelp | SQuit => []
  | SFilesystem (EStr _) => []
  | SFilesystem _ => [Wrong (s_ "'filesystem' builtin only takes string literal arguments")]
  | SPrint e | SExpr e => expr_items e
  end.
Definition items (l : list stmt) : list item := flat_map stmt_items l.

(** ** Blocks *)
Definition is_enter (i : item) : bool := match i with Enter _ => true | _ => false end.
Definition is_leave (i : item) : bool := match i with Leave => true | _ => false end.
Definition entered (l : list item) : nat := length (filter is_enter l).
Definition exited (l : list item) : nat := length (filter is_leave l).
(** the block l begins in is not left within l *)
Definition stays (l : list item) : Prop := forall a b, l = a ++ b -> exited a <= entered a.
(** x was declared before, in a block that is still open *)
Definition visible (before : list item) (x : str) : Prop := exists a b, before = a ++ Declare x :: b /\ stays b.
Definition in_loop (before : list item) : Prop := exists a b, before = a ++ Enter true :: b /\ stays b.

(** ** Problems *)
Section Problems.
Variable known : str -> Prop.   (* when the command begins *)
Inductive problem (before : list item) : item -> str -> Prop :=
| pb_unknown x : ~ known x -> ~ visible before x -> problem before (Use x) (s_ "Unknown variable: " ++ x)
| pb_type x : ~ In x (map st_name STRUCTS) -> problem before (TypeName x) (s_ "Unknown type: struct " ++ x)
| pb_wrong t : problem before (Wrong t) t
| pb_jump word : ~ in_loop before -> problem before (Jump word) (s_ "Cannot '" ++ word ++ s_ "' outside of a loop").
Definition clean (l : list item) : Prop := forall a i b t, l = a ++ i :: b -> ~ problem a i t.
Definition first_problem (l : list item) (t : str) : Prop := exists a i b, l = a ++ i :: b /\ clean a /\ problem a i t.
End Problems.

(** ** The names known after a history of commands, newest first: the constants and functions,
    and what some command assigned outside of blocks, before its first problem if it has one *)
Definition builtin (x : str) : Prop := In x (map fst CONSTANTS) \/ In x (map func_name FUNCTIONS).
Fixpoint known_after (h : list str) (x : str) : Prop :=
  match h with
  | [] => builtin x
  | cmd :: h => known_after h x \/
      exists l a b, parse cmd = Ok l /\ items l = a ++ Declare x :: b /\ clean (known_after h) a /\ entered a = exited a
  end.
