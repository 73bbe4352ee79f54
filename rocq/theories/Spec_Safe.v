(** What "does not crash" and "128-bit integers only" mean. *)
From Verif Require Import Base Ast Structs Definitions Value Variables Fs Eval Spec_Search Spec_Decode.
Arguments s_ s%string_scope.

(** z is one of the integers inside v: v itself, inside an element or a field, or part of the
    on-disk key that v carries (which keyof shows) *)
Inductive occurs (z : Z) : value -> Prop :=
| occ_int : occurs z (VInt z)
| occ_elem l h v : In v l -> occurs z v -> occurs z (VArr l h)
| occ_field n key fs x v : In (x, v) fs -> occurs z v -> occurs z (VStruct n key fs)
| occ_key n a b c fs : z = a \/ z = b \/ z = c -> occurs z (VStruct n (Some (a, b, c)) fs).
Definition i128 (z : Z) : Prop := (- 2 ^ 127 <= z <= 2 ^ 127 - 1)%Z.
Definition all_i128 (v : value) : Prop := forall z, occurs z v -> i128 z.
Definition store_i128 (vs : vars value) : Prop := forall m x v, In m vs -> In (x, v) m -> all_i128 v.

(** the integer literals of an expression *)
Fixpoint literals (e : expr) : list Z :=
  match e with
  | EInt z => [z]
  | EIdent _ | EBool _ | EStr _ => []
  | EParen e => literals e
  | EField e i => literals e ++ literals i
  | EIndex e i => literals e ++ literals i
  | ECall f args => literals f ++ flat_map literals args
  | EBin _ l r => literals l ++ literals r
  | EUn _ e => literals e
  | ECast t e => literals t ++ literals e
  end.
(** the struct types an expression casts to *)
Fixpoint cast_targets (e : expr) : list expr :=
  match e with
  | EInt _ | EIdent _ | EBool _ | EStr _ => []
  | EParen e => cast_targets e
  | EField e i => cast_targets e ++ cast_targets i
  | EIndex e i => cast_targets e ++ cast_targets i
  | ECall f args => cast_targets f ++ flat_map cast_targets args
  | EBin _ l r => cast_targets l ++ cast_targets r
  | EUn _ e => cast_targets e
  | ECast t e => t :: cast_targets e
  end.
(** the expressions of a statement, including nested statements *)
Fixpoint exprs (s : stmt) : list expr :=
  match s with
  | SAssign a b => [a; b]
  | SIf c a b => c :: flat_map exprs a ++ flat_map exprs b
  | SWhile c b => c :: flat_map exprs b
  | SFor i r b => i :: r :: flat_map exprs b
  | SBreak | SContinue | SHelp | SQuit => []
  | SFilesystem e | SPrint e | SExpr e => [e]
  end.

(** break or continue occurs outside any loop of the statement *)
Inductive loose_jump : stmt -> Prop :=
| lj_break : loose_jump SBreak
| lj_continue : loose_jump SContinue
| lj_then c a b s : In s a -> loose_jump s -> loose_jump (SIf c a b)
| lj_else c a b s : In s b -> loose_jump s -> loose_jump (SIf c a b).

(** The types of the environment: the kernel returns a u32 count and bytes, an image is bytes (fewer
    than 2^63, the limit of a file's size). *)
Definition env_typed (E : env) : Prop :=
  kernel_typed E /\ (forall n p img, open_path E n p = OpFile (Some img) -> bytes_ok img).
