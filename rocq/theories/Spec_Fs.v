(** What selecting a filesystem and reading from an image should do. *)
From Verif Require Import Base Ast Structs Definitions Value Variables Fs Eval.
Arguments s_ s%string_scope.

(** the btrfs magic at one of the three superblock copies (64 KiB, 64 MiB, 256 GiB), 64 bytes in *)
Definition superblocks : list Z := [64 * 1024; 64 * 1024 * 1024; 256 * 1024 * 1024 * 1024]%Z.
Definition carries_magic (img : str) : Prop :=
  exists sb pre post, In sb superblocks /\ zlen pre = (sb + 64)%Z /\ img = pre ++ s_ "_BHRfS_M" ++ post.
(** statfs type of btrfs *)
Definition btrfs_type : Z := 0x9123683E.
Definition accepted (o : open_res) (f : fs) : Prop :=
  (exists fd, o = OpDir fd (Some btrfs_type) /\ f = FsMounted fd) \/
  (exists img, o = OpFile (Some img) /\ carries_magic img /\ f = FsImage img).

(** why something that is not accepted is refused *)
Definition refusal (path : str) (o : open_res) : open_failure :=
  match o with
  | OpDir _ None | OpFile None => OfSystem
  | OpDir _ (Some _) => OfNotBtrfs path
  | OpFile (Some _) => OfNoMagic path
  | OpNone => OfNeither path
  end.

(** characters that stand for themselves inside a displayed string *)
Definition plain (c : N) : Prop := (32 <= c <= 126)%N /\ c <> 34%N /\ c <> 39%N /\ c <> 92%N.

(** the expression e is a cast to the struct s of an operand with value n *)
Definition casts (K : nat) (E : env) (vs : vars value) (f : option fs) (e : expr) (w : world) (s : strct) (n : Z) (w1 : world) : Prop :=
  exists a, e = ECast (EIdent (st_name s)) a /\ In s STRUCTS /\ eval_expr K E vs f a w = (w1, Ok (VInt n)).

(** n bytes at address a *)
Definition bytes_at (img : str) (a n : Z) (bs : str) : Prop :=
  exists pre post, img = pre ++ bs ++ post /\ zlen pre = a /\ zlen bs = n.
