(** C76: scripts/block_group_dist.btrd. *)
From Verif Require Import Base Ast Pom Parse Structs Definitions Value Variables Semantics Fs Eval Runtime Input Main Lib Spec_Vars Spec_Decode Spec_Search Spec_Hist Spec_Run Spec_Lang Spec_Exec Spec_Layout Spec_Still Spec_Scripts
  Proof_Vars Proof_Decode Proof_Search Proof_Search2 Proof_Run Proof_Hist Proof_Lang Proof_Exec Proof_Layout Proof_Still Proof_Access Demo_Search Proof_Scripts.
Import Spec_Search.
From Coq Require Import Sorted Lia.
Arguments s_ s%string_scope.

(** ** The program *)
Definition V (x : str) : expr := EIdent x.
Definition F (x f : str) : expr := EField (EIdent x) (EIdent f).
Definition call (f : str) (args : list expr) : expr := ECall (EIdent f) args.
Definition inner_body : list stmt :=
  [SAssign (V (s_ "extent_key")) (call (s_ "keyof") [V (s_ "extent")]);
   SIf (EBin ONotEquals (F (s_ "extent_key") (s_ "type")) (V (s_ "BTRFS_EXTENT_ITEM_KEY"))) [SContinue] [];
   SIf (EBin OGreaterThanEquals (F (s_ "extent_key") (s_ "objectid")) (EBin OPlus (V (s_ "bg_start")) (V (s_ "bg_len")))) [SBreak] [];
   SIf (EBin OLessThan (V (s_ "last_end")) (F (s_ "extent_key") (s_ "objectid")))
     [SAssign (V (s_ "free_bytes")) (EBin OMinus (F (s_ "extent_key") (s_ "objectid")) (V (s_ "last_end")));
      SAssign (V (s_ "extent_free_space")) (EBin OPlus (V (s_ "extent_free_space")) (V (s_ "free_bytes")))] [];
   SAssign (V (s_ "last_end")) (EBin OPlus (F (s_ "extent_key") (s_ "objectid")) (F (s_ "extent_key") (s_ "offset")))].
Definition search_extents : expr := call (s_ "search") [V (s_ "BTRFS_EXTENT_TREE_OBJECTID"); V (s_ "k2")].
Definition group_head : list stmt :=
  [SAssign (V (s_ "bg_key")) (call (s_ "keyof") [V (s_ "bg")]);
   SIf (EBin ONotEquals (F (s_ "bg_key") (s_ "type")) (V (s_ "BTRFS_BLOCK_GROUP_ITEM_KEY"))) [SContinue] [];
   SIf (EUn UNot (EParen (EBin OBitAnd (F (s_ "bg") (s_ "flags")) (V (s_ "BTRFS_BLOCK_GROUP_DATA"))))) [SContinue] []].
Definition group_body : list stmt :=
  [SAssign (V (s_ "percent_used")) (EBin ODivide (EBin OMultiply (EInt 100) (F (s_ "bg") (s_ "used"))) (F (s_ "bg_key") (s_ "offset")));
   SAssign (V (s_ "blk_group_usage")) (EBin OPlus (V (s_ "blk_group_usage")) (V (s_ "percent_used")));
   SAssign (V (s_ "bg_start")) (F (s_ "bg_key") (s_ "objectid"));
   SAssign (V (s_ "bg_len")) (F (s_ "bg_key") (s_ "offset"));
   SAssign (V (s_ "last_end")) (V (s_ "bg_start"));
   SAssign (V (s_ "k2")) (call (s_ "key") [V (s_ "bg_start"); V (s_ "BTRFS_EXTENT_ITEM_KEY"); EInt 0; EInt 0]);
   SAssign (F (s_ "k2") (s_ "max_objectid")) (EBin OMinus (EBin OPlus (V (s_ "bg_start")) (V (s_ "bg_len"))) (EInt 1));
   SAssign (F (s_ "k2") (s_ "max_type")) (V (s_ "BTRFS_EXTENT_ITEM_KEY"))].
Definition group_extents : list stmt :=
  [SAssign (V (s_ "extents")) search_extents; SFor (V (s_ "extent")) (V (s_ "extents")) inner_body].
Definition outer_body : list stmt := group_head ++ group_body ++ group_extents.
Definition search_groups : expr := call (s_ "search") [V (s_ "BTRFS_EXTENT_TREE_OBJECTID"); V (s_ "k")].
Definition prelude : list stmt :=
  [SFilesystem (EStr (s_ "/mnt/btrfs"));
   SAssign (V (s_ "k")) (call (s_ "key") [EInt 0; V (s_ "BTRFS_BLOCK_GROUP_ITEM_KEY"); EInt 0; EInt 0]);
   SAssign (F (s_ "k") (s_ "max_type")) (V (s_ "BTRFS_BLOCK_GROUP_ITEM_KEY"))].
Definition middle : list stmt :=
  [SAssign (V (s_ "blk_group_usage")) (call (s_ "hist") []); SAssign (V (s_ "extent_free_space")) (call (s_ "hist") [])].
Definition report : list stmt :=
  [SPrint (EStr (s_ "block group usage:")); SPrint (EStr (s_ "------------------")); SPrint (V (s_ "blk_group_usage")); SPrint (EStr []);
   SPrint (EStr (s_ "extent free space:")); SPrint (EStr (s_ "------------------")); SPrint (V (s_ "extent_free_space"))].
Definition bgd : list stmt :=
  prelude ++ SAssign (V (s_ "bgs")) search_groups :: middle ++ SFor (V (s_ "bg")) (V (s_ "bgs")) outer_body :: report.
Lemma parse_bgd : parse (strip_comments block_group_dist) = Ok bgd.
Proof. vm_compute. reflexivity. Qed.
Lemma analyze_bgd : exists sem, analyze sem_new bgd = (sem, Ok tt).
Proof. eexists. vm_compute. reflexivity. Qed.

(** ** Its variables *)
Definition base : scope value := hd [] (vars_new VInt VFun).
Definition G (k b u f : value) : scope value :=
  base ++ [(s_ "k", k); (s_ "bgs", b); (s_ "blk_group_usage", u); (s_ "extent_free_space", f)].
Definition outer_names : list str :=
  map s_ ["bg"; "bg_key"; "percent_used"; "bg_start"; "bg_len"; "last_end"; "k2"; "extents"]%string.
Definition inner_names : list str := map s_ ["extent"; "extent_key"]%string.
Lemma get_G k b u f :
  (vars_get (s_ "k") [G k b u f] = Some k /\ vars_get (s_ "bgs") [G k b u f] = Some b) /\
  (vars_get (s_ "blk_group_usage") [G k b u f] = Some u /\ vars_get (s_ "extent_free_space") [G k b u f] = Some f) /\
  (vars_get (s_ "BTRFS_BLOCK_GROUP_ITEM_KEY") [G k b u f] = Some (VInt 192) /\ vars_get (s_ "BTRFS_EXTENT_ITEM_KEY") [G k b u f] = Some (VInt 168)) /\
  (vars_get (s_ "BTRFS_BLOCK_GROUP_DATA") [G k b u f] = Some (VInt 1) /\ vars_get (s_ "BTRFS_EXTENT_TREE_OBJECTID") [G k b u f] = Some (VInt 2)) /\
  (vars_get (s_ "keyof") [G k b u f] = Some (VFun FKeyOf) /\ vars_get (s_ "key") [G k b u f] = Some (VFun FKey)) /\
  vars_get (s_ "search") [G k b u f] = Some (VFun FSearch).
Proof. vm_compute. repeat split. Qed.
Lemma rep_G_u k b u f v : vars_replace (s_ "blk_group_usage") v [G k b u f] = Some [G k b v f].
Proof. vm_compute. reflexivity. Qed.
Lemma rep_G_f k b u f v : vars_replace (s_ "extent_free_space") v [G k b u f] = Some [G k b u v].
Proof. vm_compute. reflexivity. Qed.
Lemma rep_G_local k b u f x v : existsb (str_eqb x) (s_ "free_bytes" :: inner_names ++ outer_names) = true -> vars_replace x v [G k b u f] = None.
Proof.
  intros H. apply existsb_exists in H. destruct H as (y & Hy & Hx). apply str_eqb_eq in Hx. subst y.
  repeat (destruct Hy as [<-|Hy]; [vm_compute; reflexivity|]). destruct Hy.
Qed.
Global Opaque G.
