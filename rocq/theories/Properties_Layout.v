(** C63: every scalar member is read where the kernel keeps it, and so are the names, the
    xattr value and the stripes that follow the fixed part of an item.  [kernel_layout]
    (Spec_Layout) is a table of 253 members with the offsets and widths a C compiler gives
    for the kernel's header. *)
From Verif Require Import Base Structs Definitions Value Eval Lib Demo Spec_Decode Spec_Layout Proof_Layout Proof_Tails.
Require Import Lia.
Arguments s_ s%string_scope.

(** For every entry of the table: the struct is shipped, and whenever bytes decode as it,
    the member at that path is the unsigned little-endian integer (or array of them) at
    that offset. *)
Theorem C63_members_are_where_the_kernel_keeps_them :
  forall nm path off w count, In (nm, path, off, w, count) kernel_layout ->
  (exists s, In s STRUCTS /\ st_name s = nm) /\
  forall oc s key bytes v, In s STRUCTS -> st_name s = nm -> bytes_ok bytes -> from_bytes oc s key bytes = Ok v ->
  has_member v bytes path off w count.
Proof. exact layout_ok. Qed.
Print Assumptions C63_members_are_where_the_kernel_keeps_them.

(** The variable parts: a name is the name_len bytes after the fixed part, an xattr value the
    data_len bytes after the name, with the lengths read where the kernel keeps them. *)
Theorem C63_variable_parts_are_where_the_kernel_keeps_them :
  forall nm m fixed before len, In (nm, m, fixed, before, len) kernel_strings ->
  (exists s, In s STRUCTS /\ st_name s = nm) /\
  forall oc s key bytes v, In s STRUCTS -> st_name s = nm -> bytes_ok bytes -> from_bytes oc s key bytes = Ok v ->
  has_string v bytes m fixed before len.
Proof.
  intros nm m fixed before len H. split; [|exact (strings_ok nm m fixed before len H)].
  unfold kernel_strings in H. cbn [In] in H.
  destruct H as [H|[H|[H|[H|[H|[]]]]]]; injection H as <- <- <- <- <-;
    [exists btrfs_inode_ref|exists btrfs_inode_extref|exists btrfs_roof_ref|exists btrfs_dir_item|exists btrfs_dir_item];
    (split; [unfold STRUCTS; cbn [In]; tauto|reflexivity]).
Qed.
Print Assumptions C63_variable_parts_are_where_the_kernel_keeps_them.

(** A chunk item: as many stripes as num_stripes says, each where the kernel keeps it. *)
Theorem C63_stripes_are_where_the_kernel_keeps_them :
  (exists s, In s STRUCTS /\ st_name s = s_ "btrfs_chunk") /\
  forall oc s key bytes v, In s STRUCTS -> st_name s = s_ "btrfs_chunk" -> bytes_ok bytes -> from_bytes oc s key bytes = Ok v ->
  has_stripes v bytes.
Proof. split; [exists btrfs_chunk; split; [unfold STRUCTS; cbn [In]; tauto|reflexivity]|exact stripes_ok]. Qed.
Print Assumptions C63_stripes_are_where_the_kernel_keeps_them.

(** a directory item named "ab" with the value "xyz", and a chunk of two stripes *)
Definition demo_dirent : str := (zeros 25 ++ [3; 0; 2; 0; 8] ++ [97; 98; 120; 121; 122])%N.
Definition demo_chunk_item : str := (zeros 44 ++ [2; 0; 0; 0] ++ zeros 32 ++ [7] ++ zeros 31)%N.
Example C63_tail_example :
  (exists v, from_bytes true btrfs_dir_item None demo_dirent = Ok v /\
     member v [s_ "name"] = Some (VStr (s_ "ab")) /\ member v [s_ "value"] = Some (VStr (s_ "xyz"))) /\
  (exists v, from_bytes true btrfs_chunk None demo_chunk_item = Ok v /\
     exists x y, member v [s_ "stripes"] = Some (VArr [x; y] false) /\ member y [s_ "devid"] = Some (VInt 7)).
Proof.
  split.
  - exists match from_bytes true btrfs_dir_item None demo_dirent with Ok v => v | _ => VInt 0 end.
    split; [vm_compute; reflexivity|]. split; vm_compute; reflexivity.
  - pose (c := match from_bytes true btrfs_chunk None demo_chunk_item with Ok v => v | _ => VInt 0 end).
    pose (st := fun i => match member c [s_ "stripes"] with Some (VArr u _) => nth i u (VInt 0) | _ => VInt 0 end).
    exists c. split; [vm_compute; reflexivity|]. exists (st 0), (st 1). split; vm_compute; reflexivity.
Qed.

(** a root item with bytes_used = 0x1234 and the third byte of its uuid 0xab *)
Definition demo_root_bytes : str := (zeros 192 ++ [0x34; 0x12] ++ zeros 55 ++ [0xab] ++ zeros 189)%N.
Definition demo_root : value := match from_bytes true btrfs_root_item None demo_root_bytes with Ok v => v | _ => VInt 0 end.
Example C63_example :
  length demo_root_bytes = 439 /\
  In (s_ "btrfs_root_item", [s_ "bytes_used"], 192, 8, None) kernel_layout /\
  In (s_ "btrfs_root_item", [s_ "inode"; s_ "ctime"; s_ "nsec"], 132, 4, None) kernel_layout /\
  (exists v, from_bytes true btrfs_root_item None demo_root_bytes = Ok v /\
     member v [s_ "bytes_used"] = Some (VInt 0x1234) /\
     exists u, member v [s_ "uuid"] = Some (VArr u false) /\ nth_error u 2 = Some (VInt 0xab)).
Proof.
  split; [vm_compute; reflexivity|]. split; [|split].
  1: apply (nth_error_In _ 212); vm_compute; reflexivity.
  1: apply (nth_error_In _ 203); vm_compute; reflexivity.
  exists demo_root. split; [vm_compute; reflexivity|]. split; [vm_compute; reflexivity|].
  exists match member demo_root [s_ "uuid"] with Some (VArr u _) => u | _ => [] end. split; vm_compute; reflexivity.
Qed.
