(** Specification of the on-disk format: packed little-endian C layout, independent of the
    decoder.  [encodes t v bs] says that the byte string bs is exactly the encoding of the
    value v at type t. *)
From Verif Require Import Base Structs Value.
Arguments s_ s%string_scope.

(** byte strings: elements below 256, length at most isize::MAX *)
Definition bytes_ok (bs : str) : Prop := Forall (fun b => (b < 256)%N) bs /\ (zlen bs < 2 ^ 63)%Z.

(** n bytes, least significant first *)
Fixpoint le_bytes (n : nat) (z : Z) : str :=
  match n with O => [] | S n' => Z.to_N (z mod 256) :: le_bytes n' (z / 256) end.

(** the size of a packed C type; for types with trailing data, of the fixed part *)
Fixpoint csize (t : ty) : nat :=
  match t with
  | TU8 => 1 | TU16 => 2 | TU32 => 4 | TU64 => 8
  | TArray t n => n * csize t
  | TStruct _ _ fs => list_sum (map (fun f => csize (snd f)) fs)
  | TUnion _ fs => list_max (map (fun f => csize (snd f)) fs)
  | TTrailStr _ | TTrailTypes _ _ | TDyn _ => 0
  end.

(** fixed-layout types: no trailing or contents-dependent parts, and only structs and unions
    are anonymous members *)
Definition is_aggr (t : ty) : bool := match t with TStruct _ _ _ | TUnion _ _ => true | _ => false end.
Definition nameable (f : field) : bool := match fst f with Some _ => true | None => is_aggr (snd f) end.
Fixpoint fixed_layout (t : ty) : bool :=
  match t with
  | TU8 | TU16 | TU32 | TU64 => true
  | TArray t _ => fixed_layout t
  | TStruct _ _ fs | TUnion _ fs => forallb (fun f => fixed_layout (snd f) && nameable f) fs
  | TTrailStr _ | TTrailTypes _ _ | TDyn _ => false
  end.

Inductive encodes : ty -> value -> str -> Prop :=
| enc_u8 z : (0 <= z < 2 ^ 8)%Z -> encodes TU8 (VInt z) (le_bytes 1 z)
| enc_u16 z : (0 <= z < 2 ^ 16)%Z -> encodes TU16 (VInt z) (le_bytes 2 z)
| enc_u32 z : (0 <= z < 2 ^ 32)%Z -> encodes TU32 (VInt z) (le_bytes 4 z)
| enc_u64 z : (0 <= z < 2 ^ 64)%Z -> encodes TU64 (VInt z) (le_bytes 8 z)
(* array elements follow each other *)
| enc_array t vs bss : Forall2 (encodes t) vs bss ->
    encodes (TArray t (length vs)) (VArr vs false) (concat bss)
| enc_struct nm km fs ms bs : enc_fields fs ms bs -> encodes (TStruct nm km fs) (VStruct nm None ms) bs
(* a union is as long as its largest member *)
| enc_union nm fs ms bs : length bs = csize (TUnion nm fs) -> enc_overlay fs ms bs ->
    encodes (TUnion nm fs) (VStruct nm None ms) bs
(* struct members follow each other; members of an anonymous member appear in place *)
with enc_fields : list field -> list (str * value) -> str -> Prop :=
| enc_nil : enc_fields [] [] []
| enc_named n t fs v ms b bs : encodes t v b -> enc_fields fs ms bs ->
    enc_fields ((Some n, t) :: fs) ((n, v) :: ms) (b ++ bs)
| enc_anon t fs nm inner ms b bs : encodes t (VStruct nm None inner) b -> enc_fields fs ms bs ->
    enc_fields ((None, t) :: fs) (inner ++ ms) (b ++ bs)
(* union members all start at the beginning *)
with enc_overlay : list field -> list (str * value) -> str -> Prop :=
| ov_nil bs : enc_overlay [] [] bs
| ov_named n t fs v ms b pad bs : encodes t v b -> bs = b ++ pad -> enc_overlay fs ms bs ->
    enc_overlay ((Some n, t) :: fs) ((n, v) :: ms) bs
| ov_anon t fs nm inner ms b pad bs : encodes t (VStruct nm None inner) b -> bs = b ++ pad -> enc_overlay fs ms bs ->
    enc_overlay ((None, t) :: fs) (inner ++ ms) bs.

(** Structs with trailing data.  [enc_item acc fs ms bs]: after the members acc, the fields
    fs have members ms and take up exactly bs.  The length of a trailing field is the value
    of the (first) earlier member of the given name. *)
Inductive enc_item : list (str * value) -> list field -> list (str * value) -> str -> Prop :=
| item_nil acc : enc_item acc [] [] []
| item_named acc n t fs v ms b bs : encodes t v b -> enc_item (acc ++ [(n, v)]) fs ms bs ->
    enc_item acc ((Some n, t) :: fs) ((n, v) :: ms) (b ++ bs)
| item_anon acc t fs nm inner ms b bs : encodes t (VStruct nm None inner) b -> enc_item (acc ++ inner) fs ms bs ->
    enc_item acc ((None, t) :: fs) (inner ++ ms) (b ++ bs)
| item_str acc n len fs ms s bs : assoc len acc = Some (VInt (zlen s)) -> enc_item (acc ++ [(n, VStr s)]) fs ms bs ->
    enc_item acc ((Some n, TTrailStr len) :: fs) ((n, VStr s) :: ms) (s ++ bs)
| item_types acc n t cnt fs ms vs bss bs : assoc cnt acc = Some (VInt (zlen vs)) -> Forall2 (encodes t) vs bss ->
    enc_item (acc ++ [(n, VArr vs false)]) fs ms bs ->
    enc_item acc ((Some n, TTrailTypes t cnt) :: fs) ((n, VArr vs false) :: ms) (concat bss ++ bs).

(** ** Items whose layout depends on their contents *)
(** inline extent references: the one-byte kind selects what follows *)
Definition ref_layout (kind : Z) : option ty :=
  let ref fs := Some (TStruct (s_ "btrfs_extent_inline_ref") (fun _ _ _ => false) ((Some (s_ "type"), TU8) :: fs)) in
  let st nm fs := TStruct nm (fun _ _ _ => false) fs in
  if (kind =? 178)%Z (* EXTENT_DATA_REF *) then
    ref [(Some (s_ "data_ref"), st (s_ "btrfs_extent_data_ref")
           [(Some (s_ "root"), TU64); (Some (s_ "objectid"), TU64); (Some (s_ "offset"), TU64); (Some (s_ "count"), TU32)])]
  else if (kind =? 184)%Z (* SHARED_DATA_REF *) then
    ref [(Some (s_ "offset"), TU64);
         (Some (s_ "shared_data_ref"), st (s_ "btrfs_shared_data_ref") [(Some (s_ "count"), TU32)])]
  else if (kind =? 182)%Z (* SHARED_BLOCK_REF *) then ref [(Some (s_ "offset"), TU64)]
  else if (kind =? 176)%Z (* TREE_BLOCK_REF *) then ref [(Some (s_ "offset"), TU64)]
  else None.
(** a sequence of inline references, one member each *)
Inductive enc_refs : list (str * value) -> str -> Prop :=
| refs_nil : enc_refs [] []
| refs_cons kind t v b ms bs : ref_layout (Z.of_N kind) = Some t -> encodes t v (kind :: b) -> enc_refs ms bs ->
    enc_refs ((s_ "inline_ref", v) :: ms) ((kind :: b) ++ bs).
Definition extent_header : list field :=
  [(Some (s_ "refs"), TU64); (Some (s_ "generation"), TU64); (Some (s_ "flags"), TU64)].
(** struct btrfs_extent_item: 24-byte header, then inline references up to the end *)
Inductive enc_extent_item : list (str * value) -> str -> Prop :=
| extent_intro hs hb ms bs : enc_fields extent_header hs hb -> enc_refs ms bs -> enc_extent_item (hs ++ ms) (hb ++ bs).

(** struct btrfs_file_extent_item: for regular (1) and preallocated (2) extents the disk
    location follows the header, for inline extents (0) data that is not decoded *)
Definition file_extent_header : list field :=
  [(Some (s_ "generation"), TU64); (Some (s_ "ram_bytes"), TU64); (Some (s_ "compression"), TU8);
   (Some (s_ "encryption"), TU8); (Some (s_ "other_encoding"), TU16); (Some (s_ "type"), TU8)].
Definition file_extent_location : list field :=
  [(Some (s_ "disk_bytenr"), TU64); (Some (s_ "disk_num_bytes"), TU64); (Some (s_ "offset"), TU64);
   (Some (s_ "num_bytes"), TU64)].
Definition on_disk (hs : list (str * value)) : Prop :=
  assoc (s_ "type") hs = Some (VInt 1) \/ assoc (s_ "type") hs = Some (VInt 2).
Inductive enc_file_extent : list (str * value) -> str -> Prop :=
| fe_disk hs hb ls lb rest : enc_fields file_extent_header hs hb -> on_disk hs -> enc_fields file_extent_location ls lb ->
    enc_file_extent (hs ++ ls) (hb ++ lb ++ rest)
| fe_inline hs hb rest : enc_fields file_extent_header hs hb -> ~ on_disk hs -> enc_file_extent hs (hb ++ rest).

(** sizes of the fixed parts, from the kernel's btrfs_tree.h (for structs with trailing data,
    without it; _btrfs_ioctl_search_key is btrd's own; btrfs_balance_item without the unused tail; orphan items have no contents) *)
Definition fixed_part : list (str * nat) :=
  [(s_ "_btrfs_ioctl_search_key", 50); (s_ "btrfs_key", 17); (s_ "btrfs_header", 101); (s_ "btrfs_dev_item", 98);
   (s_ "btrfs_stripe", 32); (s_ "btrfs_chunk", 48); (s_ "btrfs_extent_inline_ref", 1); (s_ "btrfs_extent_data_ref", 28);
   (s_ "btrfs_shared_data_ref", 4); (s_ "btrfs_orphan_item", 0); (s_ "btrfs_extent_item", 24); (s_ "btrfs_dev_extent", 48);
   (s_ "btrfs_inode_ref", 10); (s_ "btrfs_inode_extref", 18); (s_ "btrfs_timespec", 12); (s_ "btrfs_inode_item", 160);
   (s_ "btrfs_dir_log_item", 8); (s_ "btrfs_dir_item", 30); (s_ "btrfs_root_item", 439); (s_ "btrfs_roof_ref", 18);
   (s_ "_anon_struct_0_btrfs_disk_balance_args", 8); (s_ "_anon_struct_1_btrfs_disk_balance_args", 8);
   (s_ "btrfs_disk_balance_args", 136); (s_ "btrfs_balance_item", 416); (s_ "btrfs_file_extent_item", 21);
   (s_ "btrfs_csum_item", 1); (s_ "btrfs_dev_stats_item", 40); (s_ "btrfs_dev_replace_item", 72);
   (s_ "btrfs_block_group_item", 24); (s_ "btrfs_free_space_info", 8); (s_ "btrfs_free_space_header", 41);
   (s_ "btrfs_qgroup_status_item", 32); (s_ "btrfs_qgroup_info_item", 40); (s_ "btrfs_qgroup_limit_item", 40)].
