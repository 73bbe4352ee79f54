(** The values of the btrfs constants, independent of /repo: printed by a C program that includes
    <linux/btrfs.h> and <linux/btrfs_tree.h> (Linux 6.8 user-space headers), except for the ten
    BTRFS_RAID_* numbers, which are the kernel-internal enum btrfs_raid_types (fs/btrfs/volumes.h, Linux
    5.5 to 5.15), and BTRFS_BLOCK_FLAG_F_BACKREF, which the kernel calls BTRFS_BLOCK_FLAG_FULL_BACKREF. *)
From Verif Require Import Base Ast Value Spec_Text.
Arguments s_ s%string_scope.

Definition kernel_constants : list (str * Z) :=
  [(s_ "BTRFS_DEV_STAT_WRITE_ERRS", 0);
   (s_ "BTRFS_DEV_STAT_READ_ERRS", 1);
   (s_ "BTRFS_DEV_STAT_FLUSH_ERRS", 2);
   (s_ "BTRFS_DEV_STAT_CORRUPTION_ERRS", 3);
   (s_ "BTRFS_DEV_STAT_GENERATION_ERRS", 4);
   (s_ "BTRFS_DEV_STAT_VALUES_MAX", 5);
   (s_ "BTRFS_CSUM_TYPE_CRC32", 0);
   (s_ "BTRFS_CSUM_TYPE_XXHASH", 1);
   (s_ "BTRFS_CSUM_TYPE_SHA256", 2);
   (s_ "BTRFS_CSUM_TYPE_BLAKE2", 3);
   (s_ "BTRFS_FILE_EXTENT_INLINE", 0);
   (s_ "BTRFS_FILE_EXTENT_REG", 1);
   (s_ "BTRFS_FILE_EXTENT_PREALLOC", 2);
   (s_ "BTRFS_NR_FILE_EXTENT_TYPES", 3);
   (s_ "BTRFS_FSID_SIZE", 16);
   (s_ "BTRFS_UUID_SIZE", 16);
   (s_ "BTRFS_ROOT_TREE_OBJECTID", 1);
   (s_ "BTRFS_EXTENT_TREE_OBJECTID", 2);
   (s_ "BTRFS_CHUNK_TREE_OBJECTID", 3);
   (s_ "BTRFS_DEV_TREE_OBJECTID", 4);
   (s_ "BTRFS_FS_TREE_OBJECTID", 5);
   (s_ "BTRFS_ROOT_TREE_DIR_OBJECTID", 6);
   (s_ "BTRFS_CSUM_TREE_OBJECTID", 7);
   (s_ "BTRFS_QUOTA_TREE_OBJECTID", 8);
   (s_ "BTRFS_UUID_TREE_OBJECTID", 9);
   (s_ "BTRFS_FREE_SPACE_TREE_OBJECTID", 10);
   (s_ "BTRFS_DEV_STATS_OBJECTID", 0);
   (s_ "BTRFS_BALANCE_OBJECTID", 18446744073709551612);
   (s_ "BTRFS_ORPHAN_OBJECTID", 18446744073709551611);
   (s_ "BTRFS_TREE_LOG_OBJECTID", 18446744073709551610);
   (s_ "BTRFS_TREE_LOG_FIXUP_OBJECTID", 18446744073709551609);
   (s_ "BTRFS_TREE_RELOC_OBJECTID", 18446744073709551608);
   (s_ "BTRFS_DATA_RELOC_TREE_OBJECTID", 18446744073709551607);
   (s_ "BTRFS_EXTENT_CSUM_OBJECTID", 18446744073709551606);
   (s_ "BTRFS_FREE_SPACE_OBJECTID", 18446744073709551605);
   (s_ "BTRFS_FREE_INO_OBJECTID", 18446744073709551604);
   (s_ "BTRFS_MULTIPLE_OBJECTIDS", 18446744073709551361);
   (s_ "BTRFS_FIRST_FREE_OBJECTID", 256);
   (s_ "BTRFS_LAST_FREE_OBJECTID", 18446744073709551360);
   (s_ "BTRFS_FIRST_CHUNK_TREE_OBJECTID", 256);
   (s_ "BTRFS_DEV_ITEMS_OBJECTID", 1);
   (s_ "BTRFS_BTREE_INODE_OBJECTID", 1);
   (s_ "BTRFS_EMPTY_SUBVOL_DIR_OBJECTID", 2);
   (s_ "BTRFS_DEV_REPLACE_DEVID", 0);
   (s_ "BTRFS_INODE_ITEM_KEY", 1);
   (s_ "BTRFS_INODE_REF_KEY", 12);
   (s_ "BTRFS_INODE_EXTREF_KEY", 13);
   (s_ "BTRFS_XATTR_ITEM_KEY", 24);
   (s_ "BTRFS_ORPHAN_ITEM_KEY", 48);
   (s_ "BTRFS_DIR_LOG_ITEM_KEY", 60);
   (s_ "BTRFS_DIR_LOG_INDEX_KEY", 72);
   (s_ "BTRFS_DIR_ITEM_KEY", 84);
   (s_ "BTRFS_DIR_INDEX_KEY", 96);
   (s_ "BTRFS_EXTENT_DATA_KEY", 108);
   (s_ "BTRFS_EXTENT_CSUM_KEY", 128);
   (s_ "BTRFS_ROOT_ITEM_KEY", 132);
   (s_ "BTRFS_ROOT_BACKREF_KEY", 144);
   (s_ "BTRFS_ROOT_REF_KEY", 156);
   (s_ "BTRFS_EXTENT_ITEM_KEY", 168);
   (s_ "BTRFS_METADATA_ITEM_KEY", 169);
   (s_ "BTRFS_TREE_BLOCK_REF_KEY", 176);
   (s_ "BTRFS_EXTENT_DATA_REF_KEY", 178);
   (s_ "BTRFS_EXTENT_REF_V0_KEY", 180);
   (s_ "BTRFS_SHARED_BLOCK_REF_KEY", 182);
   (s_ "BTRFS_SHARED_DATA_REF_KEY", 184);
   (s_ "BTRFS_BLOCK_GROUP_ITEM_KEY", 192);
   (s_ "BTRFS_FREE_SPACE_INFO_KEY", 198);
   (s_ "BTRFS_FREE_SPACE_EXTENT_KEY", 199);
   (s_ "BTRFS_FREE_SPACE_BITMAP_KEY", 200);
   (s_ "BTRFS_DEV_EXTENT_KEY", 204);
   (s_ "BTRFS_DEV_ITEM_KEY", 216);
   (s_ "BTRFS_CHUNK_ITEM_KEY", 228);
   (s_ "BTRFS_QGROUP_STATUS_KEY", 240);
   (s_ "BTRFS_QGROUP_INFO_KEY", 242);
   (s_ "BTRFS_QGROUP_LIMIT_KEY", 244);
   (s_ "BTRFS_QGROUP_RELATION_KEY", 246);
   (s_ "BTRFS_BALANCE_ITEM_KEY", 248);
   (s_ "BTRFS_TEMPORARY_ITEM_KEY", 248);
   (s_ "BTRFS_DEV_STATS_KEY", 249);
   (s_ "BTRFS_PERSISTENT_ITEM_KEY", 249);
   (s_ "BTRFS_DEV_REPLACE_KEY", 250);
   (s_ "BTRFS_UUID_KEY_SUBVOL", 251);
   (s_ "BTRFS_UUID_KEY_RECEIVED_SUBVOL", 252);
   (s_ "BTRFS_STRING_ITEM_KEY", 253);
   (s_ "BTRFS_CSUM_SIZE", 32);
   (s_ "BTRFS_FT_UNKNOWN", 0);
   (s_ "BTRFS_FT_REG_FILE", 1);
   (s_ "BTRFS_FT_DIR", 2);
   (s_ "BTRFS_FT_CHRDEV", 3);
   (s_ "BTRFS_FT_BLKDEV", 4);
   (s_ "BTRFS_FT_FIFO", 5);
   (s_ "BTRFS_FT_SOCK", 6);
   (s_ "BTRFS_FT_SYMLINK", 7);
   (s_ "BTRFS_FT_XATTR", 8);
   (s_ "BTRFS_FT_MAX", 9);
   (s_ "BTRFS_FREE_SPACE_EXTENT", 1);
   (s_ "BTRFS_FREE_SPACE_BITMAP", 2);
   (s_ "BTRFS_HEADER_FLAG_WRITTEN", 1);
   (s_ "BTRFS_HEADER_FLAG_RELOC", 2);
   (s_ "BTRFS_SUPER_FLAG_ERROR", 4);
   (s_ "BTRFS_SUPER_FLAG_SEEDING", 4294967296);
   (s_ "BTRFS_SUPER_FLAG_METADUMP", 8589934592);
   (s_ "BTRFS_SUPER_FLAG_METADUMP_V2", 17179869184);
   (s_ "BTRFS_SUPER_FLAG_CHANGING_FSID", 34359738368);
   (s_ "BTRFS_SUPER_FLAG_CHANGING_FSID_V2", 68719476736);
   (s_ "BTRFS_EXTENT_FLAG_DATA", 1);
   (s_ "BTRFS_EXTENT_FLAG_TREE_BLOCK", 2);
   (s_ "BTRFS_EXTENT_FLAG_SUPER", 281474976710656);
   (s_ "BTRFS_ROOT_SUBVOL_RDONLY", 1);
   (s_ "BTRFS_ROOT_SUBVOL_DEAD", 281474976710656);
   (s_ "BTRFS_DEV_REPLACE_ITEM_CONT_READING_FROM_SRCDEV_MODE_ALWAYS", 0);
   (s_ "BTRFS_DEV_REPLACE_ITEM_CONT_READING_FROM_SRCDEV_MODE_AVOID", 1);
   (s_ "BTRFS_BLOCK_GROUP_DATA", 1);
   (s_ "BTRFS_BLOCK_GROUP_SYSTEM", 2);
   (s_ "BTRFS_BLOCK_GROUP_METADATA", 4);
   (s_ "BTRFS_BLOCK_GROUP_RAID0", 8);
   (s_ "BTRFS_BLOCK_GROUP_RAID1", 16);
   (s_ "BTRFS_BLOCK_GROUP_DUP", 32);
   (s_ "BTRFS_BLOCK_GROUP_RAID10", 64);
   (s_ "BTRFS_BLOCK_GROUP_RAID5", 128);
   (s_ "BTRFS_BLOCK_GROUP_RAID6", 256);
   (s_ "BTRFS_BLOCK_GROUP_RAID1C3", 512);
   (s_ "BTRFS_BLOCK_GROUP_RAID1C4", 1024);
   (s_ "BTRFS_BLOCK_GROUP_RESERVED", 844424930131968);
   (s_ "BTRFS_BLOCK_GROUP_TYPE_MASK", 7);
   (s_ "BTRFS_BLOCK_GROUP_PROFILE_MASK", 2040);
   (s_ "BTRFS_BLOCK_GROUP_RAID56_MASK", 384);
   (s_ "BTRFS_BLOCK_GROUP_RAID1_MASK", 1552);
   (s_ "BTRFS_AVAIL_ALLOC_BIT_SINGLE", 281474976710656);
   (s_ "BTRFS_SPACE_INFO_GLOBAL_RSV", 562949953421312);
   (s_ "BTRFS_EXTENDED_PROFILE_MASK", 281474976712696);
   (s_ "BTRFS_FREE_SPACE_USING_BITMAPS", 1);
   (s_ "BTRFS_QGROUP_LEVEL_SHIFT", 48);
   (s_ "BTRFS_QGROUP_STATUS_FLAG_ON", 1);
   (s_ "BTRFS_QGROUP_STATUS_FLAG_RESCAN", 2);
   (s_ "BTRFS_QGROUP_STATUS_FLAG_INCONSISTENT", 4);
   (s_ "BTRFS_QGROUP_STATUS_VERSION", 1);
   (s_ "BTRFS_RAID_RAID10", 0);
   (s_ "BTRFS_RAID_RAID1", 1);
   (s_ "BTRFS_RAID_DUP", 2);
   (s_ "BTRFS_RAID_RAID0", 3);
   (s_ "BTRFS_RAID_SINGLE", 4);
   (s_ "BTRFS_RAID_RAID5", 5);
   (s_ "BTRFS_RAID_RAID6", 6);
   (s_ "BTRFS_RAID_RAID1C3", 7);
   (s_ "BTRFS_RAID_RAID1C4", 8);
   (s_ "BTRFS_NR_RAID_TYPES", 9);
   (s_ "BTRFS_BLOCK_FLAG_F_BACKREF", 256)]%Z.
(** the seven functions *)
Definition functions : list (str * func) :=
  [(s_ "key", FKey); (s_ "keyof", FKeyOf); (s_ "search", FSearch); (s_ "typeof", FTypeOf); (s_ "len", FLen); (s_ "hist", FHist); (s_ "str", FStr)].

(** the variable whose value, or part of whose value, an assignment to e changes *)
Fixpoint root_var (e : expr) : option str :=
  match e with
  | EIdent x => Some x
  | EField e _ => root_var e
  | EIndex e _ => root_var e
  | _ => None
  end.
(** the program contains an assignment to x (or a part of x) or a loop over x *)
Definition alters (x : str) (st : stmt) : Prop :=
  exists u, In u (substmts st) /\ ((exists t e, u = SAssign t e /\ root_var t = Some x) \/ (exists e b, u = SFor (EIdent x) e b)).
