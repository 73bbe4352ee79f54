(** Constants and on-disk structures: /repo/src/btrfs/definitions.rs:19-1430.

    Constants keep their Rust names; all of them are converted to i128 by the
    [constant!] macro (definitions.rs:178-185), so their u8/u64 types only
    matter through their values. *)
From Verif Require Import Base Structs.
Local Open Scope Z_scope.

Definition BTRFS_DEV_STAT_WRITE_ERRS : Z := 0. (* definitions.rs:19 *)
Definition BTRFS_DEV_STAT_READ_ERRS : Z := 1. (* definitions.rs:20 *)
Definition BTRFS_DEV_STAT_FLUSH_ERRS : Z := 2. (* definitions.rs:21 *)
Definition BTRFS_DEV_STAT_CORRUPTION_ERRS : Z := 3. (* definitions.rs:22 *)
Definition BTRFS_DEV_STAT_GENERATION_ERRS : Z := 4. (* definitions.rs:23 *)
Definition BTRFS_DEV_STAT_VALUES_MAX : Z := 5. (* definitions.rs:24 *)
Definition BTRFS_CSUM_TYPE_CRC32 : Z := 0. (* definitions.rs:25 *)
Definition BTRFS_CSUM_TYPE_XXHASH : Z := 1. (* definitions.rs:26 *)
Definition BTRFS_CSUM_TYPE_SHA256 : Z := 2. (* definitions.rs:27 *)
Definition BTRFS_CSUM_TYPE_BLAKE2 : Z := 3. (* definitions.rs:28 *)
Definition BTRFS_FILE_EXTENT_INLINE : Z := 0. (* definitions.rs:29 *)
Definition BTRFS_FILE_EXTENT_REG : Z := 1. (* definitions.rs:30 *)
Definition BTRFS_FILE_EXTENT_PREALLOC : Z := 2. (* definitions.rs:31 *)
Definition BTRFS_NR_FILE_EXTENT_TYPES : Z := 3. (* definitions.rs:32 *)
Definition BTRFS_RAID_RAID10 : Z := 0. (* definitions.rs:33 *)
Definition BTRFS_RAID_RAID1 : Z := 1. (* definitions.rs:34 *)
Definition BTRFS_RAID_DUP : Z := 2. (* definitions.rs:35 *)
Definition BTRFS_RAID_RAID0 : Z := 3. (* definitions.rs:36 *)
Definition BTRFS_RAID_SINGLE : Z := 4. (* definitions.rs:37 *)
Definition BTRFS_RAID_RAID5 : Z := 5. (* definitions.rs:38 *)
Definition BTRFS_RAID_RAID6 : Z := 6. (* definitions.rs:39 *)
Definition BTRFS_RAID_RAID1C3 : Z := 7. (* definitions.rs:40 *)
Definition BTRFS_RAID_RAID1C4 : Z := 8. (* definitions.rs:41 *)
Definition BTRFS_NR_RAID_TYPES : Z := 9. (* definitions.rs:42 *)
Definition BTRFS_FSID_SIZE : Z := 16. (* definitions.rs:43 *)
Definition BTRFS_UUID_SIZE : Z := 16. (* definitions.rs:44 *)
Definition BTRFS_ROOT_TREE_OBJECTID : Z := 1. (* definitions.rs:45 *)
Definition BTRFS_EXTENT_TREE_OBJECTID : Z := 2. (* definitions.rs:46 *)
Definition BTRFS_CHUNK_TREE_OBJECTID : Z := 3. (* definitions.rs:47 *)
Definition BTRFS_DEV_TREE_OBJECTID : Z := 4. (* definitions.rs:48 *)
Definition BTRFS_FS_TREE_OBJECTID : Z := 5. (* definitions.rs:49 *)
Definition BTRFS_ROOT_TREE_DIR_OBJECTID : Z := 6. (* definitions.rs:50 *)
Definition BTRFS_CSUM_TREE_OBJECTID : Z := 7. (* definitions.rs:51 *)
Definition BTRFS_QUOTA_TREE_OBJECTID : Z := 8. (* definitions.rs:52 *)
Definition BTRFS_UUID_TREE_OBJECTID : Z := 9. (* definitions.rs:53 *)
Definition BTRFS_FREE_SPACE_TREE_OBJECTID : Z := 10. (* definitions.rs:54 *)
Definition BTRFS_DEV_STATS_OBJECTID : Z := 0. (* definitions.rs:55 *)
Definition BTRFS_BALANCE_OBJECTID : Z := 4. (* definitions.rs:56 *)
Definition BTRFS_ORPHAN_OBJECTID : Z := 2 ^ 64 - 5. (* definitions.rs:57 *)
Definition BTRFS_TREE_LOG_OBJECTID : Z := 2 ^ 64 - 6. (* definitions.rs:58 *)
Definition BTRFS_TREE_LOG_FIXUP_OBJECTID : Z := 2 ^ 64 - 7. (* definitions.rs:59 *)
Definition BTRFS_TREE_RELOC_OBJECTID : Z := 2 ^ 64 - 8. (* definitions.rs:60 *)
Definition BTRFS_DATA_RELOC_TREE_OBJECTID : Z := 2 ^ 64 - 9. (* definitions.rs:61 *)
Definition BTRFS_EXTENT_CSUM_OBJECTID : Z := 2 ^ 64 - 10. (* definitions.rs:62 *)
Definition BTRFS_FREE_SPACE_OBJECTID : Z := 2 ^ 64 - 11. (* definitions.rs:63 *)
Definition BTRFS_FREE_INO_OBJECTID : Z := 2 ^ 64 - 12. (* definitions.rs:64 *)
Definition BTRFS_MULTIPLE_OBJECTIDS : Z := 2 ^ 64 - 255. (* definitions.rs:65 *)
Definition BTRFS_FIRST_FREE_OBJECTID : Z := 256. (* definitions.rs:66 *)
Definition BTRFS_LAST_FREE_OBJECTID : Z := 2 ^ 64 - 256. (* definitions.rs:67 *)
Definition BTRFS_FIRST_CHUNK_TREE_OBJECTID : Z := 256. (* definitions.rs:68 *)
Definition BTRFS_DEV_ITEMS_OBJECTID : Z := 1. (* definitions.rs:69 *)
Definition BTRFS_BTREE_INODE_OBJECTID : Z := 1. (* definitions.rs:70 *)
Definition BTRFS_EMPTY_SUBVOL_DIR_OBJECTID : Z := 2. (* definitions.rs:71 *)
Definition BTRFS_DEV_REPLACE_DEVID : Z := 0. (* definitions.rs:72 *)
Definition BTRFS_INODE_ITEM_KEY : Z := 1. (* definitions.rs:73 *)
Definition BTRFS_INODE_REF_KEY : Z := 12. (* definitions.rs:74 *)
Definition BTRFS_INODE_EXTREF_KEY : Z := 13. (* definitions.rs:75 *)
Definition BTRFS_XATTR_ITEM_KEY : Z := 24. (* definitions.rs:76 *)
Definition BTRFS_ORPHAN_ITEM_KEY : Z := 48. (* definitions.rs:77 *)
Definition BTRFS_DIR_LOG_ITEM_KEY : Z := 60. (* definitions.rs:78 *)
Definition BTRFS_DIR_LOG_INDEX_KEY : Z := 72. (* definitions.rs:79 *)
Definition BTRFS_DIR_ITEM_KEY : Z := 84. (* definitions.rs:80 *)
Definition BTRFS_DIR_INDEX_KEY : Z := 96. (* definitions.rs:81 *)
Definition BTRFS_EXTENT_DATA_KEY : Z := 108. (* definitions.rs:82 *)
Definition BTRFS_EXTENT_CSUM_KEY : Z := 128. (* definitions.rs:83 *)
Definition BTRFS_ROOT_ITEM_KEY : Z := 132. (* definitions.rs:84 *)
Definition BTRFS_ROOT_BACKREF_KEY : Z := 144. (* definitions.rs:85 *)
Definition BTRFS_ROOT_REF_KEY : Z := 156. (* definitions.rs:86 *)
Definition BTRFS_EXTENT_ITEM_KEY : Z := 168. (* definitions.rs:87 *)
Definition BTRFS_METADATA_ITEM_KEY : Z := 169. (* definitions.rs:88 *)
Definition BTRFS_TREE_BLOCK_REF_KEY : Z := 176. (* definitions.rs:89 *)
Definition BTRFS_EXTENT_DATA_REF_KEY : Z := 178. (* definitions.rs:90 *)
Definition BTRFS_EXTENT_REF_V0_KEY : Z := 180. (* definitions.rs:91 *)
Definition BTRFS_SHARED_BLOCK_REF_KEY : Z := 182. (* definitions.rs:92 *)
Definition BTRFS_SHARED_DATA_REF_KEY : Z := 184. (* definitions.rs:93 *)
Definition BTRFS_BLOCK_GROUP_ITEM_KEY : Z := 192. (* definitions.rs:94 *)
Definition BTRFS_FREE_SPACE_INFO_KEY : Z := 198. (* definitions.rs:95 *)
Definition BTRFS_FREE_SPACE_EXTENT_KEY : Z := 199. (* definitions.rs:96 *)
Definition BTRFS_FREE_SPACE_BITMAP_KEY : Z := 200. (* definitions.rs:97 *)
Definition BTRFS_DEV_EXTENT_KEY : Z := 204. (* definitions.rs:98 *)
Definition BTRFS_DEV_ITEM_KEY : Z := 216. (* definitions.rs:99 *)
Definition BTRFS_CHUNK_ITEM_KEY : Z := 228. (* definitions.rs:100 *)
Definition BTRFS_QGROUP_STATUS_KEY : Z := 240. (* definitions.rs:101 *)
Definition BTRFS_QGROUP_INFO_KEY : Z := 242. (* definitions.rs:102 *)
Definition BTRFS_QGROUP_LIMIT_KEY : Z := 244. (* definitions.rs:103 *)
Definition BTRFS_QGROUP_RELATION_KEY : Z := 246. (* definitions.rs:104 *)
Definition BTRFS_BALANCE_ITEM_KEY : Z := 248. (* definitions.rs:105 *)
Definition BTRFS_TEMPORARY_ITEM_KEY : Z := 248. (* definitions.rs:106 *)
Definition BTRFS_DEV_STATS_KEY : Z := 249. (* definitions.rs:107 *)
Definition BTRFS_PERSISTENT_ITEM_KEY : Z := 249. (* definitions.rs:108 *)
Definition BTRFS_DEV_REPLACE_KEY : Z := 250. (* definitions.rs:109 *)
Definition BTRFS_UUID_KEY_SUBVOL : Z := 251. (* definitions.rs:110 *)
Definition BTRFS_UUID_KEY_RECEIVED_SUBVOL : Z := 252. (* definitions.rs:111 *)
Definition BTRFS_STRING_ITEM_KEY : Z := 253. (* definitions.rs:112 *)
Definition BTRFS_CSUM_SIZE : Z := 32. (* definitions.rs:113 *)
Definition BTRFS_FT_UNKNOWN : Z := 0. (* definitions.rs:114 *)
Definition BTRFS_FT_REG_FILE : Z := 1. (* definitions.rs:115 *)
Definition BTRFS_FT_DIR : Z := 2. (* definitions.rs:116 *)
Definition BTRFS_FT_CHRDEV : Z := 3. (* definitions.rs:117 *)
Definition BTRFS_FT_BLKDEV : Z := 4. (* definitions.rs:118 *)
Definition BTRFS_FT_FIFO : Z := 5. (* definitions.rs:119 *)
Definition BTRFS_FT_SOCK : Z := 6. (* definitions.rs:120 *)
Definition BTRFS_FT_SYMLINK : Z := 7. (* definitions.rs:121 *)
Definition BTRFS_FT_XATTR : Z := 8. (* definitions.rs:122 *)
Definition BTRFS_FT_MAX : Z := 9. (* definitions.rs:123 *)
Definition BTRFS_FREE_SPACE_EXTENT : Z := 1. (* definitions.rs:124 *)
Definition BTRFS_FREE_SPACE_BITMAP : Z := 2. (* definitions.rs:125 *)
Definition BTRFS_HEADER_FLAG_WRITTEN : Z := Z.shiftl 1 0. (* definitions.rs:126 *)
Definition BTRFS_HEADER_FLAG_RELOC : Z := Z.shiftl 1 1. (* definitions.rs:127 *)
Definition BTRFS_SUPER_FLAG_ERROR : Z := Z.shiftl 1 2. (* definitions.rs:128 *)
Definition BTRFS_SUPER_FLAG_SEEDING : Z := Z.shiftl 1 32. (* definitions.rs:129 *)
Definition BTRFS_SUPER_FLAG_METADUMP : Z := Z.shiftl 1 33. (* definitions.rs:130 *)
Definition BTRFS_SUPER_FLAG_METADUMP_V2 : Z := Z.shiftl 1 34. (* definitions.rs:131 *)
Definition BTRFS_SUPER_FLAG_CHANGING_FSID : Z := Z.shiftl 1 35. (* definitions.rs:132 *)
Definition BTRFS_SUPER_FLAG_CHANGING_FSID_V2 : Z := Z.shiftl 1 36. (* definitions.rs:133 *)
Definition BTRFS_EXTENT_FLAG_DATA : Z := Z.shiftl 1 0. (* definitions.rs:134 *)
Definition BTRFS_EXTENT_FLAG_TREE_BLOCK : Z := Z.shiftl 1 1. (* definitions.rs:135 *)
Definition BTRFS_BLOCK_FLAG_F_BACKREF : Z := Z.shiftl 1 8. (* definitions.rs:136 *)
Definition BTRFS_EXTENT_FLAG_SUPER : Z := Z.shiftl 1 48. (* definitions.rs:137 *)
Definition BTRFS_ROOT_SUBVOL_RDONLY : Z := Z.shiftl 1 0. (* definitions.rs:138 *)
Definition BTRFS_ROOT_SUBVOL_DEAD : Z := Z.shiftl 1 48. (* definitions.rs:139 *)
Definition BTRFS_DEV_REPLACE_ITEM_CONT_READING_FROM_SRCDEV_MODE_ALWAYS : Z := 0. (* definitions.rs:140 *)
Definition BTRFS_DEV_REPLACE_ITEM_CONT_READING_FROM_SRCDEV_MODE_AVOID : Z := 1. (* definitions.rs:141 *)
Definition BTRFS_BLOCK_GROUP_DATA : Z := Z.shiftl 1 0. (* definitions.rs:142 *)
Definition BTRFS_BLOCK_GROUP_SYSTEM : Z := Z.shiftl 1 1. (* definitions.rs:143 *)
Definition BTRFS_BLOCK_GROUP_METADATA : Z := Z.shiftl 1 2. (* definitions.rs:144 *)
Definition BTRFS_BLOCK_GROUP_RAID0 : Z := Z.shiftl 1 3. (* definitions.rs:145 *)
Definition BTRFS_BLOCK_GROUP_RAID1 : Z := Z.shiftl 1 4. (* definitions.rs:146 *)
Definition BTRFS_BLOCK_GROUP_DUP : Z := Z.shiftl 1 5. (* definitions.rs:147 *)
Definition BTRFS_BLOCK_GROUP_RAID10 : Z := Z.shiftl 1 6. (* definitions.rs:148 *)
Definition BTRFS_BLOCK_GROUP_RAID5 : Z := Z.shiftl 1 7. (* definitions.rs:149 *)
Definition BTRFS_BLOCK_GROUP_RAID6 : Z := Z.shiftl 1 8. (* definitions.rs:150 *)
Definition BTRFS_BLOCK_GROUP_RAID1C3 : Z := Z.shiftl 1 9. (* definitions.rs:151 *)
Definition BTRFS_BLOCK_GROUP_RAID1C4 : Z := Z.shiftl 1 10. (* definitions.rs:152 *)
Definition BTRFS_AVAIL_ALLOC_BIT_SINGLE : Z := Z.shiftl 1 48. (* definitions.rs:167 *)
Definition BTRFS_SPACE_INFO_GLOBAL_RSV : Z := Z.shiftl 1 49. (* definitions.rs:168 *)
Definition BTRFS_BLOCK_GROUP_RESERVED : Z := Z.lor BTRFS_AVAIL_ALLOC_BIT_SINGLE BTRFS_SPACE_INFO_GLOBAL_RSV. (* definitions.rs:153 *)
Definition BTRFS_BLOCK_GROUP_TYPE_MASK : Z := Z.lor (Z.lor BTRFS_BLOCK_GROUP_DATA BTRFS_BLOCK_GROUP_SYSTEM) BTRFS_BLOCK_GROUP_METADATA. (* definitions.rs:154-155 *)
Definition BTRFS_BLOCK_GROUP_PROFILE_MASK : Z := Z.lor (Z.lor (Z.lor (Z.lor (Z.lor (Z.lor (Z.lor BTRFS_BLOCK_GROUP_RAID0 BTRFS_BLOCK_GROUP_RAID1) BTRFS_BLOCK_GROUP_RAID1C3) BTRFS_BLOCK_GROUP_RAID1C4) BTRFS_BLOCK_GROUP_RAID5) BTRFS_BLOCK_GROUP_RAID6) BTRFS_BLOCK_GROUP_DUP) BTRFS_BLOCK_GROUP_RAID10. (* definitions.rs:156-163 *)
Definition BTRFS_BLOCK_GROUP_RAID56_MASK : Z := Z.lor BTRFS_BLOCK_GROUP_RAID5 BTRFS_BLOCK_GROUP_RAID6. (* definitions.rs:164 *)
Definition BTRFS_BLOCK_GROUP_RAID1_MASK : Z := Z.lor (Z.lor BTRFS_BLOCK_GROUP_RAID1 BTRFS_BLOCK_GROUP_RAID1C3) BTRFS_BLOCK_GROUP_RAID1C4. (* definitions.rs:165-166 *)
Definition BTRFS_EXTENDED_PROFILE_MASK : Z := Z.lor BTRFS_BLOCK_GROUP_PROFILE_MASK BTRFS_AVAIL_ALLOC_BIT_SINGLE. (* definitions.rs:169-170 *)
Definition BTRFS_FREE_SPACE_USING_BITMAPS : Z := Z.shiftl 1 0. (* definitions.rs:171 *)
Definition BTRFS_QGROUP_LEVEL_SHIFT : Z := 48. (* definitions.rs:172 *)
Definition BTRFS_QGROUP_STATUS_FLAG_ON : Z := Z.shiftl 1 0. (* definitions.rs:173 *)
Definition BTRFS_QGROUP_STATUS_FLAG_RESCAN : Z := Z.shiftl 1 1. (* definitions.rs:174 *)
Definition BTRFS_QGROUP_STATUS_FLAG_INCONSISTENT : Z := Z.shiftl 1 2. (* definitions.rs:175 *)
Definition BTRFS_QGROUP_STATUS_VERSION : Z := 1. (* definitions.rs:176 *)

(** [constant!] (definitions.rs:178-185): name and value *)
Definition cst (n : string) (v : Z) : str * Z := (s_ n, v).
Arguments cst n%string_scope v%Z_scope.

(** definitions.rs:188-337 *)
Definition CONSTANTS : list (str * Z) :=
  [cst "BTRFS_DEV_STAT_WRITE_ERRS" BTRFS_DEV_STAT_WRITE_ERRS;
   cst "BTRFS_DEV_STAT_READ_ERRS" BTRFS_DEV_STAT_READ_ERRS;
   cst "BTRFS_DEV_STAT_FLUSH_ERRS" BTRFS_DEV_STAT_FLUSH_ERRS;
   cst "BTRFS_DEV_STAT_CORRUPTION_ERRS" BTRFS_DEV_STAT_CORRUPTION_ERRS;
   cst "BTRFS_DEV_STAT_GENERATION_ERRS" BTRFS_DEV_STAT_GENERATION_ERRS;
   cst "BTRFS_DEV_STAT_VALUES_MAX" BTRFS_DEV_STAT_VALUES_MAX;
   cst "BTRFS_CSUM_TYPE_CRC32" BTRFS_CSUM_TYPE_CRC32;
   cst "BTRFS_CSUM_TYPE_XXHASH" BTRFS_CSUM_TYPE_XXHASH;
   cst "BTRFS_CSUM_TYPE_SHA256" BTRFS_CSUM_TYPE_SHA256;
   cst "BTRFS_CSUM_TYPE_BLAKE2" BTRFS_CSUM_TYPE_BLAKE2;
   cst "BTRFS_FILE_EXTENT_INLINE" BTRFS_FILE_EXTENT_INLINE;
   cst "BTRFS_FILE_EXTENT_REG" BTRFS_FILE_EXTENT_REG;
   cst "BTRFS_FILE_EXTENT_PREALLOC" BTRFS_FILE_EXTENT_PREALLOC;
   cst "BTRFS_NR_FILE_EXTENT_TYPES" BTRFS_NR_FILE_EXTENT_TYPES;
   cst "BTRFS_RAID_RAID10" BTRFS_RAID_RAID10;
   cst "BTRFS_RAID_RAID1" BTRFS_RAID_RAID1;
   cst "BTRFS_RAID_DUP" BTRFS_RAID_DUP;
   cst "BTRFS_RAID_RAID0" BTRFS_RAID_RAID0;
   cst "BTRFS_RAID_SINGLE" BTRFS_RAID_SINGLE;
   cst "BTRFS_RAID_RAID5" BTRFS_RAID_RAID5;
   cst "BTRFS_RAID_RAID6" BTRFS_RAID_RAID6;
   cst "BTRFS_RAID_RAID1C3" BTRFS_RAID_RAID1C3;
   cst "BTRFS_RAID_RAID1C4" BTRFS_RAID_RAID1C4;
   cst "BTRFS_NR_RAID_TYPES" BTRFS_NR_RAID_TYPES;
   cst "BTRFS_FSID_SIZE" BTRFS_FSID_SIZE;
   cst "BTRFS_UUID_SIZE" BTRFS_UUID_SIZE;
   cst "BTRFS_ROOT_TREE_OBJECTID" BTRFS_ROOT_TREE_OBJECTID;
   cst "BTRFS_EXTENT_TREE_OBJECTID" BTRFS_EXTENT_TREE_OBJECTID;
   cst "BTRFS_CHUNK_TREE_OBJECTID" BTRFS_CHUNK_TREE_OBJECTID;
   cst "BTRFS_DEV_TREE_OBJECTID" BTRFS_DEV_TREE_OBJECTID;
   cst "BTRFS_FS_TREE_OBJECTID" BTRFS_FS_TREE_OBJECTID;
   cst "BTRFS_ROOT_TREE_DIR_OBJECTID" BTRFS_ROOT_TREE_DIR_OBJECTID;
   cst "BTRFS_CSUM_TREE_OBJECTID" BTRFS_CSUM_TREE_OBJECTID;
   cst "BTRFS_QUOTA_TREE_OBJECTID" BTRFS_QUOTA_TREE_OBJECTID;
   cst "BTRFS_UUID_TREE_OBJECTID" BTRFS_UUID_TREE_OBJECTID;
   cst "BTRFS_FREE_SPACE_TREE_OBJECTID" BTRFS_FREE_SPACE_TREE_OBJECTID;
   cst "BTRFS_DEV_STATS_OBJECTID" BTRFS_DEV_STATS_OBJECTID;
   cst "BTRFS_BALANCE_OBJECTID" BTRFS_BALANCE_OBJECTID;
   cst "BTRFS_ORPHAN_OBJECTID" BTRFS_ORPHAN_OBJECTID;
   cst "BTRFS_TREE_LOG_OBJECTID" BTRFS_TREE_LOG_OBJECTID;
   cst "BTRFS_TREE_LOG_FIXUP_OBJECTID" BTRFS_TREE_LOG_FIXUP_OBJECTID;
   cst "BTRFS_TREE_RELOC_OBJECTID" BTRFS_TREE_RELOC_OBJECTID;
   cst "BTRFS_DATA_RELOC_TREE_OBJECTID" BTRFS_DATA_RELOC_TREE_OBJECTID;
   cst "BTRFS_EXTENT_CSUM_OBJECTID" BTRFS_EXTENT_CSUM_OBJECTID;
   cst "BTRFS_FREE_SPACE_OBJECTID" BTRFS_FREE_SPACE_OBJECTID;
   cst "BTRFS_FREE_INO_OBJECTID" BTRFS_FREE_INO_OBJECTID;
   cst "BTRFS_MULTIPLE_OBJECTIDS" BTRFS_MULTIPLE_OBJECTIDS;
   cst "BTRFS_FIRST_FREE_OBJECTID" BTRFS_FIRST_FREE_OBJECTID;
   cst "BTRFS_LAST_FREE_OBJECTID" BTRFS_LAST_FREE_OBJECTID;
   cst "BTRFS_FIRST_CHUNK_TREE_OBJECTID" BTRFS_FIRST_CHUNK_TREE_OBJECTID;
   cst "BTRFS_DEV_ITEMS_OBJECTID" BTRFS_DEV_ITEMS_OBJECTID;
   cst "BTRFS_BTREE_INODE_OBJECTID" BTRFS_BTREE_INODE_OBJECTID;
   cst "BTRFS_EMPTY_SUBVOL_DIR_OBJECTID" BTRFS_EMPTY_SUBVOL_DIR_OBJECTID;
   cst "BTRFS_DEV_REPLACE_DEVID" BTRFS_DEV_REPLACE_DEVID;
   cst "BTRFS_INODE_ITEM_KEY" BTRFS_INODE_ITEM_KEY;
   cst "BTRFS_INODE_REF_KEY" BTRFS_INODE_REF_KEY;
   cst "BTRFS_INODE_EXTREF_KEY" BTRFS_INODE_EXTREF_KEY;
   cst "BTRFS_XATTR_ITEM_KEY" BTRFS_XATTR_ITEM_KEY;
   cst "BTRFS_ORPHAN_ITEM_KEY" BTRFS_ORPHAN_ITEM_KEY;
   cst "BTRFS_DIR_LOG_ITEM_KEY" BTRFS_DIR_LOG_ITEM_KEY;
   cst "BTRFS_DIR_LOG_INDEX_KEY" BTRFS_DIR_LOG_INDEX_KEY;
   cst "BTRFS_DIR_ITEM_KEY" BTRFS_DIR_ITEM_KEY;
   cst "BTRFS_DIR_INDEX_KEY" BTRFS_DIR_INDEX_KEY;
   cst "BTRFS_EXTENT_DATA_KEY" BTRFS_EXTENT_DATA_KEY;
   cst "BTRFS_EXTENT_CSUM_KEY" BTRFS_EXTENT_CSUM_KEY;
   cst "BTRFS_ROOT_ITEM_KEY" BTRFS_ROOT_ITEM_KEY;
   cst "BTRFS_ROOT_BACKREF_KEY" BTRFS_ROOT_BACKREF_KEY;
   cst "BTRFS_ROOT_REF_KEY" BTRFS_ROOT_REF_KEY;
   cst "BTRFS_EXTENT_ITEM_KEY" BTRFS_EXTENT_ITEM_KEY;
   cst "BTRFS_METADATA_ITEM_KEY" BTRFS_METADATA_ITEM_KEY;
   cst "BTRFS_TREE_BLOCK_REF_KEY" BTRFS_TREE_BLOCK_REF_KEY;
   cst "BTRFS_EXTENT_DATA_REF_KEY" BTRFS_EXTENT_DATA_REF_KEY;
   cst "BTRFS_EXTENT_REF_V0_KEY" BTRFS_EXTENT_REF_V0_KEY;
   cst "BTRFS_SHARED_BLOCK_REF_KEY" BTRFS_SHARED_BLOCK_REF_KEY;
   cst "BTRFS_SHARED_DATA_REF_KEY" BTRFS_SHARED_DATA_REF_KEY;
   cst "BTRFS_BLOCK_GROUP_ITEM_KEY" BTRFS_BLOCK_GROUP_ITEM_KEY;
   cst "BTRFS_FREE_SPACE_INFO_KEY" BTRFS_FREE_SPACE_INFO_KEY;
   cst "BTRFS_FREE_SPACE_EXTENT_KEY" BTRFS_FREE_SPACE_EXTENT_KEY;
   cst "BTRFS_FREE_SPACE_BITMAP_KEY" BTRFS_FREE_SPACE_BITMAP_KEY;
   cst "BTRFS_DEV_EXTENT_KEY" BTRFS_DEV_EXTENT_KEY;
   cst "BTRFS_DEV_ITEM_KEY" BTRFS_DEV_ITEM_KEY;
   cst "BTRFS_CHUNK_ITEM_KEY" BTRFS_CHUNK_ITEM_KEY;
   cst "BTRFS_QGROUP_STATUS_KEY" BTRFS_QGROUP_STATUS_KEY;
   cst "BTRFS_QGROUP_INFO_KEY" BTRFS_QGROUP_INFO_KEY;
   cst "BTRFS_QGROUP_LIMIT_KEY" BTRFS_QGROUP_LIMIT_KEY;
   cst "BTRFS_QGROUP_RELATION_KEY" BTRFS_QGROUP_RELATION_KEY;
   cst "BTRFS_BALANCE_ITEM_KEY" BTRFS_BALANCE_ITEM_KEY;
   cst "BTRFS_TEMPORARY_ITEM_KEY" BTRFS_TEMPORARY_ITEM_KEY;
   cst "BTRFS_DEV_STATS_KEY" BTRFS_DEV_STATS_KEY;
   cst "BTRFS_PERSISTENT_ITEM_KEY" BTRFS_PERSISTENT_ITEM_KEY;
   cst "BTRFS_DEV_REPLACE_KEY" BTRFS_DEV_REPLACE_KEY;
   cst "BTRFS_UUID_KEY_SUBVOL" BTRFS_UUID_KEY_SUBVOL;
   cst "BTRFS_UUID_KEY_RECEIVED_SUBVOL" BTRFS_UUID_KEY_RECEIVED_SUBVOL;
   cst "BTRFS_STRING_ITEM_KEY" BTRFS_STRING_ITEM_KEY;
   cst "BTRFS_CSUM_SIZE" BTRFS_CSUM_SIZE;
   cst "BTRFS_FT_UNKNOWN" BTRFS_FT_UNKNOWN;
   cst "BTRFS_FT_REG_FILE" BTRFS_FT_REG_FILE;
   cst "BTRFS_FT_DIR" BTRFS_FT_DIR;
   cst "BTRFS_FT_CHRDEV" BTRFS_FT_CHRDEV;
   cst "BTRFS_FT_BLKDEV" BTRFS_FT_BLKDEV;
   cst "BTRFS_FT_FIFO" BTRFS_FT_FIFO;
   cst "BTRFS_FT_SOCK" BTRFS_FT_SOCK;
   cst "BTRFS_FT_SYMLINK" BTRFS_FT_SYMLINK;
   cst "BTRFS_FT_XATTR" BTRFS_FT_XATTR;
   cst "BTRFS_FT_MAX" BTRFS_FT_MAX;
   cst "BTRFS_FREE_SPACE_EXTENT" BTRFS_FREE_SPACE_EXTENT;
   cst "BTRFS_FREE_SPACE_BITMAP" BTRFS_FREE_SPACE_BITMAP;
   cst "BTRFS_HEADER_FLAG_WRITTEN" BTRFS_HEADER_FLAG_WRITTEN;
   cst "BTRFS_HEADER_FLAG_RELOC" BTRFS_HEADER_FLAG_RELOC;
   cst "BTRFS_SUPER_FLAG_ERROR" BTRFS_SUPER_FLAG_ERROR;
   cst "BTRFS_SUPER_FLAG_SEEDING" BTRFS_SUPER_FLAG_SEEDING;
   cst "BTRFS_SUPER_FLAG_METADUMP" BTRFS_SUPER_FLAG_METADUMP;
   cst "BTRFS_SUPER_FLAG_METADUMP_V2" BTRFS_SUPER_FLAG_METADUMP_V2;
   cst "BTRFS_SUPER_FLAG_CHANGING_FSID" BTRFS_SUPER_FLAG_CHANGING_FSID;
   cst "BTRFS_SUPER_FLAG_CHANGING_FSID_V2" BTRFS_SUPER_FLAG_CHANGING_FSID_V2;
   cst "BTRFS_EXTENT_FLAG_DATA" BTRFS_EXTENT_FLAG_DATA;
   cst "BTRFS_EXTENT_FLAG_TREE_BLOCK" BTRFS_EXTENT_FLAG_TREE_BLOCK;
   cst "BTRFS_BLOCK_FLAG_F_BACKREF" BTRFS_BLOCK_FLAG_F_BACKREF;
   cst "BTRFS_EXTENT_FLAG_SUPER" BTRFS_EXTENT_FLAG_SUPER;
   cst "BTRFS_ROOT_SUBVOL_RDONLY" BTRFS_ROOT_SUBVOL_RDONLY;
   cst "BTRFS_ROOT_SUBVOL_DEAD" BTRFS_ROOT_SUBVOL_DEAD;
   cst "BTRFS_DEV_REPLACE_ITEM_CONT_READING_FROM_SRCDEV_MODE_ALWAYS" BTRFS_DEV_REPLACE_ITEM_CONT_READING_FROM_SRCDEV_MODE_ALWAYS;
   cst "BTRFS_DEV_REPLACE_ITEM_CONT_READING_FROM_SRCDEV_MODE_AVOID" BTRFS_DEV_REPLACE_ITEM_CONT_READING_FROM_SRCDEV_MODE_AVOID;
   cst "BTRFS_BLOCK_GROUP_DATA" BTRFS_BLOCK_GROUP_DATA;
   cst "BTRFS_BLOCK_GROUP_SYSTEM" BTRFS_BLOCK_GROUP_SYSTEM;
   cst "BTRFS_BLOCK_GROUP_METADATA" BTRFS_BLOCK_GROUP_METADATA;
   cst "BTRFS_BLOCK_GROUP_RAID0" BTRFS_BLOCK_GROUP_RAID0;
   cst "BTRFS_BLOCK_GROUP_RAID1" BTRFS_BLOCK_GROUP_RAID1;
   cst "BTRFS_BLOCK_GROUP_DUP" BTRFS_BLOCK_GROUP_DUP;
   cst "BTRFS_BLOCK_GROUP_RAID10" BTRFS_BLOCK_GROUP_RAID10;
   cst "BTRFS_BLOCK_GROUP_RAID5" BTRFS_BLOCK_GROUP_RAID5;
   cst "BTRFS_BLOCK_GROUP_RAID6" BTRFS_BLOCK_GROUP_RAID6;
   cst "BTRFS_BLOCK_GROUP_RAID1C3" BTRFS_BLOCK_GROUP_RAID1C3;
   cst "BTRFS_BLOCK_GROUP_RAID1C4" BTRFS_BLOCK_GROUP_RAID1C4;
   cst "BTRFS_BLOCK_GROUP_RESERVED" BTRFS_BLOCK_GROUP_RESERVED;
   cst "BTRFS_BLOCK_GROUP_TYPE_MASK" BTRFS_BLOCK_GROUP_TYPE_MASK;
   cst "BTRFS_BLOCK_GROUP_PROFILE_MASK" BTRFS_BLOCK_GROUP_PROFILE_MASK;
   cst "BTRFS_BLOCK_GROUP_RAID56_MASK" BTRFS_BLOCK_GROUP_RAID56_MASK;
   cst "BTRFS_BLOCK_GROUP_RAID1_MASK" BTRFS_BLOCK_GROUP_RAID1_MASK;
   cst "BTRFS_AVAIL_ALLOC_BIT_SINGLE" BTRFS_AVAIL_ALLOC_BIT_SINGLE;
   cst "BTRFS_SPACE_INFO_GLOBAL_RSV" BTRFS_SPACE_INFO_GLOBAL_RSV;
   cst "BTRFS_EXTENDED_PROFILE_MASK" BTRFS_EXTENDED_PROFILE_MASK;
   cst "BTRFS_FREE_SPACE_USING_BITMAPS" BTRFS_FREE_SPACE_USING_BITMAPS;
   cst "BTRFS_QGROUP_LEVEL_SHIFT" BTRFS_QGROUP_LEVEL_SHIFT;
   cst "BTRFS_QGROUP_STATUS_FLAG_ON" BTRFS_QGROUP_STATUS_FLAG_ON;
   cst "BTRFS_QGROUP_STATUS_FLAG_RESCAN" BTRFS_QGROUP_STATUS_FLAG_RESCAN;
   cst "BTRFS_QGROUP_STATUS_FLAG_INCONSISTENT" BTRFS_QGROUP_STATUS_FLAG_INCONSISTENT;
   cst "BTRFS_QGROUP_STATUS_VERSION" BTRFS_QGROUP_STATUS_VERSION].

Local Open Scope nat_scope.
Arguments s_ s%string_scope.
(** [Field { name: Some(..), ty }] and [Field { name: None, ty }] *)
Definition fld (n : string) (t : ty) : field := (Some (s_ n), t).
Arguments fld n%string_scope t.
Definition anon (t : ty) : field := (None, t).
(** [|_, _, _| false] *)
Definition km_none : Z -> Z -> Z -> bool := fun _ _ _ => false.
(** [Type::Struct(s.clone())] *)
Definition ty_of (s : strct) : ty := TStruct (st_name s) (st_km s) (st_fields s).

(** definitions.rs:338-355 *)
Definition btrfs_stripe : strct := mk_strct (s_ "btrfs_stripe") km_none
    [fld "devid" TU64;
     fld "offset" TU64;
     fld "dev_uuid" (TArray TU8 (Z.to_nat BTRFS_UUID_SIZE))].

(** definitions.rs:356-393 *)
Definition btrfs_ioctl_search_key : strct := mk_strct (s_ "_btrfs_ioctl_search_key") km_none
    [fld "min_objectid" TU64;
     fld "max_objectid" TU64;
     fld "min_type" TU8;
     fld "max_type" TU8;
     fld "min_offset" TU64;
     fld "max_offset" TU64;
     fld "min_transid" TU64;
     fld "max_transid" TU64].

(** definitions.rs:394-411 *)
Definition btrfs_key : strct := mk_strct (s_ "btrfs_key") km_none
    [fld "objectid" TU64;
     fld "type" TU8;
     fld "offset" TU64].

(** definitions.rs:412-425 *)
Definition btrfs_timespec : strct := mk_strct (s_ "btrfs_timespec") km_none
    [fld "sec" TU64;
     fld "nsec" TU32].

(** definitions.rs:426-499 *)
Definition btrfs_inode_item : strct := mk_strct (s_ "btrfs_inode_item") (fun _ ty off => (ty =? BTRFS_INODE_ITEM_KEY) && (off =? 0))%Z
    [fld "generation" TU64;
     fld "transid" TU64;
     fld "size" TU64;
     fld "nbytes" TU64;
     fld "block_group" TU64;
     fld "nlink" TU32;
     fld "uid" TU32;
     fld "gid" TU32;
     fld "mode" TU32;
     fld "rdev" TU64;
     fld "flags" TU64;
     fld "sequence" TU64;
     fld "reserved" (TArray TU64 4);
     fld "atime" (ty_of btrfs_timespec);
     fld "ctime" (ty_of btrfs_timespec);
     fld "mtime" (ty_of btrfs_timespec);
     fld "otime" (ty_of btrfs_timespec)].

(** definitions.rs:500-513 *)
Definition anon_struct_0_btrfs_disk_balance_args : strct := mk_strct (s_ "_anon_struct_0_btrfs_disk_balance_args") km_none
    [fld "usage_min" TU32;
     fld "usage_max" TU32].

(** definitions.rs:514-527 *)
Definition anon_struct_1_btrfs_disk_balance_args : strct := mk_strct (s_ "_anon_struct_1_btrfs_disk_balance_args") km_none
    [fld "limit_min" TU32;
     fld "limit_max" TU32].

(** definitions.rs:528-609 *)
Definition btrfs_disk_balance_args : strct := mk_strct (s_ "btrfs_disk_balance_args") km_none
    [fld "profiles" TU64;
     anon (TUnion (s_ "_anon_union_0_btrfs_disk_balance_args")
      [fld "usage" TU64;
       anon (ty_of anon_struct_0_btrfs_disk_balance_args)]);
     fld "devid" TU64;
     fld "pstart" TU64;
     fld "pend" TU64;
     fld "vstart" TU64;
     fld "vend" TU64;
     fld "target" TU64;
     fld "flags" TU64;
     anon (TUnion (s_ "_anon_union_1_btrfs_disk_balance_args")
      [fld "limit" TU64;
       anon (ty_of anon_struct_1_btrfs_disk_balance_args)]);
     fld "stripes_min" TU32;
     fld "stripes_max" TU32;
     fld "unused" (TArray TU64 6)].

(** definitions.rs:611-618 *)
Definition btrfs_extent_inline_ref : strct := mk_strct (s_ "btrfs_extent_inline_ref") km_none
    [fld "type" TU8].

(** definitions.rs:619-640 *)
Definition btrfs_extent_data_ref : strct := mk_strct (s_ "btrfs_extent_data_ref") km_none
    [fld "root" TU64;
     fld "objectid" TU64;
     fld "offset" TU64;
     fld "count" TU32].

(** definitions.rs:641-650 *)
Definition btrfs_shared_data_ref : strct := mk_strct (s_ "btrfs_shared_data_ref") km_none
    [fld "count" TU32].

(** ** Dynamic layouts *)

(** definitions.rs:869-898: the descriptor pushed for one inline reference of
    type [t], and the number of bytes it adds after the one-byte header. *)
Definition inline_ref_layout (t : Z) : option (list field * Z) :=
  if (t =? BTRFS_EXTENT_DATA_REF_KEY)%Z then
    Some ([fld "data_ref" (ty_of btrfs_extent_data_ref)], st_size btrfs_extent_data_ref)
  else if (t =? BTRFS_SHARED_DATA_REF_KEY)%Z then
    Some ([fld "offset" TU64; fld "shared_data_ref" (ty_of btrfs_shared_data_ref)],
          (8 + st_size btrfs_shared_data_ref)%Z)
  else if (t =? BTRFS_SHARED_BLOCK_REF_KEY)%Z || (t =? BTRFS_TREE_BLOCK_REF_KEY)%Z then
    Some ([fld "offset" TU64], 8%Z)
  else None.

(** definitions.rs:856-904: the [while offset < bytes.len()] loop.  Every pass
    advances [offset] by at least one, so [length bytes + 1] passes always
    suffice; [k] counts them.  The additions to [offset] cannot overflow: it
    exceeds the slice length by less than 64. *)
Fixpoint inline_refs (k : nat) (bytes : str) (offset : Z) (acc : list field) : res (list field) :=
  match k with
  | O => Fuel
  | S k' =>
    if (offset <? zlen bytes)%Z then
      let* _ := ensure (offset + st_size btrfs_extent_inline_ref <=? zlen bytes)%Z
                (ENotEnoughBytes (st_name btrfs_extent_inline_ref) [] (zlen bytes)
                                 (offset + st_size btrfs_extent_inline_ref)) in
      let* b := index bytes offset in
      match inline_ref_layout (Z.of_N b) with
      | None => Err (EUnknownInlineRef (Z.of_N b))
      | Some (fs, sz) =>
        inline_refs k' bytes (offset + st_size btrfs_extent_inline_ref + sz)%Z
          (acc ++ [fld "inline_ref"
                       (TStruct (st_name btrfs_extent_inline_ref) (st_km btrfs_extent_inline_ref)
                                (st_fields btrfs_extent_inline_ref ++ fs))])
      end
    else
      let* _ := ensure (offset =? zlen bytes)%Z ELeftover in
      Ok acc
  end.

(** definitions.rs:822-908 *)
Definition extent_item_fields (bytes : str) : res (list field) :=
  let* _ := ensure (24 <=? zlen bytes)%Z (ENotEnoughBytes (s_ "btrfs_extent_item") [] (zlen bytes) 24) in
  inline_refs (S (List.length bytes)) bytes 24
    [fld "refs" TU64; fld "generation" TU64; fld "flags" TU64].

(** definitions.rs:1181-1239 *)
Definition file_extent_item_fields (bytes : str) : res (list field) :=
  let hd := [fld "generation" TU64; fld "ram_bytes" TU64; fld "compression" TU8;
             fld "encryption" TU8; fld "other_encoding" TU16; fld "type" TU8] in
  let* _ := ensure (21 <=? zlen bytes)%Z (ENotEnoughBytes (s_ "btrfs_file_extent_item") [] (zlen bytes) 21) in
  let* b := index bytes 20 in
  let t := Z.of_N b in
  if (t =? BTRFS_FILE_EXTENT_REG)%Z || (t =? BTRFS_FILE_EXTENT_PREALLOC)%Z then
    Ok (hd ++ [fld "disk_bytenr" TU64; fld "disk_num_bytes" TU64; fld "offset" TU64;
               fld "num_bytes" TU64])
  else Ok hd.

(** definitions.rs:654-695 *)
Definition btrfs_header : strct := mk_strct (s_ "btrfs_header") km_none
    [fld "csum" (TArray TU8 (Z.to_nat BTRFS_CSUM_SIZE));
     fld "fsid" (TArray TU8 (Z.to_nat BTRFS_FSID_SIZE));
     fld "bytenr" TU64;
     fld "flags" TU64;
     fld "chunk_tree_uuid" (TArray TU8 (Z.to_nat BTRFS_UUID_SIZE));
     fld "generation" TU64;
     fld "owner" TU64;
     fld "nritems" TU32;
     fld "level" TU8].

(** definitions.rs:696-757 *)
Definition btrfs_dev_item : strct := mk_strct (s_ "btrfs_dev_item") (fun o ty _ => (o =? BTRFS_DEV_ITEMS_OBJECTID) && (ty =? BTRFS_DEV_ITEM_KEY))%Z
    [fld "devid" TU64;
     fld "total_bytes" TU64;
     fld "bytes_used" TU64;
     fld "io_align" TU32;
     fld "io_width" TU32;
     fld "sector_size" TU32;
     fld "type" TU64;
     fld "generation" TU64;
     fld "start_offset" TU64;
     fld "dev_group" TU32;
     fld "seek_speed" TU8;
     fld "bandwidth" TU8;
     fld "uuid" (TArray TU8 (Z.to_nat BTRFS_UUID_SIZE));
     fld "fsid" (TArray TU8 (Z.to_nat BTRFS_FSID_SIZE))].

(** definitions.rs:759-808 *)
Definition btrfs_chunk : strct := mk_strct (s_ "btrfs_chunk") (fun o ty _ => (o =? BTRFS_FIRST_CHUNK_TREE_OBJECTID) && (ty =? BTRFS_CHUNK_ITEM_KEY))%Z
    [fld "length" TU64;
     fld "owner" TU64;
     fld "stripe_len" TU64;
     fld "type" TU64;
     fld "io_align" TU32;
     fld "io_width" TU32;
     fld "sector_size" TU32;
     fld "num_stripes" TU16;
     fld "sub_stripes" TU16;
     fld "stripes" (TTrailTypes (ty_of btrfs_stripe) (s_ "num_stripes"))].

(** definitions.rs:812-816 *)
Definition btrfs_orphan_item : strct := mk_strct (s_ "btrfs_orphan_item") (fun o ty _ => (o =? BTRFS_ORPHAN_OBJECTID) && (ty =? BTRFS_ORPHAN_ITEM_KEY))%Z
    [].

(** definitions.rs:817-910 *)
Definition btrfs_extent_item : strct := mk_strct (s_ "btrfs_extent_item") (fun _ ty _ => (ty =? BTRFS_EXTENT_ITEM_KEY) || (ty =? BTRFS_METADATA_ITEM_KEY))%Z
    [anon (TDyn extent_item_fields)].

(** definitions.rs:911-936 *)
Definition btrfs_dev_extent : strct := mk_strct (s_ "btrfs_dev_extent") (fun _ ty _ => (ty =? BTRFS_DEV_EXTENT_KEY))%Z
    [fld "chunk_tree" TU64;
     fld "chunk_objectid" TU64;
     fld "chunk_offset" TU64;
     fld "length" TU64;
     fld "chunk_tree_uuid" (TArray TU8 (Z.to_nat BTRFS_UUID_SIZE))].

(** definitions.rs:937-954 *)
Definition btrfs_inode_ref : strct := mk_strct (s_ "btrfs_inode_ref") (fun _ ty _ => (ty =? BTRFS_INODE_REF_KEY))%Z
    [fld "index" TU64;
     fld "name_len" TU16;
     fld "name" (TTrailStr (s_ "name_len"))].

(** definitions.rs:955-976 *)
Definition btrfs_inode_extref : strct := mk_strct (s_ "btrfs_inode_extref") (fun _ ty _ => (ty =? BTRFS_INODE_EXTREF_KEY))%Z
    [fld "parent_objectid" TU64;
     fld "index" TU64;
     fld "name_len" TU16;
     fld "name" (TTrailStr (s_ "name_len"))].

(** definitions.rs:979-986 *)
Definition btrfs_dir_log_item : strct := mk_strct (s_ "btrfs_dir_log_item") (fun _ ty _ => (ty =? BTRFS_INODE_EXTREF_KEY) || (ty =? BTRFS_DIR_LOG_INDEX_KEY))%Z
    [fld "end" TU64].

(** definitions.rs:987-1020 *)
Definition btrfs_dir_item : strct := mk_strct (s_ "btrfs_dir_item") (fun _ ty _ => (ty =? BTRFS_DIR_ITEM_KEY) || (ty =? BTRFS_DIR_INDEX_KEY) || (ty =? BTRFS_XATTR_ITEM_KEY))%Z
    [fld "location" (ty_of btrfs_key);
     fld "transid" TU64;
     fld "data_len" TU16;
     fld "name_len" TU16;
     fld "type" TU8;
     fld "name" (TTrailStr (s_ "name_len"));
     fld "value" (TTrailStr (s_ "data_len"))].

(** definitions.rs:1021-1126 *)
Definition btrfs_root_item : strct := mk_strct (s_ "btrfs_root_item") (fun _ ty _ => (ty =? BTRFS_ROOT_ITEM_KEY))%Z
    [fld "inode" (ty_of btrfs_inode_item);
     fld "generation" TU64;
     fld "root_dirid" TU64;
     fld "bytenr" TU64;
     fld "byte_limit" TU64;
     fld "bytes_used" TU64;
     fld "last_snapshot" TU64;
     fld "flags" TU64;
     fld "refs" TU32;
     fld "drop_progress" (ty_of btrfs_key);
     fld "drop_level" TU8;
     fld "level" TU8;
     fld "generation_v2" TU64;
     fld "uuid" (TArray TU8 (Z.to_nat BTRFS_UUID_SIZE));
     fld "parent_uuid" (TArray TU8 (Z.to_nat BTRFS_UUID_SIZE));
     fld "received_uuid" (TArray TU8 (Z.to_nat BTRFS_UUID_SIZE));
     fld "ctransid" TU64;
     fld "otransid" TU64;
     fld "stransid" TU64;
     fld "rtransid" TU64;
     fld "ctime" (ty_of btrfs_timespec);
     fld "otime" (ty_of btrfs_timespec);
     fld "stime" (ty_of btrfs_timespec);
     fld "rtime" (ty_of btrfs_timespec);
     fld "reserved" (TArray TU64 8)].

(** definitions.rs:1127-1148 *)
Definition btrfs_roof_ref : strct := mk_strct (s_ "btrfs_roof_ref") (fun _ ty _ => (ty =? BTRFS_ROOT_REF_KEY) || (ty =? BTRFS_ROOT_BACKREF_KEY))%Z
    [fld "dirid" TU64;
     fld "sequence" TU64;
     fld "name_len" TU16;
     fld "name" (TTrailStr (s_ "name_len"))].

(** definitions.rs:1152-1175 *)
Definition btrfs_balance_item : strct := mk_strct (s_ "btrfs_balance_item") (fun oid ty off => (oid =? BTRFS_BALANCE_OBJECTID) && (ty =? BTRFS_TEMPORARY_ITEM_KEY) && (off =? 0))%Z
    [fld "flags" TU64;
     fld "data" (ty_of btrfs_disk_balance_args);
     fld "meta" (ty_of btrfs_disk_balance_args);
     fld "sys" (ty_of btrfs_disk_balance_args)].

(** definitions.rs:1176-1241 *)
Definition btrfs_file_extent_item : strct := mk_strct (s_ "btrfs_file_extent_item") (fun _ ty _ => (ty =? BTRFS_EXTENT_DATA_KEY))%Z
    [anon (TDyn file_extent_item_fields)].

(** definitions.rs:1242-1250 *)
Definition btrfs_csum_item : strct := mk_strct (s_ "btrfs_csum_item") (fun oid ty _ => (oid =? BTRFS_EXTENT_CSUM_OBJECTID) && (ty =? BTRFS_EXTENT_CSUM_KEY))%Z
    [fld "csum" TU8].

(** definitions.rs:1251-1259 *)
Definition btrfs_dev_stats_item : strct := mk_strct (s_ "btrfs_dev_stats_item") (fun oid ty _ => (oid =? BTRFS_DEV_STATS_OBJECTID) && (ty =? BTRFS_PERSISTENT_ITEM_KEY))%Z
    [fld "values" (TArray TU64 (Z.to_nat BTRFS_DEV_STAT_VALUES_MAX))].

(** definitions.rs:1260-1301 *)
Definition btrfs_dev_replace_item : strct := mk_strct (s_ "btrfs_dev_replace_item") (fun _ ty _ => (ty =? BTRFS_DEV_REPLACE_KEY))%Z
    [fld "src_devid" TU64;
     fld "cursor_left" TU64;
     fld "cursor_right" TU64;
     fld "cont_reading_from_srcdev_mode" TU64;
     fld "replace_state" TU64;
     fld "time_started" TU64;
     fld "time_stopped" TU64;
     fld "num_write_errors" TU64;
     fld "num_uncorrectable_read_errors" TU64].

(** definitions.rs:1302-1319 *)
Definition btrfs_block_group_item : strct := mk_strct (s_ "btrfs_block_group_item") (fun _ ty _ => (ty =? BTRFS_BLOCK_GROUP_ITEM_KEY))%Z
    [fld "used" TU64;
     fld "chunk_objectid" TU64;
     fld "flags" TU64].

(** definitions.rs:1320-1333 *)
Definition btrfs_free_space_info : strct := mk_strct (s_ "btrfs_free_space_info") (fun _ ty _ => (ty =? BTRFS_FREE_SPACE_INFO_KEY))%Z
    [fld "extent_count" TU32;
     fld "flags" TU32].

(** definitions.rs:1334-1355 *)
Definition btrfs_free_space_header : strct := mk_strct (s_ "btrfs_free_space_header") (fun oid ty _ => (oid =? BTRFS_FREE_SPACE_OBJECTID) && (ty =? 0))%Z
    [fld "location" (ty_of btrfs_key);
     fld "generation" TU64;
     fld "num_entries" TU64;
     fld "num_bitmaps" TU64].

(** definitions.rs:1356-1377 *)
Definition btrfs_qgroup_status_item : strct := mk_strct (s_ "btrfs_qgroup_status_item") (fun oid ty off => (oid =? 0) && (ty =? BTRFS_QGROUP_STATUS_KEY) && (off =? 0))%Z
    [fld "version" TU64;
     fld "generation" TU64;
     fld "flags" TU64;
     fld "rescan" TU64].

(** definitions.rs:1378-1403 *)
Definition btrfs_qgroup_info_item : strct := mk_strct (s_ "btrfs_qgroup_info_item") (fun oid ty _ => (oid =? 0) && (ty =? BTRFS_QGROUP_INFO_KEY))%Z
    [fld "generation" TU64;
     fld "rfer" TU64;
     fld "rfer_cmpr" TU64;
     fld "excl" TU64;
     fld "excl_cmpr" TU64].

(** definitions.rs:1404-1429 *)
Definition btrfs_qgroup_limit_item : strct := mk_strct (s_ "btrfs_qgroup_limit_item") (fun oid ty _ => (oid =? 0) && (ty =? BTRFS_QGROUP_LIMIT_KEY))%Z
    [fld "flags" TU64;
     fld "max_rfer" TU64;
     fld "max_excl" TU64;
     fld "rsv_rfer" TU64;
     fld "rsv_excl" TU64].

(** definitions.rs:651-1430 *)
Definition STRUCTS : list strct :=
  [btrfs_ioctl_search_key;
   btrfs_key;
   btrfs_header;
   btrfs_dev_item;
   btrfs_stripe;
   btrfs_chunk;
   btrfs_extent_inline_ref;
   btrfs_extent_data_ref;
   btrfs_shared_data_ref;
   btrfs_orphan_item;
   btrfs_extent_item;
   btrfs_dev_extent;
   btrfs_inode_ref;
   btrfs_inode_extref;
   btrfs_timespec;
   btrfs_inode_item;
   btrfs_dir_log_item;
   btrfs_dir_item;
   btrfs_root_item;
   btrfs_roof_ref;
   anon_struct_0_btrfs_disk_balance_args;
   anon_struct_1_btrfs_disk_balance_args;
   btrfs_disk_balance_args;
   btrfs_balance_item;
   btrfs_file_extent_item;
   btrfs_csum_item;
   btrfs_dev_stats_item;
   btrfs_dev_replace_item;
   btrfs_block_group_item;
   btrfs_free_space_info;
   btrfs_free_space_header;
   btrfs_qgroup_status_item;
   btrfs_qgroup_info_item;
   btrfs_qgroup_limit_item].
