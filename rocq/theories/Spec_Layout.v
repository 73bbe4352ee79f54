(** C63: where the kernel keeps each scalar member.  The table was produced with the C
    compiler's offsetof and sizeof applied to the kernel's own header <linux/btrfs_tree.h>
    (struct btrfs_header, which is not exported there, from fs/btrfs/ctree.h), not from
    btrd's definitions.  An entry is: btrd's name of the struct (btrfs_key is the kernel's
    btrfs_disk_key, btrfs_roof_ref its btrfs_root_ref), the path of the member, its offset
    in bytes, its width in bytes (of one element for an array) and the number of elements
    if it is an array.  The names and stripes after the fixed part of an item are in
    kernel_strings and has_stripes below.  Left out: the tail of btrfs_balance_item that
    btrd does not declare, and what depends on an item's type (C26, C61). *)
From Verif Require Import Base Value Spec_Decode.
Arguments s_ s%string_scope.

Definition kernel_layout : list (str * list str * nat * nat * option nat) :=
  [(s_ "btrfs_balance_item", [s_ "flags"], 0, 8, None);
   (s_ "btrfs_balance_item", [s_ "data"; s_ "profiles"], 8, 8, None);
   (s_ "btrfs_balance_item", [s_ "data"; s_ "usage"], 16, 8, None);
   (s_ "btrfs_balance_item", [s_ "data"; s_ "usage_min"], 16, 4, None);
   (s_ "btrfs_balance_item", [s_ "data"; s_ "usage_max"], 20, 4, None);
   (s_ "btrfs_balance_item", [s_ "data"; s_ "devid"], 24, 8, None);
   (s_ "btrfs_balance_item", [s_ "data"; s_ "pstart"], 32, 8, None);
   (s_ "btrfs_balance_item", [s_ "data"; s_ "pend"], 40, 8, None);
   (s_ "btrfs_balance_item", [s_ "data"; s_ "vstart"], 48, 8, None);
   (s_ "btrfs_balance_item", [s_ "data"; s_ "vend"], 56, 8, None);
   (s_ "btrfs_balance_item", [s_ "data"; s_ "target"], 64, 8, None);
   (s_ "btrfs_balance_item", [s_ "data"; s_ "flags"], 72, 8, None);
   (s_ "btrfs_balance_item", [s_ "data"; s_ "limit"], 80, 8, None);
   (s_ "btrfs_balance_item", [s_ "data"; s_ "limit_min"], 80, 4, None);
   (s_ "btrfs_balance_item", [s_ "data"; s_ "limit_max"], 84, 4, None);
   (s_ "btrfs_balance_item", [s_ "data"; s_ "stripes_min"], 88, 4, None);
   (s_ "btrfs_balance_item", [s_ "data"; s_ "stripes_max"], 92, 4, None);
   (s_ "btrfs_balance_item", [s_ "data"; s_ "unused"], 96, 8, Some 6);
   (s_ "btrfs_balance_item", [s_ "meta"; s_ "profiles"], 144, 8, None);
   (s_ "btrfs_balance_item", [s_ "meta"; s_ "usage"], 152, 8, None);
   (s_ "btrfs_balance_item", [s_ "meta"; s_ "usage_min"], 152, 4, None);
   (s_ "btrfs_balance_item", [s_ "meta"; s_ "usage_max"], 156, 4, None);
   (s_ "btrfs_balance_item", [s_ "meta"; s_ "devid"], 160, 8, None);
   (s_ "btrfs_balance_item", [s_ "meta"; s_ "pstart"], 168, 8, None);
   (s_ "btrfs_balance_item", [s_ "meta"; s_ "pend"], 176, 8, None);
   (s_ "btrfs_balance_item", [s_ "meta"; s_ "vstart"], 184, 8, None);
   (s_ "btrfs_balance_item", [s_ "meta"; s_ "vend"], 192, 8, None);
   (s_ "btrfs_balance_item", [s_ "meta"; s_ "target"], 200, 8, None);
   (s_ "btrfs_balance_item", [s_ "meta"; s_ "flags"], 208, 8, None);
   (s_ "btrfs_balance_item", [s_ "meta"; s_ "limit"], 216, 8, None);
   (s_ "btrfs_balance_item", [s_ "meta"; s_ "limit_min"], 216, 4, None);
   (s_ "btrfs_balance_item", [s_ "meta"; s_ "limit_max"], 220, 4, None);
   (s_ "btrfs_balance_item", [s_ "meta"; s_ "stripes_min"], 224, 4, None);
   (s_ "btrfs_balance_item", [s_ "meta"; s_ "stripes_max"], 228, 4, None);
   (s_ "btrfs_balance_item", [s_ "meta"; s_ "unused"], 232, 8, Some 6);
   (s_ "btrfs_balance_item", [s_ "sys"; s_ "profiles"], 280, 8, None);
   (s_ "btrfs_balance_item", [s_ "sys"; s_ "usage"], 288, 8, None);
   (s_ "btrfs_balance_item", [s_ "sys"; s_ "usage_min"], 288, 4, None);
   (s_ "btrfs_balance_item", [s_ "sys"; s_ "usage_max"], 292, 4, None);
   (s_ "btrfs_balance_item", [s_ "sys"; s_ "devid"], 296, 8, None);
   (s_ "btrfs_balance_item", [s_ "sys"; s_ "pstart"], 304, 8, None);
   (s_ "btrfs_balance_item", [s_ "sys"; s_ "pend"], 312, 8, None);
   (s_ "btrfs_balance_item", [s_ "sys"; s_ "vstart"], 320, 8, None);
   (s_ "btrfs_balance_item", [s_ "sys"; s_ "vend"], 328, 8, None);
   (s_ "btrfs_balance_item", [s_ "sys"; s_ "target"], 336, 8, None);
   (s_ "btrfs_balance_item", [s_ "sys"; s_ "flags"], 344, 8, None);
   (s_ "btrfs_balance_item", [s_ "sys"; s_ "limit"], 352, 8, None);
   (s_ "btrfs_balance_item", [s_ "sys"; s_ "limit_min"], 352, 4, None);
   (s_ "btrfs_balance_item", [s_ "sys"; s_ "limit_max"], 356, 4, None);
   (s_ "btrfs_balance_item", [s_ "sys"; s_ "stripes_min"], 360, 4, None);
   (s_ "btrfs_balance_item", [s_ "sys"; s_ "stripes_max"], 364, 4, None);
   (s_ "btrfs_balance_item", [s_ "sys"; s_ "unused"], 368, 8, Some 6);
   (s_ "btrfs_block_group_item", [s_ "used"], 0, 8, None);
   (s_ "btrfs_block_group_item", [s_ "chunk_objectid"], 8, 8, None);
   (s_ "btrfs_block_group_item", [s_ "flags"], 16, 8, None);
   (s_ "btrfs_chunk", [s_ "length"], 0, 8, None);
   (s_ "btrfs_chunk", [s_ "owner"], 8, 8, None);
   (s_ "btrfs_chunk", [s_ "stripe_len"], 16, 8, None);
   (s_ "btrfs_chunk", [s_ "type"], 24, 8, None);
   (s_ "btrfs_chunk", [s_ "io_align"], 32, 4, None);
   (s_ "btrfs_chunk", [s_ "io_width"], 36, 4, None);
   (s_ "btrfs_chunk", [s_ "sector_size"], 40, 4, None);
   (s_ "btrfs_chunk", [s_ "num_stripes"], 44, 2, None);
   (s_ "btrfs_chunk", [s_ "sub_stripes"], 46, 2, None);
   (s_ "btrfs_csum_item", [s_ "csum"], 0, 1, None);
   (s_ "btrfs_dev_extent", [s_ "chunk_tree"], 0, 8, None);
   (s_ "btrfs_dev_extent", [s_ "chunk_objectid"], 8, 8, None);
   (s_ "btrfs_dev_extent", [s_ "chunk_offset"], 16, 8, None);
   (s_ "btrfs_dev_extent", [s_ "length"], 24, 8, None);
   (s_ "btrfs_dev_extent", [s_ "chunk_tree_uuid"], 32, 1, Some 16);
   (s_ "btrfs_dev_item", [s_ "devid"], 0, 8, None);
   (s_ "btrfs_dev_item", [s_ "total_bytes"], 8, 8, None);
   (s_ "btrfs_dev_item", [s_ "bytes_used"], 16, 8, None);
   (s_ "btrfs_dev_item", [s_ "io_align"], 24, 4, None);
   (s_ "btrfs_dev_item", [s_ "io_width"], 28, 4, None);
   (s_ "btrfs_dev_item", [s_ "sector_size"], 32, 4, None);
   (s_ "btrfs_dev_item", [s_ "type"], 36, 8, None);
   (s_ "btrfs_dev_item", [s_ "generation"], 44, 8, None);
   (s_ "btrfs_dev_item", [s_ "start_offset"], 52, 8, None);
   (s_ "btrfs_dev_item", [s_ "dev_group"], 60, 4, None);
   (s_ "btrfs_dev_item", [s_ "seek_speed"], 64, 1, None);
   (s_ "btrfs_dev_item", [s_ "bandwidth"], 65, 1, None);
   (s_ "btrfs_dev_item", [s_ "uuid"], 66, 1, Some 16);
   (s_ "btrfs_dev_item", [s_ "fsid"], 82, 1, Some 16);
   (s_ "btrfs_dev_replace_item", [s_ "src_devid"], 0, 8, None);
   (s_ "btrfs_dev_replace_item", [s_ "cursor_left"], 8, 8, None);
   (s_ "btrfs_dev_replace_item", [s_ "cursor_right"], 16, 8, None);
   (s_ "btrfs_dev_replace_item", [s_ "cont_reading_from_srcdev_mode"], 24, 8, None);
   (s_ "btrfs_dev_replace_item", [s_ "replace_state"], 32, 8, None);
   (s_ "btrfs_dev_replace_item", [s_ "time_started"], 40, 8, None);
   (s_ "btrfs_dev_replace_item", [s_ "time_stopped"], 48, 8, None);
   (s_ "btrfs_dev_replace_item", [s_ "num_write_errors"], 56, 8, None);
   (s_ "btrfs_dev_replace_item", [s_ "num_uncorrectable_read_errors"], 64, 8, None);
   (s_ "btrfs_dev_stats_item", [s_ "values"], 0, 8, Some 5);
   (s_ "btrfs_dir_item", [s_ "location"; s_ "objectid"], 0, 8, None);
   (s_ "btrfs_dir_item", [s_ "location"; s_ "type"], 8, 1, None);
   (s_ "btrfs_dir_item", [s_ "location"; s_ "offset"], 9, 8, None);
   (s_ "btrfs_dir_item", [s_ "transid"], 17, 8, None);
   (s_ "btrfs_dir_item", [s_ "data_len"], 25, 2, None);
   (s_ "btrfs_dir_item", [s_ "name_len"], 27, 2, None);
   (s_ "btrfs_dir_item", [s_ "type"], 29, 1, None);
   (s_ "btrfs_dir_log_item", [s_ "end"], 0, 8, None);
   (s_ "btrfs_disk_balance_args", [s_ "profiles"], 0, 8, None);
   (s_ "btrfs_disk_balance_args", [s_ "usage"], 8, 8, None);
   (s_ "btrfs_disk_balance_args", [s_ "usage_min"], 8, 4, None);
   (s_ "btrfs_disk_balance_args", [s_ "usage_max"], 12, 4, None);
   (s_ "btrfs_disk_balance_args", [s_ "devid"], 16, 8, None);
   (s_ "btrfs_disk_balance_args", [s_ "pstart"], 24, 8, None);
   (s_ "btrfs_disk_balance_args", [s_ "pend"], 32, 8, None);
   (s_ "btrfs_disk_balance_args", [s_ "vstart"], 40, 8, None);
   (s_ "btrfs_disk_balance_args", [s_ "vend"], 48, 8, None);
   (s_ "btrfs_disk_balance_args", [s_ "target"], 56, 8, None);
   (s_ "btrfs_disk_balance_args", [s_ "flags"], 64, 8, None);
   (s_ "btrfs_disk_balance_args", [s_ "limit"], 72, 8, None);
   (s_ "btrfs_disk_balance_args", [s_ "limit_min"], 72, 4, None);
   (s_ "btrfs_disk_balance_args", [s_ "limit_max"], 76, 4, None);
   (s_ "btrfs_disk_balance_args", [s_ "stripes_min"], 80, 4, None);
   (s_ "btrfs_disk_balance_args", [s_ "stripes_max"], 84, 4, None);
   (s_ "btrfs_disk_balance_args", [s_ "unused"], 88, 8, Some 6);
   (s_ "btrfs_extent_data_ref", [s_ "root"], 0, 8, None);
   (s_ "btrfs_extent_data_ref", [s_ "objectid"], 8, 8, None);
   (s_ "btrfs_extent_data_ref", [s_ "offset"], 16, 8, None);
   (s_ "btrfs_extent_data_ref", [s_ "count"], 24, 4, None);
   (s_ "btrfs_extent_inline_ref", [s_ "type"], 0, 1, None);
   (s_ "btrfs_extent_item", [s_ "refs"], 0, 8, None);
   (s_ "btrfs_extent_item", [s_ "generation"], 8, 8, None);
   (s_ "btrfs_extent_item", [s_ "flags"], 16, 8, None);
   (s_ "btrfs_file_extent_item", [s_ "generation"], 0, 8, None);
   (s_ "btrfs_file_extent_item", [s_ "ram_bytes"], 8, 8, None);
   (s_ "btrfs_file_extent_item", [s_ "compression"], 16, 1, None);
   (s_ "btrfs_file_extent_item", [s_ "encryption"], 17, 1, None);
   (s_ "btrfs_file_extent_item", [s_ "other_encoding"], 18, 2, None);
   (s_ "btrfs_file_extent_item", [s_ "type"], 20, 1, None);
   (s_ "btrfs_free_space_header", [s_ "location"; s_ "objectid"], 0, 8, None);
   (s_ "btrfs_free_space_header", [s_ "location"; s_ "type"], 8, 1, None);
   (s_ "btrfs_free_space_header", [s_ "location"; s_ "offset"], 9, 8, None);
   (s_ "btrfs_free_space_header", [s_ "generation"], 17, 8, None);
   (s_ "btrfs_free_space_header", [s_ "num_entries"], 25, 8, None);
   (s_ "btrfs_free_space_header", [s_ "num_bitmaps"], 33, 8, None);
   (s_ "btrfs_free_space_info", [s_ "extent_count"], 0, 4, None);
   (s_ "btrfs_free_space_info", [s_ "flags"], 4, 4, None);
   (s_ "btrfs_inode_extref", [s_ "parent_objectid"], 0, 8, None);
   (s_ "btrfs_inode_extref", [s_ "index"], 8, 8, None);
   (s_ "btrfs_inode_extref", [s_ "name_len"], 16, 2, None);
   (s_ "btrfs_inode_item", [s_ "generation"], 0, 8, None);
   (s_ "btrfs_inode_item", [s_ "transid"], 8, 8, None);
   (s_ "btrfs_inode_item", [s_ "size"], 16, 8, None);
   (s_ "btrfs_inode_item", [s_ "nbytes"], 24, 8, None);
   (s_ "btrfs_inode_item", [s_ "block_group"], 32, 8, None);
   (s_ "btrfs_inode_item", [s_ "nlink"], 40, 4, None);
   (s_ "btrfs_inode_item", [s_ "uid"], 44, 4, None);
   (s_ "btrfs_inode_item", [s_ "gid"], 48, 4, None);
   (s_ "btrfs_inode_item", [s_ "mode"], 52, 4, None);
   (s_ "btrfs_inode_item", [s_ "rdev"], 56, 8, None);
   (s_ "btrfs_inode_item", [s_ "flags"], 64, 8, None);
   (s_ "btrfs_inode_item", [s_ "sequence"], 72, 8, None);
   (s_ "btrfs_inode_item", [s_ "reserved"], 80, 8, Some 4);
   (s_ "btrfs_inode_item", [s_ "atime"; s_ "sec"], 112, 8, None);
   (s_ "btrfs_inode_item", [s_ "atime"; s_ "nsec"], 120, 4, None);
   (s_ "btrfs_inode_item", [s_ "ctime"; s_ "sec"], 124, 8, None);
   (s_ "btrfs_inode_item", [s_ "ctime"; s_ "nsec"], 132, 4, None);
   (s_ "btrfs_inode_item", [s_ "mtime"; s_ "sec"], 136, 8, None);
   (s_ "btrfs_inode_item", [s_ "mtime"; s_ "nsec"], 144, 4, None);
   (s_ "btrfs_inode_item", [s_ "otime"; s_ "sec"], 148, 8, None);
   (s_ "btrfs_inode_item", [s_ "otime"; s_ "nsec"], 156, 4, None);
   (s_ "btrfs_inode_ref", [s_ "index"], 0, 8, None);
   (s_ "btrfs_inode_ref", [s_ "name_len"], 8, 2, None);
   (s_ "btrfs_key", [s_ "objectid"], 0, 8, None);
   (s_ "btrfs_key", [s_ "type"], 8, 1, None);
   (s_ "btrfs_key", [s_ "offset"], 9, 8, None);
   (s_ "btrfs_qgroup_info_item", [s_ "generation"], 0, 8, None);
   (s_ "btrfs_qgroup_info_item", [s_ "rfer"], 8, 8, None);
   (s_ "btrfs_qgroup_info_item", [s_ "rfer_cmpr"], 16, 8, None);
   (s_ "btrfs_qgroup_info_item", [s_ "excl"], 24, 8, None);
   (s_ "btrfs_qgroup_info_item", [s_ "excl_cmpr"], 32, 8, None);
   (s_ "btrfs_qgroup_limit_item", [s_ "flags"], 0, 8, None);
   (s_ "btrfs_qgroup_limit_item", [s_ "max_rfer"], 8, 8, None);
   (s_ "btrfs_qgroup_limit_item", [s_ "max_excl"], 16, 8, None);
   (s_ "btrfs_qgroup_limit_item", [s_ "rsv_rfer"], 24, 8, None);
   (s_ "btrfs_qgroup_limit_item", [s_ "rsv_excl"], 32, 8, None);
   (s_ "btrfs_qgroup_status_item", [s_ "version"], 0, 8, None);
   (s_ "btrfs_qgroup_status_item", [s_ "generation"], 8, 8, None);
   (s_ "btrfs_qgroup_status_item", [s_ "flags"], 16, 8, None);
   (s_ "btrfs_qgroup_status_item", [s_ "rescan"], 24, 8, None);
   (s_ "btrfs_roof_ref", [s_ "dirid"], 0, 8, None);
   (s_ "btrfs_roof_ref", [s_ "sequence"], 8, 8, None);
   (s_ "btrfs_roof_ref", [s_ "name_len"], 16, 2, None);
   (s_ "btrfs_root_item", [s_ "inode"; s_ "generation"], 0, 8, None);
   (s_ "btrfs_root_item", [s_ "inode"; s_ "transid"], 8, 8, None);
   (s_ "btrfs_root_item", [s_ "inode"; s_ "size"], 16, 8, None);
   (s_ "btrfs_root_item", [s_ "inode"; s_ "nbytes"], 24, 8, None);
   (s_ "btrfs_root_item", [s_ "inode"; s_ "block_group"], 32, 8, None);
   (s_ "btrfs_root_item", [s_ "inode"; s_ "nlink"], 40, 4, None);
   (s_ "btrfs_root_item", [s_ "inode"; s_ "uid"], 44, 4, None);
   (s_ "btrfs_root_item", [s_ "inode"; s_ "gid"], 48, 4, None);
   (s_ "btrfs_root_item", [s_ "inode"; s_ "mode"], 52, 4, None);
   (s_ "btrfs_root_item", [s_ "inode"; s_ "rdev"], 56, 8, None);
   (s_ "btrfs_root_item", [s_ "inode"; s_ "flags"], 64, 8, None);
   (s_ "btrfs_root_item", [s_ "inode"; s_ "sequence"], 72, 8, None);
   (s_ "btrfs_root_item", [s_ "inode"; s_ "reserved"], 80, 8, Some 4);
   (s_ "btrfs_root_item", [s_ "inode"; s_ "atime"; s_ "sec"], 112, 8, None);
   (s_ "btrfs_root_item", [s_ "inode"; s_ "atime"; s_ "nsec"], 120, 4, None);
   (s_ "btrfs_root_item", [s_ "inode"; s_ "ctime"; s_ "sec"], 124, 8, None);
   (s_ "btrfs_root_item", [s_ "inode"; s_ "ctime"; s_ "nsec"], 132, 4, None);
   (s_ "btrfs_root_item", [s_ "inode"; s_ "mtime"; s_ "sec"], 136, 8, None);
   (s_ "btrfs_root_item", [s_ "inode"; s_ "mtime"; s_ "nsec"], 144, 4, None);
   (s_ "btrfs_root_item", [s_ "inode"; s_ "otime"; s_ "sec"], 148, 8, None);
   (s_ "btrfs_root_item", [s_ "inode"; s_ "otime"; s_ "nsec"], 156, 4, None);
   (s_ "btrfs_root_item", [s_ "generation"], 160, 8, None);
   (s_ "btrfs_root_item", [s_ "root_dirid"], 168, 8, None);
   (s_ "btrfs_root_item", [s_ "bytenr"], 176, 8, None);
   (s_ "btrfs_root_item", [s_ "byte_limit"], 184, 8, None);
   (s_ "btrfs_root_item", [s_ "bytes_used"], 192, 8, None);
   (s_ "btrfs_root_item", [s_ "last_snapshot"], 200, 8, None);
   (s_ "btrfs_root_item", [s_ "flags"], 208, 8, None);
   (s_ "btrfs_root_item", [s_ "refs"], 216, 4, None);
   (s_ "btrfs_root_item", [s_ "drop_progress"; s_ "objectid"], 220, 8, None);
   (s_ "btrfs_root_item", [s_ "drop_progress"; s_ "type"], 228, 1, None);
   (s_ "btrfs_root_item", [s_ "drop_progress"; s_ "offset"], 229, 8, None);
   (s_ "btrfs_root_item", [s_ "drop_level"], 237, 1, None);
   (s_ "btrfs_root_item", [s_ "level"], 238, 1, None);
   (s_ "btrfs_root_item", [s_ "generation_v2"], 239, 8, None);
   (s_ "btrfs_root_item", [s_ "uuid"], 247, 1, Some 16);
   (s_ "btrfs_root_item", [s_ "parent_uuid"], 263, 1, Some 16);
   (s_ "btrfs_root_item", [s_ "received_uuid"], 279, 1, Some 16);
   (s_ "btrfs_root_item", [s_ "ctransid"], 295, 8, None);
   (s_ "btrfs_root_item", [s_ "otransid"], 303, 8, None);
   (s_ "btrfs_root_item", [s_ "stransid"], 311, 8, None);
   (s_ "btrfs_root_item", [s_ "rtransid"], 319, 8, None);
   (s_ "btrfs_root_item", [s_ "ctime"; s_ "sec"], 327, 8, None);
   (s_ "btrfs_root_item", [s_ "ctime"; s_ "nsec"], 335, 4, None);
   (s_ "btrfs_root_item", [s_ "otime"; s_ "sec"], 339, 8, None);
   (s_ "btrfs_root_item", [s_ "otime"; s_ "nsec"], 347, 4, None);
   (s_ "btrfs_root_item", [s_ "stime"; s_ "sec"], 351, 8, None);
   (s_ "btrfs_root_item", [s_ "stime"; s_ "nsec"], 359, 4, None);
   (s_ "btrfs_root_item", [s_ "rtime"; s_ "sec"], 363, 8, None);
   (s_ "btrfs_root_item", [s_ "rtime"; s_ "nsec"], 371, 4, None);
   (s_ "btrfs_root_item", [s_ "reserved"], 375, 8, Some 8);
   (s_ "btrfs_shared_data_ref", [s_ "count"], 0, 4, None);
   (s_ "btrfs_stripe", [s_ "devid"], 0, 8, None);
   (s_ "btrfs_stripe", [s_ "offset"], 8, 8, None);
   (s_ "btrfs_stripe", [s_ "dev_uuid"], 16, 1, Some 16);
   (s_ "btrfs_timespec", [s_ "sec"], 0, 8, None);
   (s_ "btrfs_timespec", [s_ "nsec"], 8, 4, None);
   (s_ "btrfs_header", [s_ "csum"], 0, 1, Some 32);
   (s_ "btrfs_header", [s_ "fsid"], 32, 1, Some 16);
   (s_ "btrfs_header", [s_ "bytenr"], 48, 8, None);
   (s_ "btrfs_header", [s_ "flags"], 56, 8, None);
   (s_ "btrfs_header", [s_ "chunk_tree_uuid"], 64, 1, Some 16);
   (s_ "btrfs_header", [s_ "generation"], 80, 8, None);
   (s_ "btrfs_header", [s_ "owner"], 88, 8, None);
   (s_ "btrfs_header", [s_ "nritems"], 96, 4, None);
   (s_ "btrfs_header", [s_ "level"], 100, 1, None)].

(** what v.p1.p2... reads *)
Fixpoint member (v : value) (path : list str) : option value :=
  match path with
  | [] => Some v
  | n :: p => match v with
              | VStruct _ _ ms => match assoc n ms with Some x => member x p | None => None end
              | _ => None
              end
  end.

(** v is the unsigned little-endian integer in the w bytes of bytes from off on *)
Definition unsigned_at (w off : nat) (bytes : str) (v : value) : Prop :=
  exists z, v = VInt z /\ (0 <= z < 2 ^ (8 * Z.of_nat w))%Z /\
            off + w <= length bytes /\ le_bytes w z = firstn w (skipn off bytes).

(** v has the member the table describes *)
Definition has_member (v : value) (bytes : str) (path : list str) (off w : nat) (count : option nat) : Prop :=
  match count with
  | None => exists x, member v path = Some x /\ unsigned_at w off bytes x
  | Some c => exists xs, member v path = Some (VArr xs false) /\ length xs = c /\
                         forall i x, nth_error xs i = Some x -> unsigned_at w (off + i * w) bytes x
  end.

(** ** The parts after the fixed one *)
(** the unsigned 16-bit number at off *)
Definition number_at (off : nat) (bytes : str) : nat :=
  match skipn off bytes with lo :: hi :: _ => N.to_nat lo + 256 * N.to_nat hi | _ => 0 end.
(** struct and member; where it begins: the size of the fixed part, and the offsets of the
    lengths of the parts that come first; the offset of its own length.  In the kernel a
    directory item is followed by name_len bytes of name and then data_len bytes of data
    (btrd: value). *)
Definition kernel_strings : list (str * str * nat * list nat * nat) :=
  [(s_ "btrfs_inode_ref", s_ "name", 10, [], 8);
   (s_ "btrfs_inode_extref", s_ "name", 18, [], 16);
   (s_ "btrfs_roof_ref", s_ "name", 18, [], 16);
   (s_ "btrfs_dir_item", s_ "name", 30, [], 27);
   (s_ "btrfs_dir_item", s_ "value", 30, [27], 25)].
Definition has_string (v : value) (bytes : str) (m : str) (fixed : nat) (before : list nat) (len : nat) : Prop :=
  let start := fixed + list_sum (map (fun o => number_at o bytes) before) in
  start + number_at len bytes <= length bytes /\
  member v [m] = Some (VStr (firstn (number_at len bytes) (skipn start bytes))).
(** a chunk item: num_stripes (offset 44) stripes of 32 bytes after 48 bytes *)
Definition has_stripes (v : value) (bytes : str) : Prop :=
  exists xs, member v [s_ "stripes"] = Some (VArr xs false) /\ length xs = number_at 44 bytes /\
    forall i x, nth_error xs i = Some x ->
      has_member x bytes [s_ "devid"] (48 + 32 * i) 8 None /\ has_member x bytes [s_ "offset"] (48 + 32 * i + 8) 8 None /\
      has_member x bytes [s_ "dev_uuid"] (48 + 32 * i + 16) 1 (Some 16).
