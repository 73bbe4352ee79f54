(** The interface of BTRFS_IOC_TREE_SEARCH_V2 (kernel: include/uapi/linux/btrfs.h, asm-generic/ioctl.h). *)
From Verif Require Import Base Structs Value Fs Spec_Decode Spec_Search.
Arguments s_ s%string_scope.
Local Open Scope Z_scope.

(** _IOWR(type, nr, size) *)
Definition iowr (ty nr size : Z) : Z := 3 * 2 ^ 30 + size * 2 ^ 16 + ty * 2 ^ 8 + nr.
(** _IOWR(BTRFS_IOCTL_MAGIC, 17, struct btrfs_ioctl_search_args_v2): the buffer at the end of the struct is
    a flexible array, so the size is that of the key (104 bytes) and buf_size *)
Definition BTRFS_IOC_TREE_SEARCH_V2 : Z := iowr 148 17 112.

(** struct btrfs_ioctl_search_key: member, offset, size *)
Definition kernel_search_key : list (str * (Z * Z)) :=
  [ (s_ "tree_id", (0, 8)); (s_ "min_objectid", (8, 8)); (s_ "max_objectid", (16, 8)); (s_ "min_offset", (24, 8)); (s_ "max_offset", (32, 8));
    (s_ "min_transid", (40, 8)); (s_ "max_transid", (48, 8)); (s_ "min_type", (56, 4)); (s_ "max_type", (60, 4)); (s_ "nr_items", (64, 4));
    (s_ "unused", (68, 4)); (s_ "unused1", (72, 8)); (s_ "unused2", (80, 8)); (s_ "unused3", (88, 8)); (s_ "unused4", (96, 8)) ].
(** the members that a request fills in *)
Definition request_members : list (str * (Z * Z)) := filter (fun m => match assoc (fst m) [(s_ "unused", tt); (s_ "unused1", tt); (s_ "unused2", tt); (s_ "unused3", tt); (s_ "unused4", tt)] with Some _ => false | None => true end) kernel_search_key.
(** struct btrfs_ioctl_search_args_v2: key, buf_size, buf[] (of n bytes) *)
Definition kernel_search_args (n : Z) : list (Z * Z) := [ (0, 104); (104, 8); (112, n) ].
(** struct btrfs_ioctl_search_header: transid, objectid, offset, type, len *)
Definition kernel_search_header : list (Z * Z) := [ (0, 8); (8, 8); (16, 8); (24, 4); (28, 4) ].

(** the members of a header, by the names of the program's struct *)
Definition header_members (h : header) : list (str * Z) :=
  [ (s_ "transid", h_transid h); (s_ "objectid", h_objectid h); (s_ "offset", h_offset h); (s_ "ty", h_type h); (s_ "len", h_len h) ].

(** the n bytes at an offset are the little-endian number z *)
Definition number_at (b : str) (off n : nat) (z : Z) : Prop := firstn n (skipn off b) = le_bytes n z.
(** the kernel finds this request in its argument: the nine numbers, the number of items it may return,
    the size of the buffer, and zeros in the unused members *)
Definition kernel_finds (b : str) (k : skey) (nr_items buf_size : Z) : Prop :=
  number_at b 0 8 (sk_tree k) /\
  number_at b 8 8 (sk_min_objectid k) /\ number_at b 16 8 (sk_max_objectid k) /\
  number_at b 24 8 (sk_min_offset k) /\ number_at b 32 8 (sk_max_offset k) /\
  number_at b 40 8 (sk_min_transid k) /\ number_at b 48 8 (sk_max_transid k) /\
  number_at b 56 4 (sk_min_type k) /\ number_at b 60 4 (sk_max_type k) /\
  number_at b 64 4 nr_items /\ number_at b 68 4 0 /\
  number_at b 72 8 0 /\ number_at b 80 8 0 /\ number_at b 88 8 0 /\ number_at b 96 8 0 /\
  number_at b 104 8 buf_size /\ length b = 112%nat.
