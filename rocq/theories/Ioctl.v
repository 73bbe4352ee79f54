(** How a search request reaches the kernel: /repo/src/btrfs/fs.rs:19-76,86,191-202, the part that [skey]
    (Fs.v) leaves out: the memory layout of the repr(C) structs, the bytes written to the request, and the
    request code computed by nix's [ioctl_readwrite!] (a dependency, not part of /repo: modelled after nix's
    documentation and [ioc!] macro, for the generic Linux encoding, x86-64).  u64 is aligned to 8 bytes
    and integers are little-endian, as on x86-64. *)
From Verif Require Import Base Structs Definitions Value Fs.
Arguments s_ s%string_scope.
Local Open Scope Z_scope.

(** ** repr(C): a type is known by its size and alignment; the fields are placed in their order, each at the
    next multiple of its alignment; the size of the struct is rounded up to its alignment *)
Record ctype : Type := mk_ctype { c_size : Z; c_align : Z }.
Definition c_u8 : ctype := mk_ctype 1 1.
Definition c_u32 : ctype := mk_ctype 4 4.
Definition c_u64 : ctype := mk_ctype 8 8.
(** [T; n] *)
Definition c_array (t : ctype) (n : Z) : ctype := mk_ctype (c_size t * n) (c_align t).
Definition align_up (off a : Z) : Z := (off + a - 1) / a * a.
Fixpoint place (fields : list (str * ctype)) (off : Z) : list (str * (Z * Z)) * Z :=
  match fields with
  | [] => ([], off)
  | (n, t) :: r => let o := align_up off (c_align t) in
                   let '(l, e) := place r (o + c_size t) in ((n, (o, c_size t)) :: l, e)
  end.
(** name, offset and size of the fields *)
Definition layout (fields : list (str * ctype)) : list (str * (Z * Z)) := fst (place fields 0).
Definition struct_align (fields : list (str * ctype)) : Z := fold_right Z.max 1 (map (fun f => c_align (snd f)) fields).
Definition c_struct (fields : list (str * ctype)) : ctype :=
  mk_ctype (align_up (snd (place fields 0)) (struct_align fields)) (struct_align fields).

(** fs.rs:33-52 *)
Definition search_key_fields : list (str * ctype) :=
  [ (s_ "tree_id", c_u64); (s_ "min_objectid", c_u64); (s_ "max_objectid", c_u64); (s_ "min_offset", c_u64); (s_ "max_offset", c_u64);
    (s_ "min_transid", c_u64); (s_ "max_transid", c_u64); (s_ "min_type", c_u32); (s_ "max_type", c_u32); (s_ "nr_items", c_u32);
    (s_ "_unused", c_u32); (s_ "_unused1", c_u64); (s_ "_unused2", c_u64); (s_ "_unused3", c_u64); (s_ "_unused4", c_u64) ].
(** fs.rs:54-59, for a buffer of [b] bytes; [b] is [MAX_BUF_SIZE] in the program *)
Definition search_args_fields (b : Z) : list (str * ctype) :=
  [ (s_ "key", c_struct search_key_fields); (s_ "buf_size", c_u64); (s_ "buf", c_array c_u8 b) ].
(** fs.rs:78-86 *)
Definition search_header_fields : list (str * ctype) :=
  [ (s_ "transid", c_u64); (s_ "objectid", c_u64); (s_ "offset", c_u64); (s_ "ty", c_u32); (s_ "len", c_u32) ].

(** ** fs.rs:26-31 [ioctl_readwrite!(btrfs_tree_search_v2, BTRFS_IOC_MAGIC, 17, BtrfsIoctlSearchArgsV2)] *)
Definition BTRFS_IOC_MAGIC : Z := 148.
(** nix [ioc!]: direction, type, number and size, each cut to its field *)
Definition ioc (dir ty nr sz : Z) : Z :=
  Z.lor (Z.lor (Z.lor (Z.shiftl (Z.land dir (2 ^ 2 - 1)) 30) (Z.shiftl (Z.land ty (2 ^ 8 - 1)) 8)) (Z.shiftl (Z.land nr (2 ^ 8 - 1)) 0))
        (Z.shiftl (Z.land sz (2 ^ 14 - 1)) 16).
(** nix [request_code_readwrite!]: READ = 2, WRITE = 1 *)
Definition request_code_for (b : Z) : Z := ioc (Z.lor 2 1) BTRFS_IOC_MAGIC 17 (c_size (c_struct (search_args_fields b))).
Definition request_code : Z := request_code_for MAX_BUF_SIZE.

(** ** The memory of the request *)
(** the [n] low bytes of an integer, lowest first *)
Fixpoint to_le (n : nat) (z : Z) : str :=
  match n with O => [] | S n' => Z.to_N (z mod 256) :: to_le n' (z / 256) end.
Definition write_at (off : Z) (b m : str) : str :=
  firstn (Z.to_nat off) m ++ b ++ skipn (Z.to_nat off + List.length b) m.
(** assignment to a field *)
Definition assign_field (lay : list (str * (Z * Z))) (base : Z) (m : str) (f : str * Z) : str :=
  match assoc (fst f) lay with
  | Some (off, sz) => write_at (base + off) (to_le (Z.to_nat sz) (snd f)) m
  | None => m
  end.
(** where [key] and [buf_size] are *)
Definition key_base : Z := match assoc (s_ "key") (layout (search_args_fields MAX_BUF_SIZE)) with Some (o, _) => o | None => 0 end.
Definition assign_key (m : str) (f : str * Z) : str := assign_field (layout search_key_fields) key_base m f.
Definition assign_args (m : str) (f : str * Z) : str := assign_field (layout (search_args_fields MAX_BUF_SIZE)) 0 m f.
(** fs.rs:61-76 [BtrfsIoctlSearchArgsV2::new]: zeroed memory, of which only the part before [buf] is
    modelled (all of [buf] is zero, as in [buf_read]); [BtrfsIoctlSearchKey::default()] are zeros again.
    A failing allocation (null) is not modelled. *)
Definition new_args : str :=
  assign_args (assign_key (repeat 0%N 112) (s_ "nr_items", U32_MAX)) (s_ "buf_size", MAX_BUF_SIZE).
(** fs.rs:192-200; the conversions of [min_type] and [max_type] from u8 to u32 keep the number *)
Definition request_bytes (k : skey) : str :=
  fold_left assign_key
    [ (s_ "tree_id", sk_tree k); (s_ "min_objectid", sk_min_objectid k); (s_ "max_objectid", sk_max_objectid k);
      (s_ "min_type", sk_min_type k); (s_ "max_type", sk_max_type k); (s_ "min_offset", sk_min_offset k);
      (s_ "max_offset", sk_max_offset k); (s_ "min_transid", sk_min_transid k); (s_ "max_transid", sk_max_transid k) ]
    new_args.
