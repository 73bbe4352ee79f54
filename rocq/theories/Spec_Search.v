(** What the kernel's tree search promises, and what search() should return. *)
From Verif Require Import Base Structs Value Definitions Variables Fs Ast Eval Spec_Decode.
From Coq Require Import Sorted.
Arguments s_ s%string_scope.

(** ** Keys: (objectid, type, offset), compared lexicographically *)
Definition dkey : Type := Z * Z * Z.
Definition key_of (c : chunk) : dkey := (h_objectid (fst c), h_type (fst c), h_offset (fst c)).
Definition klt (a b : dkey) : Prop :=
  let '(o, t, f) := a in let '(o', t', f') := b in
  (o < o' \/ (o = o' /\ (t < t' \/ (t = t' /\ f < f'))))%Z.
Definition min_key (k : skey) : dkey := (sk_min_objectid k, sk_min_type k, sk_min_offset k).
Definition max_key (k : skey) : dkey := (sk_max_objectid k, sk_max_type k, sk_max_offset k).

(** the item is in the requested key and transaction range *)
Definition in_range (k : skey) (c : chunk) : Prop :=
  ~ klt (key_of c) (min_key k) /\ ~ klt (max_key k) (key_of c) /\
  (sk_min_transid k <= h_transid (fst c) <= sk_max_transid k)%Z.

(** ** Result buffers *)
(** struct btrfs_ioctl_search_header followed by the item *)
Definition encode_item (c : chunk) : str :=
  let '(h, b) := c in
  le_bytes 8 (h_transid h) ++ le_bytes 8 (h_objectid h) ++ le_bytes 8 (h_offset h) ++
  le_bytes 4 (h_type h) ++ le_bytes 4 (h_len h) ++ b.
Definition encode_items (l : list chunk) : str := flat_map encode_item l.
Definition u (bits z : Z) : Prop := (0 <= z < 2 ^ bits)%Z.
(** an item as stored in a tree: 64-bit numbers, an 8-bit type and a payload of the given length *)
Definition item_ok (c : chunk) : Prop :=
  u 64 (h_transid (fst c)) /\ u 64 (h_objectid (fst c)) /\ u 64 (h_offset (fst c)) /\ u 8 (h_type (fst c)) /\
  u 32 (h_len (fst c)) /\ h_len (fst c) = zlen (snd c) /\ Forall (fun b => (b < 256)%N) (snd c).

(** ** The kernel, on a filesystem that may change all the time *)
(** [states t n st]: at some moment during the n-th interaction tree number t had exactly the items st *)
Definition history : Type := Z -> nat -> list chunk -> Prop.

(** the kernel's answer to the n-th interaction: items of the requested tree and range, in key order, each
    read at some moment; an item of the range that is there all the time is only missing
    if it comes after all returned ones (the buffer was full) and at least one is returned *)
Definition answer_ok (states : history) (n : nat) (k : skey) (items : list chunk) : Prop :=
  StronglySorted klt (map key_of items) /\
  (forall c, In c items -> item_ok c /\ in_range k c /\ exists st, states (sk_tree k) n st /\ In c st) /\
  (zlen (encode_items items) <= MAX_BUF_SIZE)%Z /\
  (forall c, in_range k c -> (forall st, states (sk_tree k) n st -> In c st) ->
             In c items \/ (items <> [] /\ forall i, In i items -> klt (key_of i) (key_of c))).
Definition honest (E : env) (fd : Z) (states : history) : Prop :=
  forall n k, ioctl E n fd k = IoErr \/
    exists items, ioctl E n fd k = IoOk (zlen items) (encode_items items) /\ answer_ok states n k items.

(** the request is well-formed: all numbers fit their kernel width *)
Definition request_ok (k : skey) : Prop :=
  u 64 (sk_tree k) /\ u 64 (sk_min_objectid k) /\ u 64 (sk_max_objectid k) /\ u 8 (sk_min_type k) /\ u 8 (sk_max_type k) /\
  u 64 (sk_min_offset k) /\ u 64 (sk_max_offset k) /\ u 64 (sk_min_transid k) /\ u 64 (sk_max_transid k).
(** at least one upper bound is below its maximum *)
Definition bounded (k : skey) : Prop :=
  sk_max_objectid k <> (2 ^ 64 - 1)%Z \/ sk_max_type k <> 255%Z \/ sk_max_offset k <> (2 ^ 64 - 1)%Z \/ sk_max_transid k <> (2 ^ 64 - 1)%Z.

(** what a search that made the interactions from number a up to (not including) b should return *)
Definition complete_result (states : history) (k : skey) (a b : nat) (items : list chunk) : Prop :=
  (* strictly ascending keys, so no duplicates *)
  StronglySorted klt (map key_of items) /\
  (* nothing outside the range, nothing that was not there *)
  (forall c, In c items -> in_range k c /\ exists n st, a <= n < b /\ states (sk_tree k) n st /\ In c st) /\
  (* everything that was there all the time *)
  (forall c, in_range k c -> (forall n st, a <= n < b -> states (sk_tree k) n st -> In c st) -> In c items).

(** ** The program's view: evaluating [search(a, b)] *)
(** evaluating e in world w calls search() with the tree id and key value, the world then being w2 *)
Definition calls_search (K : nat) (E : env) (vs : vars value) (f : option fs) (e : expr) (w : world)
  (tree : Z) (key : value) (w2 : world) : Prop :=
  exists fe a b wf wa, e = ECall fe [a; b] /\
    eval_expr K E vs f fe w = (wf, Ok (VFun FSearch)) /\
    eval_expr K E vs f a wf = (wa, Ok (VInt tree)) /\
    eval_expr K E vs f b wa = (w2, Ok key).
(** the value is a search key with these fields *)
Definition is_search_key (v : value) (flds : list (str * value)) : Prop := exists key, v = VStruct (s_ "_btrfs_ioctl_search_key") key flds.
(** the struct key(a, b, c, d) should return *)
Definition key_struct (a b c d : Z) : value :=
  VStruct (s_ "_btrfs_ioctl_search_key") None
    [(s_ "min_objectid", VInt a); (s_ "max_objectid", VInt (2 ^ 64 - 1)); (s_ "min_type", VInt b); (s_ "max_type", VInt 255);
     (s_ "min_offset", VInt c); (s_ "max_offset", VInt (2 ^ 64 - 1)); (s_ "min_transid", VInt d); (s_ "max_transid", VInt (2 ^ 64 - 1))].
(** the value of a field of a struct *)
Definition key_field (flds : list (str * value)) (n : str) (z : Z) : Prop := assoc n flds = Some (VInt z).
(** the request denoted by a tree id and the fields of a key struct: there is none when one
    of the nine numbers is missing, not an integer or does not fit the kernel's width *)
Definition requested (tree : Z) (flds : list (str * value)) (k : skey) : Prop :=
  sk_tree k = tree /\
  key_field flds (s_ "min_objectid") (sk_min_objectid k) /\ key_field flds (s_ "max_objectid") (sk_max_objectid k) /\
  key_field flds (s_ "min_type") (sk_min_type k) /\ key_field flds (s_ "max_type") (sk_max_type k) /\
  key_field flds (s_ "min_offset") (sk_min_offset k) /\ key_field flds (s_ "max_offset") (sk_max_offset k) /\
  key_field flds (s_ "min_transid") (sk_min_transid k) /\ key_field flds (s_ "max_transid") (sk_max_transid k) /\
  request_ok k.
(** the requests that page through the results of k: only the lower end of the key range moves *)
Definition follow_up (k k' : skey) : Prop :=
  sk_tree k' = sk_tree k /\ max_key k' = max_key k /\
  sk_min_transid k' = sk_min_transid k /\ sk_max_transid k' = sk_max_transid k.

(** the array shown for a list of items: in order, each item decoded with the first definition that
    matches its key (and carrying the key), items that no definition matches left out *)
Inductive shown (oc : bool) : list chunk -> list value -> Prop :=
| shown_nil : shown oc [] []
| shown_unknown h b cs vs :
    (forall s, In s STRUCTS -> st_km s (h_objectid h) (h_type h) (h_offset h) = false) ->
    shown oc cs vs -> shown oc ((h, b) :: cs) vs
| shown_item h b cs vs pre s post v :
    STRUCTS = pre ++ s :: post ->
    (forall p, In p pre -> st_km p (h_objectid h) (h_type h) (h_offset h) = false) ->
    st_km s (h_objectid h) (h_type h) (h_offset h) = true ->
    from_bytes oc s (Some (h_objectid h, h_type h, h_offset h)) b = Ok v ->
    shown oc cs vs -> shown oc ((h, b) :: cs) (v :: vs).

(** ** Any kernel *)
(** the types of the interface only: a u32 count and bytes *)
Definition kernel_typed (E : env) : Prop :=
  forall n fd k nr buf, ioctl E n fd k = IoOk nr buf \/ ioctl E n fd k = IoOverflow nr buf ->
    u 32 nr /\ Forall (fun b => (b < 256)%N) buf.
(** an item read from a buffer: numbers of the header's widths and a payload of the given length *)
Definition raw_item (c : chunk) : Prop :=
  u 64 (h_transid (fst c)) /\ u 64 (h_objectid (fst c)) /\ u 64 (h_offset (fst c)) /\ u 32 (h_type (fst c)) /\
  u 32 (h_len (fst c)) /\ h_len (fst c) = zlen (snd c) /\ Forall (fun b => (b < 256)%N) (snd c).

(** ** On-disk keys of the shipped structs (kernel: include/uapi/linux/btrfs_tree.h) *)
Inductive on_disk_key : str -> Z -> Z -> Z -> Prop :=
| odk_dev_item f : on_disk_key (s_ "btrfs_dev_item") 1 216 f
| odk_chunk f : on_disk_key (s_ "btrfs_chunk") 256 228 f
| odk_orphan f : on_disk_key (s_ "btrfs_orphan_item") (2 ^ 64 - 5) 48 f
| odk_extent o f : on_disk_key (s_ "btrfs_extent_item") o 168 f
| odk_metadata o f : on_disk_key (s_ "btrfs_extent_item") o 169 f
| odk_dev_extent o f : on_disk_key (s_ "btrfs_dev_extent") o 204 f
| odk_inode_ref o f : on_disk_key (s_ "btrfs_inode_ref") o 12 f
| odk_inode_extref o f : on_disk_key (s_ "btrfs_inode_extref") o 13 f
| odk_inode_item o : on_disk_key (s_ "btrfs_inode_item") o 1 0
| odk_dir_log o f : on_disk_key (s_ "btrfs_dir_log_item") o 60 f
| odk_dir_log_index o f : on_disk_key (s_ "btrfs_dir_log_item") o 72 f
| odk_dir o f : on_disk_key (s_ "btrfs_dir_item") o 84 f
| odk_dir_index o f : on_disk_key (s_ "btrfs_dir_item") o 96 f
| odk_xattr o f : on_disk_key (s_ "btrfs_dir_item") o 24 f
| odk_root o f : on_disk_key (s_ "btrfs_root_item") o 132 f
| odk_root_ref o f : on_disk_key (s_ "btrfs_roof_ref") o 156 f
| odk_root_backref o f : on_disk_key (s_ "btrfs_roof_ref") o 144 f
| odk_balance : on_disk_key (s_ "btrfs_balance_item") (2 ^ 64 - 4) 248 0
| odk_file_extent o f : on_disk_key (s_ "btrfs_file_extent_item") o 108 f
| odk_csum f : on_disk_key (s_ "btrfs_csum_item") (2 ^ 64 - 10) 128 f
| odk_dev_stats f : on_disk_key (s_ "btrfs_dev_stats_item") 0 249 f
| odk_dev_replace o f : on_disk_key (s_ "btrfs_dev_replace_item") o 250 f
| odk_block_group o f : on_disk_key (s_ "btrfs_block_group_item") o 192 f
| odk_free_space_info o f : on_disk_key (s_ "btrfs_free_space_info") o 198 f
| odk_free_space_header f : on_disk_key (s_ "btrfs_free_space_header") (2 ^ 64 - 11) 0 f
| odk_qgroup_status : on_disk_key (s_ "btrfs_qgroup_status_item") 0 240 0
| odk_qgroup_info f : on_disk_key (s_ "btrfs_qgroup_info_item") 0 242 f
| odk_qgroup_limit f : on_disk_key (s_ "btrfs_qgroup_limit_item") 0 244 f.
(** items with key (o, t, f) are decoded as the struct named n *)
Definition recognised (n : str) (o t f : Z) : Prop :=
  exists pre s post, STRUCTS = pre ++ s :: post /\ (forall p, In p pre -> st_km p o t f = false) /\
    st_km s o t f = true /\ st_name s = n.
(** the first of the items with the same header *)
Definition first_occurrences (all : list chunk) : list chunk :=
  fold_left (fun r c => if existsb (fun d => header_eqb (fst d) (fst c)) r then r else r ++ [c]) all [].
