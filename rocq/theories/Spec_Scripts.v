(** The scripts shipped with the debugger (/repo/scripts), and what they should compute. *)
From Verif Require Import Base Value Structs Fs Spec_Search Spec_Hist.
From Coq Require Import Sorted.
Arguments s_ s%string_scope.

(** ** The texts *)
(** /repo/scripts/block_group_dist.btrd, byte for byte *)
Definition block_group_dist : str := s_ "filesystem ""/mnt/btrfs"";

k = key(0, BTRFS_BLOCK_GROUP_ITEM_KEY, 0, 0);
k.max_type = BTRFS_BLOCK_GROUP_ITEM_KEY;
bgs = search(BTRFS_EXTENT_TREE_OBJECTID, k);

blk_group_usage = hist();
extent_free_space = hist();

for bg in bgs {
  # First process block group usage
  bg_key = keyof(bg);

  if bg_key.type != BTRFS_BLOCK_GROUP_ITEM_KEY {
    continue;
  }

  if !(bg.flags & BTRFS_BLOCK_GROUP_DATA) {
    continue;
  }

  percent_used = 100 * bg.used / bg_key.offset;
  blk_group_usage += percent_used;

  # Now process free space for each extent in the block group
  bg_start = bg_key.objectid;
  bg_len = bg_key.offset;
  last_end = bg_start;

  k2 = key(bg_start, BTRFS_EXTENT_ITEM_KEY, 0, 0);
  k2.max_objectid = bg_start + bg_len - 1;
  k2.max_type = BTRFS_EXTENT_ITEM_KEY;
  extents = search(BTRFS_EXTENT_TREE_OBJECTID, k2);

  for extent in extents {
    extent_key = keyof(extent);

    if extent_key.type != BTRFS_EXTENT_ITEM_KEY {
      continue;
    }

    if extent_key.objectid >= bg_start + bg_len {
      break;
    }

    if last_end < extent_key.objectid {
      free_bytes = extent_key.objectid - last_end;
      extent_free_space += free_bytes;
    }

    last_end = extent_key.objectid + extent_key.offset;
  }
}

print ""block group usage:"";
print ""------------------"";
print blk_group_usage;
print """";
print ""extent free space:"";
print ""------------------"";
print extent_free_space;
".
(** /repo/scripts/example.btrd, byte for byte *)
Definition example_script : str := s_ "filesystem ""/mnt/btrfs"";

k = key(BTRFS_DEV_TREE_OBJECTID, BTRFS_ROOT_ITEM_KEY, 0, 0);
res = search(BTRFS_ROOT_TREE_OBJECTID, k);

i = 0;
for v in res {
  if i == 3 {
    break;
  }

  print res[i];

  i += 1;
}
".

(** ** block_group_dist: usage of the data block groups and free space between their extents *)
(** a little-endian number *)
Fixpoint num (b : str) : Z := match b with [] => 0 | x :: r => Z.of_N x + 256 * num r end%Z.
(** struct btrfs_block_group_item: used, chunk_objectid and flags, each 8 bytes; the key is
    (first byte, BLOCK_GROUP_ITEM = 192, length) *)
Definition bg_used (c : chunk) : Z := num (firstn 8 (snd c)).
Definition bg_flags (c : chunk) : Z := num (firstn 8 (skipn 16 (snd c))).
Definition is_group (c : chunk) : bool := (h_type (fst c) =? 192)%Z.
(** BTRFS_BLOCK_GROUP_DATA is bit 0 *)
Definition is_data_group (c : chunk) : bool := is_group c && Z.odd (bg_flags c).
(** the key of an extent is (first byte, EXTENT_ITEM = 168, length) *)
Definition is_extent (c : chunk) : bool := (h_type (fst c) =? 168)%Z.

(** percentage of the group in use, rounded down *)
Definition percent (c : chunk) : Z := (100 * bg_used c / h_offset (fst c))%Z.
(** the extents that begin in the group *)
Definition extents_in (tree : list chunk) (g : chunk) : list chunk :=
  filter (fun c => is_extent c && (h_objectid (fst g) <=? h_objectid (fst c))%Z && (h_objectid (fst c) <? h_objectid (fst g) + h_offset (fst g))%Z) tree.
(** the gaps before the extents, the space from [last] on being looked at *)
Fixpoint gaps (last : Z) (es : list chunk) : list Z :=
  match es with
  | [] => []
  | c :: es' => (if last <? h_objectid (fst c) then [h_objectid (fst c) - last] else []) ++ gaps (h_objectid (fst c) + h_offset (fst c)) es'
  end%Z.
Definition usage (tree : list chunk) : list Z := map percent (filter is_data_group tree).
Definition free_space (tree : list chunk) : list Z :=
  flat_map (fun g => gaps (h_objectid (fst g)) (extents_in tree g)) (filter is_data_group tree).

(** the text of the histogram of these values: nothing when there are none *)
Definition histogram (vals : list Z) (text : str) : Prop :=
  (vals = [] /\ text = []) \/
  exists bs a z, buckets vals a bs z /\ diagram (zlen vals) bs text /\ (forall v, In v vals -> a <= v <= z)%Z.

(** a well-formed extent tree: the items by ascending key; items are as stored in a tree and either
    of a kind the debugger does not know or decodable; no key ends with offset 2^64 - 1 (C35); and
    data block groups are not empty and lie in the 64-bit address space *)
Definition extent_tree (oc : bool) (tree : list chunk) : Prop :=
  StronglySorted klt (map key_of tree) /\
  (forall c, In c tree -> item_ok c /\ (exists l, shown oc [c] l) /\ h_offset (fst c) <> (2 ^ 64 - 1)%Z) /\
  (forall c, In c tree -> is_data_group c = true -> (0 < h_offset (fst c))%Z /\ (h_objectid (fst c) + h_offset (fst c) <= 2 ^ 64)%Z).
