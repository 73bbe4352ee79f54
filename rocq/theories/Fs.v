(** Filesystem access: /repo/src/btrfs/fs.rs:19-299, and the outside world it talks to. *)
From Verif Require Import Base Structs Value.

(** fs.rs:19-24 *)
Definition BTRFS_SUPERBLOCK_MAGIC : str := s_ "_BHRfS_M".
Definition BTRFS_SUPERBLOCK_MAGIC_LOCS : list Z := [65600; 67108928; 274877907008]%Z.
Definition BTRFS_FSTYPE : Z := 2435016766.
Definition MAX_BUF_SIZE : Z := 16777216.

(** fs.rs:33-59 the request part of [BtrfsIoctlSearchArgsV2]: the fields set per
    call (fs.rs:192-200).  [nr_items] = u32::MAX and [buf_size] = MAX_BUF_SIZE are the
    same in every call (fs.rs:71-72). *)
Record skey : Type := mk_skey {
  sk_tree : Z;
  sk_min_objectid : Z; sk_max_objectid : Z;
  sk_min_type : Z; sk_max_type : Z;
  sk_min_offset : Z; sk_max_offset : Z;
  sk_min_transid : Z; sk_max_transid : Z
}.

(** Answer of the ioctl: the returned [nr_items] and the bytes the kernel wrote at the
    start of the zeroed buffer, with success or EOVERFLOW; or any other errno. *)
Inductive ioctl_res : Type :=
| IoOk (nr : Z) (buf : str)
| IoOverflow (nr : Z) (buf : str)
| IoErr.

(** Answers of [Dir::open]/[fstatfs] and [OpenOptions::open]/[MmapMut::map_mut]
    (fs.rs:103-112,124,149): a directory descriptor with the statfs type (None:
    fstatfs fails), a file with the mapped bytes (None: mmap fails), or neither. *)
Inductive open_res : Type :=
| OpDir (fd : Z) (fstype : option Z)
| OpFile (image : option str)
| OpNone.

(** Result of writing to the sink: written, or an error after n bytes. *)
Inductive sink_res : Type := SkOk | SkErr (n : nat).

(** Observable interactions with the outside world. *)
Inductive event : Type :=
| EvIoctl (fd : Z) (k : skey)
| EvOpen (path : str)
| EvWrite (s : str)
| EvWarn (objectid type offset : Z).   (* eprintln, eval.rs:399 *)

(** Everything the program does not control.  The oracles may answer differently at
    every interaction: they get the number of earlier interactions. *)
Record env : Type := mk_env {
  overflow_checks : bool;
  ioctl : nat -> Z -> skey -> ioctl_res;
  open_path : nat -> str -> open_res;
  sink : nat -> str -> sink_res;
  getcwd : option str
}.

(** Interactions so far (latest last) and the text written so far. *)
Record world : Type := mk_world { w_log : list event; w_out : str }.
Definition tick (w : world) : nat := List.length (w_log w).
Definition log_event (w : world) (ev : event) : world := mk_world (w_log w ++ [ev]) (w_out w).

(** Computations that may interact and fail. *)
Definition M (A : Type) : Type := world -> world * res A.
Definition mret {A} (r : res A) : M A := fun w => (w, r).
Definition mbind {A B} (m : M A) (f : A -> M B) : M B := fun w =>
  let '(w', r) := m w in
  match r with
  | Ok a => f a w'
  | Err e => (w', Err e)
  | Panic p => (w', Panic p)
  | Fuel => (w', Fuel)
  end.
Notation "'do' x <- m ;; b" := (mbind m (fun x => b))
  (at level 200, x pattern, m at level 100, b at level 200, right associativity).

(** fs.rs:88-91,97-99 *)
Inductive fs : Type := FsMounted (fd : Z) | FsImage (bytes : str).

(** fs.rs:136-146 *)
Definition has_superblock_magic (bytes : str) : bool :=
  existsb (fun loc => match get_range bytes loc (loc + 8) with
                      | Some m => str_eqb m BTRFS_SUPERBLOCK_MAGIC
                      | None => false
                      end) BTRFS_SUPERBLOCK_MAGIC_LOCS.

(** fs.rs:102-160 [Fs::new], [new_mounted], [new_unmounted] *)
Definition fs_new (E : env) (path : str) : M fs := fun w =>
  let w' := log_event w (EvOpen path) in
  (w', match open_path E (tick w) path with
       | OpDir fd st =>
         let* t := ok_or st (EOpen OfSystem) in
         let* _ := ensure (t =? BTRFS_FSTYPE)%Z (EOpen (OfNotBtrfs path)) in
         Ok (FsMounted fd)
       | OpFile img =>
         let* b := ok_or img (EOpen OfSystem) in
         let* _ := ensure (has_superblock_magic b) (EOpen (OfNoMagic path)) in
         Ok (FsImage b)
       | OpNone => Err (EOpen (OfNeither path))
       end).

(** fs.rs:78-86 *)
Record header : Type := mk_header {
  h_transid : Z; h_objectid : Z; h_offset : Z; h_type : Z; h_len : Z
}.
(** [derive(PartialEq, Eq)] fs.rs:79 *)
Definition header_eqb (a b : header) : bool :=
  ((h_transid a =? h_transid b) && (h_objectid a =? h_objectid b) && (h_offset a =? h_offset b)
   && (h_type a =? h_type b) && (h_len a =? h_len b))%Z.

(** n bytes at offset off of the zero-initialised buffer after the kernel wrote [buf] *)
Definition buf_read (buf : str) (off n : Z) : str :=
  let b := skipn (Z.to_nat off) buf in
  firstn (Z.to_nat n) (b ++ repeat 0%N (Z.to_nat n - List.length b)).
(** fs.rs:220-221,230: access to [args.buf].  Slicing out of range panics; the raw header
    read of fs.rs:221 outside the buffer would be undefined behaviour, also a panic here. *)
Definition buf_slice (buf : str) (off n : Z) : res str :=
  if ((0 <=? off) && (off + n <=? MAX_BUF_SIZE))%Z then Ok (buf_read buf off n) else Panic PSlice.

(** fs.rs:220-222: the 32-byte header, little-endian (x86-64 layout of the repr(C) struct) *)
Definition header_of (b : str) : header :=
  mk_header (le (firstn 8 b)) (le (firstn 8 (skipn 8 b))) (le (firstn 8 (skipn 16 b)))
            (le (firstn 4 (skipn 24 b))) (le (firstn 4 (skipn 28 b))).

Definition chunk : Type := header * str.

(** [collisions += 1] on i32 (fs.rs:188,234) *)
Definition i32_incr (oc : bool) (z : Z) : res Z :=
  if (z + 1 <? 2 ^ 31)%Z then Ok (z + 1)%Z
  else if oc then Panic PArith else Ok (- 2 ^ 31)%Z.

(** fs.rs:212-239: extract [nr] items from the buffer.  [seen] is the BTreeSet of the
    headers already in [ret], so membership in [ret] is tested instead.  The additions
    to [offset] stay below 2^33. *)
Fixpoint extract (oc : bool) (nr : nat) (buf : str) (offset : Z) (ret : list chunk) (coll : Z)
  : res (list chunk * Z) :=
  match nr with
  | O => Ok (ret, coll)
  | S nr' =>
    let* _ := ensure (32 + offset <=? MAX_BUF_SIZE)%Z (EShortRead (s_ "BtrfsIoctlSearchHeader short read")) in
    let* hb := buf_slice buf offset 32 in
    let h := header_of hb in
    let off2 := (offset + 32)%Z in
    let* _ := ensure (h_len h + off2 <=? MAX_BUF_SIZE)%Z (EShortRead (s_ "BtrfsIoctlSearchHeader payload short read")) in
    let* bytes := buf_slice buf off2 (h_len h) in
    let off3 := (off2 + h_len h)%Z in
    if existsb (fun c => header_eqb (fst c) h) ret
    then let* coll' := i32_incr oc coll in extract oc nr' buf off3 ret coll'
    else extract oc nr' buf off3 (ret ++ [(h, bytes)]) coll
  end.

(** fs.rs:249-267: comparison of keys (objectid, type, offset) *)
Definition key_le (a b : header) : bool :=
  if (h_objectid a <? h_objectid b)%Z then true
  else if (h_objectid a >? h_objectid b)%Z then false
  else if (h_type a <? h_type b)%Z then true
  else if (h_type a >? h_type b)%Z then false
  else (h_offset a <=? h_offset b)%Z.
(** fs.rs:246-268 [max_by]: the last maximum *)
Fixpoint largest (l : list chunk) : option header :=
  match l with
  | [] => None
  | c :: l' => match largest l' with
               | None => Some (fst c)
               | Some m => Some (if key_le (fst c) m then m else fst c)
               end
  end.

(** fs.rs:190-283: the request loop; [k] is the step budget *)
Fixpoint search_loop (k : nat) (E : env) (fd : Z) (retry : bool) (key : skey)
         (ret : list chunk) (coll : Z) : M (list chunk) := fun w =>
  match k with
  | O => (w, Fuel)
  | S k' =>
    let ans := ioctl E (tick w) fd key in
    let w' := log_event w (EvIoctl fd key) in
    match ans with
    | IoErr => (w', Err EIoctl)
    | IoOk nr buf | IoOverflow nr buf =>
      match extract (overflow_checks E) (Z.to_nat nr) buf 0 ret coll with
      | Err e => (w', Err e)
      | Panic p => (w', Panic p)
      | Fuel => (w', Fuel)
      | Ok (ret', coll') =>
        if negb retry || (nr =? 0)%Z then
          (w', let* _ := ensure (coll' =? 0)%Z (ECollisions coll') in Ok ret')
        else
          match largest ret' with
          | None => (w', Panic PUnwrap)
          | Some m =>
            match try_into_u 8 (h_type m) with
            | Ok t =>
              if (h_offset m + 1 <? 2 ^ 64)%Z then
                search_loop k' E fd retry
                  (mk_skey (sk_tree key) (h_objectid m) (sk_max_objectid key) t (sk_max_type key)
                           (h_offset m + 1) (sk_max_offset key) (sk_min_transid key)
                           (sk_max_transid key))
                  ret' coll' w'
              else (w', Err EKeyOverflow)
            | Err e => (w', Err e)
            | Panic p => (w', Panic p)
            | Fuel => (w', Fuel)
            end
          end
      end
    end
  end.

(** fs.rs:166-286 [search] *)
Definition fs_search (k : nat) (E : env) (f : fs) (key : skey) : M (list chunk) :=
  match f with
  | FsImage _ => mret (Err EUnmountedSearch)
  | FsMounted fd =>
    let retry := negb (sk_max_objectid key =? U64_MAX)%Z || negb (sk_max_type key =? U8_MAX)%Z
                 || negb (sk_max_offset key =? U64_MAX)%Z || negb (sk_max_transid key =? U64_MAX)%Z in
    search_loop k E fd retry key [] 0
  end.

(** fs.rs:288-298 [get_bytes(start..stop)] *)
Definition get_bytes (f : fs) (start stop : Z) : res str :=
  match f with
  | FsImage b => ok_or (get_range b start stop) (EGetBytes (zlen b))
  | FsMounted _ => Err EMountedCast
  end.
