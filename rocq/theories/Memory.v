(** The raw memory reads of the search: /repo/src/btrfs/fs.rs:33-75,212-232.  The header of
    every returned item is read through a reference made from a raw pointer (fs.rs:220-222,
    unsafe); everything else is reached by bounds-checked slicing. *)
From Verif Require Import Base Structs Value Fs.

(** fs.rs:34-59: where [buf] begins in [BtrfsIoctlSearchArgsV2] (repr(C)): seven u64, four
    u32, four u64, and [buf_size] *)
Definition buf_field : Z := 7 * 8 + 4 * 4 + 4 * 8 + 8.
(** fs.rs:78-86: size and alignment of [BtrfsIoctlSearchHeader] (repr(C) with u64 members) *)
Definition header_size : Z := 3 * 8 + 2 * 4.
Definition header_align : Z := 8.

(** fs.rs:212-239: the values of [offset] at which fs.rs:221 makes a reference to a header,
    in order; the loop ends early at the two [ensure!]s (fs.rs:216,226) *)
Fixpoint header_refs (nr : nat) (buf : str) (offset : Z) : list Z :=
  match nr with
  | O => []
  | S nr' =>
    if (header_size + offset <=? MAX_BUF_SIZE)%Z then
      let h := header_of (buf_read buf offset header_size) in
      let offset2 := (offset + header_size)%Z in
      offset :: (if (h_len h + offset2 <=? MAX_BUF_SIZE)%Z then header_refs nr' buf (offset2 + h_len h) else [])
    else []
  end.
