(** C86: what makes a reference valid. *)
From Verif Require Import Base Structs Value Fs Spec_Search.

(** o is an offset into the 16 MiB result buffer of an object at address base: the 32 bytes
    of an item header fit there *)
Definition inside (o : Z) : Prop := (0 <= o /\ o + 32 <= 16 * 2 ^ 20)%Z.
(** its address is a multiple of 8, as a struct with 64-bit members requires; the buffer
    begins 112 bytes after base *)
Definition aligned (base o : Z) : Prop := ((base + 112 + o) mod 8 = 0)%Z.
(** every item that another one follows has a length that is a multiple of 8 *)
Definition lengths_keep_alignment (items : list chunk) : Prop :=
  forall pre c c' post, items = pre ++ c :: c' :: post -> (zlen (snd c) mod 8 = 0)%Z.
(** the bytes of the item are those from offset o on (the buffer is zero behind what was
    written) *)
Definition begins_at (buf : str) (c : chunk) (o : Z) : Prop :=
  forall i, i < length (encode_item c) -> nth i (encode_item c) 0%N = nth (Z.to_nat o + i) buf 0%N.
