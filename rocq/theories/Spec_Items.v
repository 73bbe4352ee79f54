(** Specification of the texts of decoding failures (C90), in terms of the on-disk format
    of Spec_Decode only. *)
From Verif Require Import Base Structs Value Definitions Spec_Decode.
Arguments s_ s%string_scope.

(** Not enough bytes: [what] says for what, of [have] bytes [need] are needed *)
Definition short_text (s what : str) (have need : Z) : str :=
  s_ "Cannot interpret 'struct " ++ s ++ s_ "', not enough bytes provided" ++ what
  ++ s_ " (" ++ dec_Z have ++ s_ " < " ++ dec_Z need ++ s_ ")".

(** [item_fault total s acc fs bs m]: [bs] are the last bytes of an item of struct [s] that
    is [total] bytes long; after the members [acc] the fields [fs] should follow.  The first
    trailing field that does not fit is reported by the text [m]: it needs all bytes read so
    far and those of the field. *)
Inductive item_fault (total : Z) (s : str) : list (str * value) -> list field -> str -> str -> Prop :=
| if_named acc n t fs v b bs m : encodes t v b -> item_fault total s (acc ++ [(n, v)]) fs bs m ->
    item_fault total s acc ((Some n, t) :: fs) (b ++ bs) m
| if_anon acc t fs nm inner b bs m : encodes t (VStruct nm None inner) b -> item_fault total s (acc ++ inner) fs bs m ->
    item_fault total s acc ((None, t) :: fs) (b ++ bs) m
| if_str_ok acc n len fs x bs m : assoc len acc = Some (VInt (zlen x)) ->
    item_fault total s (acc ++ [(n, VStr x)]) fs bs m ->
    item_fault total s acc ((Some n, TTrailStr len) :: fs) (x ++ bs) m
| if_types_ok acc n t cnt fs vs bss bs m : assoc cnt acc = Some (VInt (zlen vs)) -> Forall2 (encodes t) vs bss ->
    item_fault total s (acc ++ [(n, VArr vs false)]) fs bs m ->
    item_fault total s acc ((Some n, TTrailTypes t cnt) :: fs) (concat bss ++ bs) m
(* a string of k bytes, and fewer are left *)
| if_str_short acc n len fs bs k : assoc len acc = Some (VInt k) -> (zlen bs < k)%Z ->
    item_fault total s acc ((Some n, TTrailStr len) :: fs) bs
      (short_text s (s_ " for string read") total (total - zlen bs + k))
(* k elements, and there are not bytes enough for them *)
| if_types_short acc n t cnt fs bs k : assoc cnt acc = Some (VInt k) -> (zlen bs < k * Z.of_nat (csize t))%Z ->
    item_fault total s acc ((Some n, TTrailTypes t cnt) :: fs) bs
      (short_text s (s_ " for trailing types read") total (total - zlen bs + k * Z.of_nat (csize t))).

(** complete inline references *)
Inductive whole_refs : str -> Prop :=
| wr_nil : whole_refs []
| wr_cons kind t b bs : ref_layout (Z.of_N kind) = Some t -> S (length b) = csize t -> whole_refs bs ->
    whole_refs ((kind :: b) ++ bs).

(** Why the bytes of an item cannot be read as a struct, and what is said *)
Inductive decode_fault (s : strct) (bytes : str) : str -> Prop :=
(* the fixed part is not complete *)
| df_short n : assoc (st_name s) fixed_part = Some n -> length bytes < n ->
    decode_fault s bytes (short_text (st_name s) [] (zlen bytes) (Z.of_nat n))
(* a trailing part is not complete *)
| df_item m : item_fault (zlen bytes) (st_name s) [] (st_fields s) bytes m -> decode_fault s bytes m
(* an inline reference of unknown kind *)
| df_kind hb refs kind rest : st_name s = s_ "btrfs_extent_item" -> bytes = hb ++ refs ++ kind :: rest ->
    length hb = 24 -> whole_refs refs -> ref_layout (Z.of_N kind) = None ->
    decode_fault s bytes (s_ "Unknown btrfs_extent_inline_ref type: " ++ dec_Z (Z.of_N kind))
(* the last inline reference is not complete *)
| df_ref hb refs kind t rest : st_name s = s_ "btrfs_extent_item" -> bytes = hb ++ refs ++ kind :: rest ->
    length hb = 24 -> whole_refs refs -> ref_layout (Z.of_N kind) = Some t -> S (length rest) < csize t ->
    decode_fault s bytes (s_ "Leftover data in btrfs_extent_item")
(* a file extent on disk (type 1 or 2, the byte at 20) without its complete location *)
| df_location ty : st_name s = s_ "btrfs_file_extent_item" -> nth_error bytes 20 = Some ty ->
    (ty = 1 \/ ty = 2)%N -> 21 <= length bytes < 53 ->
    decode_fault s bytes (short_text (s_ "btrfs_file_extent_item") [] (zlen bytes) 53).
