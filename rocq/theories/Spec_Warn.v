(** Warnings about items of unknown kind. *)
From Verif Require Import Base Structs Definitions Value Variables Fs Ast Eval Spec_Decode Spec_Search.

(** no definition matches the key *)
Definition unknown (o t f : Z) : Prop := forall s, In s STRUCTS -> st_km s o t f = false.
(** the warnings due for a list of items: one for each item of unknown kind, with its key, in order *)
Inductive reports : list chunk -> list event -> Prop :=
| re_nil : reports [] []
| re_known c cs l s : In s STRUCTS -> st_km s (h_objectid (fst c)) (h_type (fst c)) (h_offset (fst c)) = true -> reports cs l -> reports (c :: cs) l
| re_unknown c cs l : unknown (h_objectid (fst c)) (h_type (fst c)) (h_offset (fst c)) -> reports cs l ->
    reports (c :: cs) (EvWarn (h_objectid (fst c)) (h_type (fst c)) (h_offset (fst c)) :: l).
(** the answer (nr, buf) holds the item c: the buffer begins with nr items, and c is one of them *)
Definition holds (nr : Z) (buf : str) (c : chunk) : Prop :=
  exists all, Z.of_nat (length all) = nr /\ In c all /\ Forall raw_item all /\
    firstn (length (encode_items all)) (buf ++ repeat 0%N (Z.to_nat MAX_BUF_SIZE)) = encode_items all.
(** in the sequence l of interactions, of which the first is number i: every warning is about an item
    of unknown kind that the kernel has returned before *)
Definition warnings_founded (E : env) (i : nat) (l : list event) : Prop :=
  forall j o t f, nth_error l j = Some (EvWarn o t f) ->
  unknown o t f /\
  exists m fd k nr buf c, m < j /\ nth_error l m = Some (EvIoctl fd k) /\
    (ioctl E (i + m) fd k = IoOk nr buf \/ ioctl E (i + m) fd k = IoOverflow nr buf) /\ holds nr buf c /\ key_of c = (o, t, f).
