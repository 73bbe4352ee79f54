(** Going on from a key: searches with key(...) on trees that do not change (C92). *)
From Verif Require Import Base Structs Value Definitions Variables Fs Ast Eval Spec_Search Spec_Still.
From Coq Require Import Sorted.
Arguments s_ s%string_scope.
(** the items of a tree, as the kernel stores them: by ascending key *)
Definition tree_ok (tree : list chunk) : Prop := StronglySorted klt (map key_of tree) /\ Forall item_ok tree.
(** what search(t, key(o, ty, f, 0)) asks for: everything from a key on *)
Definition from_key (t : Z) (d : dkey) : skey :=
  mk_skey t (fst (fst d)) (2 ^ 64 - 1) (snd (fst d)) 255 (snd d) (2 ^ 64 - 1) 0 (2 ^ 64 - 1).
(** the items of the tree before and from a key *)
Definition cut_at (d : dkey) (tree before rest : list chunk) : Prop :=
  tree = before ++ rest /\ Forall (fun c => klt (key_of c) d) before /\ Forall (fun c => ~ klt (key_of c) d) rest.
(** the item is shown at all: some shipped struct is for its key *)
Definition known_item (c : chunk) : Prop :=
  exists s, In s STRUCTS /\ st_km s (h_objectid (fst c)) (h_type (fst c)) (h_offset (fst c)) = true.
(** [pages E fd t d ls]: someone searches from key d on, then from behind the last element of the
    array that was found (the same objectid and type, and the next offset), and so on, until the
    array is empty; ls are the arrays *)
Inductive pages (E : env) (fd : Z) (t : Z) : dkey -> list (list value) -> Prop :=
| pg_end d e : finds E fd e (from_key t d) [] -> pages E fd t d []
| pg_next d e l n o ty f ms ls :
    finds E fd e (from_key t d) (l ++ [VStruct n (Some (o, ty, f)) ms]) ->
    pages E fd t (o, ty, f + 1)%Z ls -> pages E fd t d ((l ++ [VStruct n (Some (o, ty, f)) ms]) :: ls).
