(** Searching a filesystem whose trees do not change. *)
From Verif Require Import Base Structs Value Variables Fs Ast Eval Spec_Search.
From Coq Require Import Sorted.

(** the file descriptor belongs to a filesystem whose tree number t always has exactly the items
    [forest t]; how many of them the kernel hands out per request may vary from request to request *)
Definition still (E : env) (fd : Z) (forest : Z -> list chunk) : Prop := honest E fd (fun t _ st => st = forest t).

(** evaluating e, with any variables, from any world, is a call of search() for the request k on
    the filesystem fd, and gives the array l *)
Definition finds (E : env) (fd : Z) (e : expr) (k : skey) (l : list value) : Prop :=
  exists K vs w tree key flds w2 w', calls_search K E vs (Some (FsMounted fd)) e w tree key w2 /\
    is_search_key key flds /\ requested tree flds k /\
    eval_expr K E vs (Some (FsMounted fd)) e w = (w', Ok (VArr l false)).

(** sel is the list of the items in the range, by ascending key *)
Definition selection (tree : list chunk) (k : skey) (sel : list chunk) : Prop :=
  StronglySorted klt (map key_of sel) /\ forall c, In c sel <-> In c tree /\ in_range k c.

(** l1 is l with some elements left out *)
Inductive sublist {A} : list A -> list A -> Prop :=
| sub_nil : sublist [] []
| sub_skip x l1 l : sublist l1 l -> sublist l1 (x :: l)
| sub_keep x l1 l : sublist l1 l -> sublist (x :: l1) (x :: l).

(** the request is for a part of what the other one is for *)
Definition narrower (k1 k : skey) : Prop :=
  sk_tree k1 = sk_tree k /\ ~ klt (min_key k1) (min_key k) /\ ~ klt (max_key k) (max_key k1) /\
  (sk_min_transid k <= sk_min_transid k1)%Z /\ (sk_max_transid k1 <= sk_max_transid k)%Z.

(** the key range of k is cut in two: k1 ends before k2 begins, and no item lies between *)
Definition cut (tree : list chunk) (k k1 k2 : skey) : Prop :=
  (sk_tree k1 = sk_tree k /\ sk_tree k2 = sk_tree k) /\
  (min_key k1 = min_key k /\ max_key k2 = max_key k) /\
  (~ klt (max_key k1) (min_key k) /\ klt (max_key k1) (min_key k2) /\ ~ klt (max_key k) (min_key k2)) /\
  (forall c, In c tree -> ~ (klt (max_key k1) (key_of c) /\ klt (key_of c) (min_key k2))) /\
  (sk_min_transid k1 = sk_min_transid k /\ sk_max_transid k1 = sk_max_transid k) /\
  (sk_min_transid k2 = sk_min_transid k /\ sk_max_transid k2 = sk_max_transid k).
