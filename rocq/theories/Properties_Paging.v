(** C92: going on from a key.  On a filesystem that does not change, search(t, key(o, ty, f, 0))
    gives the items of tree t from the key (o, ty, f) on, starting with the first of them; so the
    key of an element finds the element again, the key behind it what follows it, and someone who
    goes on like that until nothing is found has read the whole rest of the tree - if every item
    in it is of a type that the shipped structs know. *)
From Verif Require Import Base Structs Value Definitions Variables Fs Ast Eval Lib Demo Demo_Search Spec_Decode Spec_Search Proof_Search Proof_Search2 Properties_Search
  Spec_Still Proof_Still Properties_Still Spec_Paging Proof_Paging.
From Coq Require Import Sorted Lia.
Arguments s_ s%string_scope.

(** What such a search finds are the first items of the tree from the key on; and if there is any,
    not zero of them (an item of a type that no shipped struct is for counts, but is not shown). *)
Theorem C92_a_search_from_a_key_gives_the_next_items :
  forall E fd forest e t d l, still E fd forest -> tree_ok (forest t) -> finds E fd e (from_key t d) l ->
  exists before page post,
    cut_at d (forest t) before (page ++ post) /\ shown (overflow_checks E) page l /\ (page = [] -> post = []).
Proof. exact open_finds. Qed.
Print Assumptions C92_a_search_from_a_key_gives_the_next_items.

(** Whatever search found an element: the search from its key on finds the same element first. *)
Theorem C92_an_element_is_found_again :
  forall E fd forest e k l n d ms e2 l2, still E fd forest -> tree_ok (forest (sk_tree k)) ->
  finds E fd e k l -> In (VStruct n (Some d) ms) l ->
  finds E fd e2 (from_key (sk_tree k) d) l2 -> exists l', l2 = VStruct n (Some d) ms :: l'.
Proof. exact found_again. Qed.
Print Assumptions C92_an_element_is_found_again.

(** So if x holds an element of an array that some search in tree t found, then
    search(t, key(keyof(x).objectid, keyof(x).type, keyof(x).offset, 0))[0] is x, if it is anything. *)
Theorem C92_the_program_that_finds_an_element_again :
  forall K E vs fd forest e k l n o ty fo ms x w w' v,
  still E fd forest -> tree_ok (forest (sk_tree k)) ->
  finds E fd e k l -> In (VStruct n (Some (o, ty, fo)) ms) l ->
  vars_get (s_ "search") vs = Some (VFun FSearch) -> vars_get (s_ "key") vs = Some (VFun FKey) ->
  vars_get (s_ "keyof") vs = Some (VFun FKeyOf) ->
  vars_get x vs = Some (VStruct n (Some (o, ty, fo)) ms) ->
  eval_expr K E vs (Some (FsMounted fd))
    (EIndex (ECall (EIdent (s_ "search"))
       [EInt (sk_tree k);
        ECall (EIdent (s_ "key"))
          [EField (ECall (EIdent (s_ "keyof")) [EIdent x]) (EIdent (s_ "objectid"));
           EField (ECall (EIdent (s_ "keyof")) [EIdent x]) (EIdent (s_ "type"));
           EField (ECall (EIdent (s_ "keyof")) [EIdent x]) (EIdent (s_ "offset"));
           EInt 0]]) (EInt 0)) w = (w', Ok v) ->
  v = VStruct n (Some (o, ty, fo)) ms.
Proof. intros K E vs fd forest e k l n o ty fo ms x w w' v. exact (again_first K E vs fd forest e k l n o ty fo ms x w w' v). Qed.
Print Assumptions C92_the_program_that_finds_an_element_again.

(** Searching on from the next offset gives what comes behind the item. *)
Theorem C92_the_next_offset_is_behind_the_item :
  forall E fd forest e t l o ty f before c after, still E fd forest -> tree_ok (forest t) ->
  forest t = before ++ c :: after -> key_of c = (o, ty, f) ->
  finds E fd e (from_key t (o, ty, f + 1)%Z) l ->
  exists page post, after = page ++ post /\ shown (overflow_checks E) page l /\ (page = [] -> post = []).
Proof. exact found_next. Qed.
Print Assumptions C92_the_next_offset_is_behind_the_item.

(** Going on from behind the last element until nothing is found reads every item from the first
    key on, each once and in order - if they are all of known types. *)
Theorem C92_paging_reads_the_rest_of_the_tree_partial :
  forall E fd forest t d ls, still E fd forest -> tree_ok (forest t) ->
  (forall c, In c (forest t) -> ~ klt (key_of c) d -> known_item c) ->
  pages E fd t d ls ->
  exists before rest,
    cut_at d (forest t) before rest /\ shown (overflow_checks E) rest (concat ls) /\
    length ls <= length rest.
Proof.
  intros E fd forest t d ls HS HT HK H. destruct (pages_all E fd forest t HS HT d ls H HK) as (b & r & H1 & H2).
  exists b, r. split; [exact H1|]. split; [exact H2|]. apply shown_few in H2. apply pages_few in H. lia.
Qed.
Print Assumptions C92_paging_reads_the_rest_of_the_tree_partial.

(** ** Examples *)
Definition open_call (t o ty f : Z) : expr := ECall (EIdent (s_ "search")) [EInt t; ECall (EIdent (s_ "key")) [EInt o; EInt ty; EInt f; EInt 0]].
Definition paging_vars (x : value) : vars value :=
  [[(s_ "search", VFun FSearch); (s_ "key", VFun FKey); (s_ "keyof", VFun FKeyOf); (s_ "x", x)]].
Definition the_orphan (f : Z) : value := VStruct (s_ "btrfs_orphan_item") (Some (2 ^ 64 - 5, 48, f)%Z) [].
Lemma open_found oc m t o ty f l : (0 <= t < 2 ^ 64)%Z -> (0 <= o < 2 ^ 64)%Z -> (0 <= ty < 2 ^ 8)%Z -> (0 <= f < 2 ^ 64)%Z ->
  snd (eval_expr 10 (forest_env oc m demo_forest) (paging_vars (VInt 0)) (Some (FsMounted 3)) (open_call t o ty f) w0) = Ok (VArr l false) ->
  finds (forest_env oc m demo_forest) 3 (open_call t o ty f) (from_key t (o, ty, f)) l.
Proof.
  intros Ht Ho Hty Hf H. eexists 10, (paging_vars (VInt 0)), w0, t, (key_struct o ty f 0),
    [(s_ "min_objectid", VInt o); (s_ "max_objectid", VInt (2 ^ 64 - 1)); (s_ "min_type", VInt ty); (s_ "max_type", VInt 255);
     (s_ "min_offset", VInt f); (s_ "max_offset", VInt (2 ^ 64 - 1)); (s_ "min_transid", VInt 0); (s_ "max_transid", VInt (2 ^ 64 - 1))], w0, _.
  split; [|split; [|split]].
  - eexists _, _, _, w0, w0. split; [reflexivity|]. split; [reflexivity|]. split; [reflexivity|].
    apply (C57_key_builds_the_search_key 10 _ _ _ _ _ _ _ w0 w0 w0 w0 w0); reflexivity.
  - eexists. reflexivity.
  - unfold requested, request_ok, key_field, from_key, u. cbn [sk_tree sk_min_objectid sk_max_objectid sk_min_type sk_max_type sk_min_offset sk_max_offset sk_min_transid sk_max_transid fst snd].
    repeat (split; [reflexivity|]). repeat split; try lia; try reflexivity; try discriminate; tauto.
  - rewrite <- H. apply surjective_pairing.
Qed.
(** the first item of the demo tree is of a type that no shipped struct is for, the others are orphans *)
Lemma demo_orphan_known f : known_item (orphan f).
Proof.
  exists btrfs_orphan_item. split; [|reflexivity]. unfold STRUCTS.
  repeat (first [left; reflexivity|right]).
Qed.
Lemma demo_forest_ok t : tree_ok (demo_forest t).
Proof.
  unfold demo_forest. destruct (t =? 1)%Z; [split; [apply demo_tree_ok|apply demo_tree_ok]|].
  split; [repeat constructor|]. repeat constructor; unfold u; cbn; try lia; try reflexivity; try (split; [discriminate|reflexivity]).
Qed.
(** From the start of the tree, one item per request: the first search finds nothing, because the
    first item is of a type that no shipped struct is for; the three orphans behind it are not
    seen.  So the last theorem is false without its third hypothesis. *)
Theorem C92_paging_reads_the_rest_of_the_tree_refuted :
  ~ (forall E fd forest t d ls, still E fd forest -> tree_ok (forest t) -> pages E fd t d ls ->
     exists before rest, cut_at d (forest t) before rest /\ shown (overflow_checks E) rest (concat ls)).
Proof.
  intros H. destruct (H (forest_env false 1 demo_forest) 3%Z demo_forest 1%Z (0, 0, 0)%Z []) as (b & r & (E & F & _) & S).
  - apply demo_forest_still. discriminate.
  - apply demo_forest_ok.
  - apply pg_end with (e := open_call 1 0 0 0). apply open_found; [lia|lia|lia|lia|vm_compute; reflexivity].
  - destruct b as [|c b].
    + cbn in E. subst r. inversion S as [|h c cs vs Hu Hr|]; subst. inversion Hr as [|h c cs vs Hu2 Hr2|]; subst.
      destruct (demo_orphan_known 5) as (s & Hs & Hk). pose proof (eq_trans (eq_sym Hk) (Hu2 s Hs)). discriminate.
    + injection E as <- _. inversion F; subst. cbn in *. lia.
Qed.
Print Assumptions C92_paging_reads_the_rest_of_the_tree_refuted.

(** From behind that item, one item per request: three searches find one orphan each, the fourth nothing. *)
Example C92_example oc :
  let E := forest_env oc 1 demo_forest in
  still E 3 demo_forest /\ tree_ok (demo_forest 1) /\
  (forall c, In c (demo_forest 1) -> ~ klt (key_of c) (12, 254, 0)%Z -> known_item c) /\
  pages E 3 1 (12, 254, 0)%Z [[the_orphan 5]; [the_orphan 257]; [the_orphan 300]] /\
  (** the program of the third theorem, with x the second of them *)
  snd (eval_expr 20 E (paging_vars (the_orphan 257)) (Some (FsMounted 3))
    (EIndex (again_call 1 (s_ "x")) (EInt 0)) w0) = Ok (the_orphan 257).
Proof.
  cbv zeta. split; [apply demo_forest_still; discriminate|]. split; [apply demo_forest_ok|]. split; [|split].
  - intros c Hc N. unfold demo_forest, demo_tree in Hc. cbn in Hc.
    destruct Hc as [<-|[<-|[<-|[<-|[]]]]]; try apply demo_orphan_known. elim N. cbn. lia.
  - apply (pg_next _ _ _ _ (open_call 1 12 254 0) [] (s_ "btrfs_orphan_item") (2 ^ 64 - 5) 48 5 []);
      [apply open_found; [lia|lia|lia|lia|destruct oc; vm_compute; reflexivity]|].
    apply (pg_next _ _ _ _ (open_call 1 (2 ^ 64 - 5) 48 6) [] (s_ "btrfs_orphan_item") (2 ^ 64 - 5) 48 257 []);
      [apply open_found; [lia|lia|lia|lia|destruct oc; vm_compute; reflexivity]|].
    apply (pg_next _ _ _ _ (open_call 1 (2 ^ 64 - 5) 48 258) [] (s_ "btrfs_orphan_item") (2 ^ 64 - 5) 48 300 []);
      [apply open_found; [lia|lia|lia|lia|destruct oc; vm_compute; reflexivity]|].
    apply pg_end with (e := open_call 1 (2 ^ 64 - 5) 48 301). apply open_found; [lia|lia|lia|lia|destruct oc; vm_compute; reflexivity].
  - destruct oc; vm_compute; reflexivity.
Qed.
