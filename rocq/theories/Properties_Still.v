(** C75: searching a filesystem that does not change is a function of the key, and agrees with
    itself on parts of the key range. *)
From Verif Require Import Base Structs Value Variables Fs Ast Eval Lib Demo Demo_Search Spec_Decode Spec_Search Proof_Search Proof_Search2 Properties_Search Spec_Still Proof_Still.
From Coq Require Import Sorted Lia.
Arguments s_ s%string_scope.

(** A bounded search returns exactly the items of the requested tree in the requested range, by
    ascending key, each decoded. *)
Theorem C75_search_selects_exactly_the_range :
  forall E fd forest e k l, still E fd forest -> bounded k -> finds E fd e k l ->
  exists sel, selection (forest (sk_tree k)) k sel /\ shown (overflow_checks E) sel l.
Proof.
  intros E fd forest e k l HE Hb (K & vs & w & tree & key & flds & w2 & w' & Hc & Hk & Hr & H).
  destruct (C35_bounded_search_is_complete K E vs fd _ e w tree key flds k w2 w' _ HE Hc Hk Hr Hb H) as (items & l' & Hv & Hs & H1 & H2 & H3).
  injection Hv as <-. exists items. split; [|exact Hs]. split; [exact H1|]. intros c. split.
  - intros Hi. destruct (H2 c Hi) as (Hi' & n & st & _ & -> & Hin). auto.
  - intros [Hin Hi]. apply H3; [exact Hi|]. intros n st _ ->. exact Hin.
Qed.
Print Assumptions C75_search_selects_exactly_the_range.

(** So two searches for the same range give equal arrays, whatever the program around them, the
    time, and the way the kernel splits its answers - even on two different machines. *)
Theorem C75_search_is_repeatable :
  forall E1 fd1 e1 E2 fd2 e2 forest k l1 l2, overflow_checks E1 = overflow_checks E2 ->
  still E1 fd1 forest -> still E2 fd2 forest -> bounded k ->
  finds E1 fd1 e1 k l1 -> finds E2 fd2 e2 k l2 -> l1 = l2.
Proof.
  intros E1 fd1 e1 E2 fd2 e2 forest k l1 l2 Ho H1 H2 Hb F1 F2.
  destruct (C75_search_selects_exactly_the_range _ _ _ _ _ _ H1 Hb F1) as (s1 & S1 & W1).
  destruct (C75_search_selects_exactly_the_range _ _ _ _ _ _ H2 Hb F2) as (s2 & S2 & W2).
  rewrite (selection_fun _ _ _ _ S1 S2), Ho in W1. exact (shown_fun _ _ _ _ W1 W2).
Qed.
Print Assumptions C75_search_is_repeatable.

(** A search for part of the range gives part of the array, in the same order. *)
Theorem C75_narrower_searches_find_less :
  forall E fd forest e e1 k k1 l l1, still E fd forest -> bounded k -> bounded k1 -> narrower k1 k ->
  finds E fd e k l -> finds E fd e1 k1 l1 -> sublist l1 l.
Proof.
  intros E fd forest e e1 k k1 l l1 HE Hb Hb1 Hn F F1.
  destruct (C75_search_selects_exactly_the_range _ _ _ _ _ _ HE Hb F) as (s & [S I] & W).
  destruct (C75_search_selects_exactly_the_range _ _ _ _ _ _ HE Hb1 F1) as (s1 & [S1 I1] & W1).
  refine (shown_sub _ _ _ (sorted_sub _ _ S1 S _) _ _ W1 W). intros c Hc. apply I1 in Hc. destruct Hn as (Ht & Hn). rewrite Ht in Hc.
  apply I. split; [tauto|]. apply (narrower_range k1 k); [split; [exact Ht|exact Hn]|tauto].
Qed.
Print Assumptions C75_narrower_searches_find_less.

(** Searching the two halves of a range and joining the arrays is searching the range. *)
Theorem C75_split_searches_join :
  forall E fd forest e e1 e2 k k1 k2 l l1 l2, still E fd forest -> bounded k -> bounded k1 -> bounded k2 ->
  cut (forest (sk_tree k)) k k1 k2 ->
  finds E fd e k l -> finds E fd e1 k1 l1 -> finds E fd e2 k2 l2 -> l = l1 ++ l2.
Proof.
  intros E fd forest e e1 e2 k k1 k2 l l1 l2 HE Hb Hb1 Hb2 Hc F F1 F2.
  destruct (C75_search_selects_exactly_the_range _ _ _ _ _ _ HE Hb F) as (s & S & W).
  destruct (C75_search_selects_exactly_the_range _ _ _ _ _ _ HE Hb1 F1) as (s1 & S1 & W1).
  destruct (C75_search_selects_exactly_the_range _ _ _ _ _ _ HE Hb2 F2) as (s2 & S2 & W2).
  pose proof Hc as ((E1 & E2) & _). rewrite E1 in S1. rewrite E2 in S2.
  rewrite (cut_selection _ _ _ _ _ _ _ Hc S S1 S2) in W. apply shown_app in W. destruct W as (la & lb & -> & A & B).
  rewrite (shown_fun _ _ _ _ A W1), (shown_fun _ _ _ _ B W2). reflexivity.
Qed.
Print Assumptions C75_split_searches_join.

(** ** Examples *)
(** tree 1 has the four items of demo_tree, the others only one *)
Definition demo_forest (t : Z) : list chunk := if (t =? 1)%Z then demo_tree else [orphan 42].
Lemma demo_forest_still oc m fd : m <> 0 -> still (forest_env oc m demo_forest) fd demo_forest.
Proof.
  intros Hm. apply forest_honest; [exact Hm|]. intros t. unfold demo_forest. destruct (t =? 1)%Z; [exact demo_tree_ok|].
  split; [|split].
  - repeat constructor; unfold u; cbn; try lia; try reflexivity; try (split; [discriminate|reflexivity]).
  - repeat constructor; cbn; lia.
  - vm_compute. discriminate.
Qed.
Definition range_call (tree : Z) : expr := ECall (EIdent (s_ "search")) [EInt tree; EIdent (s_ "k")].
Definition range_vars (min_off max_off : Z) : vars value :=
  [[(s_ "search", VFun FSearch); (s_ "k", VStruct (s_ "_btrfs_ioctl_search_key") None
    [(s_ "min_objectid", VInt (2 ^ 64 - 5)); (s_ "max_objectid", VInt (2 ^ 64 - 5)); (s_ "min_type", VInt 48); (s_ "max_type", VInt 48);
     (s_ "min_offset", VInt min_off); (s_ "max_offset", VInt max_off); (s_ "min_transid", VInt 0); (s_ "max_transid", VInt (2 ^ 64 - 1))])]].
Definition range_request (tree min_off max_off : Z) : skey := mk_skey tree (2 ^ 64 - 5) (2 ^ 64 - 5) 48 48 min_off max_off 0 (2 ^ 64 - 1).
Definition found (l : list Z) : list value :=
  map (fun f => VStruct (s_ "btrfs_orphan_item") (Some (2 ^ 64 - 5, 48, f)%Z) []) l.
Lemma demo_finds oc m tree min_off max_off l : (0 <= tree < 2 ^ 64)%Z -> (0 <= min_off < 2 ^ 64)%Z -> (0 <= max_off < 2 ^ 64)%Z ->
  snd (eval_expr 10 (forest_env oc m demo_forest) (range_vars min_off max_off) (Some (FsMounted 3)) (range_call tree) w0) = Ok (VArr l false) ->
  finds (forest_env oc m demo_forest) 3 (range_call tree) (range_request tree min_off max_off) l.
Proof.
  intros Ht Hmin Hmax H. eexists 10, (range_vars min_off max_off), w0, tree, _, _, w0, _. split; [|split; [|split]].
  - eexists _, _, _, w0, w0. split; [reflexivity|]. split; [reflexivity|]. split; reflexivity.
  - eexists. reflexivity.
  - unfold requested, request_ok, key_field, u. cbn [sk_tree sk_min_objectid sk_max_objectid sk_min_type sk_max_type sk_min_offset sk_max_offset sk_min_transid sk_max_transid range_request].
    repeat split; try reflexivity; try discriminate; try tauto.
  - rewrite <- H. apply surjective_pairing.
Qed.
(** offsets 0..400 cut in two, handed out one or two items per request; another tree is not mixed in *)
Example C75_example oc :
  let k := range_request 1 0 400 in let k1 := range_request 1 0 260 in let k2 := range_request 1 261 400 in
  still (forest_env oc 1 demo_forest) 3 demo_forest /\ still (forest_env oc 2 demo_forest) 3 demo_forest /\
  (bounded k /\ bounded k1 /\ bounded k2) /\ cut (demo_forest 1) k k1 k2 /\ narrower k1 k /\
  finds (forest_env oc 1 demo_forest) 3 (range_call 1) k (found [5; 257; 300]%Z) /\
  finds (forest_env oc 2 demo_forest) 3 (range_call 1) k (found [5; 257; 300]%Z) /\
  finds (forest_env oc 1 demo_forest) 3 (range_call 1) k1 (found [5; 257]%Z) /\
  finds (forest_env oc 1 demo_forest) 3 (range_call 1) k2 (found [300]%Z) /\
  finds (forest_env oc 1 demo_forest) 3 (range_call 5) (range_request 5 0 400) (found [42]%Z).
Proof.
  cbv zeta. split; [apply demo_forest_still; discriminate|]. split; [apply demo_forest_still; discriminate|].
  split; [unfold bounded; cbn; repeat split; lia|]. split.
  { split; [split; reflexivity|]. split; [split; reflexivity|]. split; [cbn; lia|]. split; [|split; split; reflexivity].
    intros c Hc. unfold demo_forest, demo_tree in Hc. cbn in Hc. destruct Hc as [<-|[<-|[<-|[<-|[]]]]]; cbn; lia. }
  split; [unfold narrower; cbn; repeat split; try lia|].
  repeat (split; [apply demo_finds; [lia|lia|lia|destruct oc; vm_compute; reflexivity]|]).
  apply demo_finds; [lia|lia|lia|destruct oc; vm_compute; reflexivity].
Qed.
