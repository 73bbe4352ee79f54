(** C76: the scripts shipped with the debugger compute what they are for. *)
From Verif Require Import Base Ast Pom Parse Structs Definitions Value Variables Semantics Fs Eval Runtime Input Main Lib Spec_Vars Spec_Decode Spec_Search Spec_Hist Spec_Run Spec_Lang Spec_Exec Spec_Layout Spec_Still Spec_Scripts
  Proof_Vars Proof_Decode Proof_Search Proof_Search2 Proof_Run Proof_Exec Proof_Still Demo_Search Proof_Scripts2 Proof_Scripts5 Proof_Scripts6 Proof_Scripts7.
Import Spec_Search.
From Coq Require Import Sorted Lia.
Arguments s_ s%string_scope.

(** scripts/block_group_dist.btrd, on any unchanging filesystem mounted at /mnt/btrfs with a
    well-formed extent tree (number 2): it succeeds, and prints the histogram of the usage of all
    data block groups and the histogram of all gaps between their extents. *)
Theorem C76_block_group_dist :
  forall E fd forest, still E fd forest -> (forall n k, ioctl E n fd k <> IoErr) ->
  (forall n, open_path E n (s_ "/mnt/btrfs") = OpDir fd (Some 0x9123683E%Z)) -> (forall n t, sink E n t = SkOk) ->
  extent_tree (overflow_checks E) (forest 2%Z) ->
  exists ut ft n0, histogram (usage (forest 2%Z)) ut /\ histogram (free_space (forest 2%Z)) ft /\
    forall n, n0 <= n -> exists r, script n E (Some block_group_dist) = (Some r, ExSuccess) /\
      w_out (e_w (r_eval r)) =
        s_ "block group usage:" ++ [10%N] ++ s_ "------------------" ++ [10%N] ++ ut ++ [10%N] ++ [10%N] ++
        s_ "extent free space:" ++ [10%N] ++ s_ "------------------" ++ [10%N] ++ ft ++ [10%N].
Proof.
  intros E fd forest HE Hno Hopen Hs HT. destruct (bgd_runs E false fd forest HE Hno HT Hopen Hs) as (ut & ft & s' & Hu & Hf & Hx & Ho).
  destruct analyze_bgd as [sem Ha]. apply exec_list_iff in Hx. destruct Hx as (i & [Hi [n0 Hn]] & Hq). exists ut, ft, n0. split; [exact Hu|]. split; [exact Hf|].
  intros n Hle. exists (mk_rt sem s'). split; [|exact Ho]. unfold script, rt_eval. rewrite parse_bgd. cbn [rt_new r_sem r_eval]. rewrite Ha. unfold eval_prog.
  rewrite (run_list_up E false n0 n _ _ _ _ Hn Hi Hle). destruct i; try discriminate Hq. reflexivity.
Qed.
Print Assumptions C76_block_group_dist.

(** scripts/example.btrd asks tree 1 for everything from key (4, 132, 0) on, and prints the first three
    of the items the kernel's first answer shows; that answer is the beginning of what is there
    (no upper bound, so there is no second request: see C36). *)
Theorem C76_example_script :
  forall E fd forest, still E fd forest -> (forall n k, ioctl E n fd k <> IoErr) ->
  (forall n, open_path E n (s_ "/mnt/btrfs") = OpDir fd (Some 0x9123683E%Z)) -> (forall n t, sink E n t = SkOk) ->
  StronglySorted klt (map key_of (forest 1%Z)) ->
  (forall c, In c (forest 1%Z) -> item_ok c /\ exists l, shown (overflow_checks E) [c] l) ->
  exists sel items rest l n0,
    selection (forest 1%Z) (mk_skey 1 4 (2 ^ 64 - 1) 132 255 0 (2 ^ 64 - 1) 0 (2 ^ 64 - 1)) sel /\ sel = items ++ rest /\ (rest <> [] -> items <> []) /\
    shown (overflow_checks E) items l /\
    forall n, n0 <= n -> exists r, script n E (Some example_script) = (Some r, ExSuccess) /\
      w_out (e_w (r_eval r)) = flat_map (fun v => display v ++ [10%N]) (firstn 3 l).
Proof.
  intros E fd forest HE Hno Hopen Hs HS HI. destruct (exs_runs E false fd forest HE Hno HS HI Hopen Hs) as (items & rest & l & s' & Hsel & Hne & Hl & Hx & Ho).
  destruct analyze_exs as [sem Ha]. apply exec_list_iff in Hx. destruct Hx as (i & [Hi [n0 Hn]] & Hq). exists (filter (in_rangeb kx) (forest 1%Z)), items, rest, l, n0.
  split; [split; [apply sorted_map_filter; exact HS|]; intros c; rewrite filter_In, in_rangeb_spec; reflexivity|]. split; [exact Hsel|]. split; [exact Hne|]. split; [exact Hl|].
  intros n Hle. exists (mk_rt sem s'). split; [|exact Ho]. unfold script, rt_eval. rewrite parse_exs. cbn [rt_new r_sem r_eval]. rewrite Ha. unfold eval_prog.
  rewrite (run_list_up E false n0 n _ _ _ _ Hn Hi Hle). destruct i; try discriminate Hq. reflexivity.
Qed.
Print Assumptions C76_example_script.

(** A filesystem: a data block group [1000, 5000) with three extents, half used, another kind of
    block group, and a second data group; root items in tree 1.  The kernel hands out two items at a time. *)
Definition group (start len used flags : Z) : chunk := (mk_header 7 start len 192 24, le_bytes 8 used ++ le_bytes 8 256 ++ le_bytes 8 flags).
Definition extent (start len : Z) : chunk := (mk_header 7 start len 168 24, le_bytes 8 1 ++ le_bytes 8 7 ++ le_bytes 8 0).
Definition demo_extents : list chunk :=
  [extent 1000 500; group 1000 4000 2000 1; extent 1700 300; extent 4000 1000; group 5000 3000 100 4; extent 9000 10; group 9000 200 10 5; extent 9100 7].
Definition demo_roots : list chunk := [orphan 5; orphan 257; orphan 300; orphan 301].
Definition demo_forest (t : Z) : list chunk := if (t =? 2)%Z then demo_extents else if (t =? 1)%Z then demo_roots else [].
Definition mounted : env :=
  mk_env true (ioctl (forest_env true 2 demo_forest)) (fun _ _ => OpDir 3 (Some 0x9123683E%Z)) (fun _ _ => SkOk) None.

Lemma decodes c : match snd (decode_chunks true [c] (mk_world [] [])) with Ok _ => true | _ => false end = true -> exists l, shown true [c] l.
Proof.
  intros H. destruct (decode_chunks true [c] (mk_world [] [])) as [w' r] eqn:Hd. cbn [snd] in H. destruct r as [l| | |]; try discriminate H.
  exists l. exact (proj1 (decode_chunks_shown true [c] _ _ _ Hd)).
Qed.
Lemma demo_shown : (forall c, In c demo_extents -> exists l, shown true [c] l) /\ (forall c, In c demo_roots -> exists l, shown true [c] l).
Proof.
  split; intros c H; repeat (destruct H as [<-|H]; [apply decodes; vm_compute; reflexivity|]); destruct H.
Qed.
Lemma demo_items : Forall item_ok demo_extents /\ Forall item_ok demo_roots.
Proof. split; repeat constructor; unfold u; cbn; try lia; try reflexivity; try (split; [discriminate|reflexivity]). Qed.
Lemma demo_sorted : StronglySorted klt (map key_of demo_extents) /\ StronglySorted klt (map key_of demo_roots).
Proof.
  split; unfold demo_extents, demo_roots, group, extent, orphan; cbn [map key_of fst h_objectid h_type h_offset];
    repeat (apply SSorted_cons || apply SSorted_nil || apply Forall_cons || apply Forall_nil); unfold klt, key_of; cbn [fst h_objectid h_type h_offset]; lia.
Qed.
Lemma demo_still : still mounted 3 demo_forest.
Proof.
  apply (forest_honest true 2 demo_forest 3); [discriminate|]. intros t. unfold demo_forest.
  destruct (t =? 2)%Z; [|destruct (t =? 1)%Z].
  - split; [apply demo_items|]. split; [apply demo_sorted|]. vm_compute. discriminate.
  - split; [apply demo_items|]. split; [apply demo_sorted|]. vm_compute. discriminate.
  - split; [constructor|]. split; [constructor|]. vm_compute. discriminate.
Qed.
Lemma demo_extent_tree : extent_tree true demo_extents.
Proof.
  split; [apply demo_sorted|]. split.
  - intros c Hc. split; [apply (proj1 (Forall_forall _ _) (proj1 demo_items)); exact Hc|]. split; [apply (proj1 demo_shown); exact Hc|].
    repeat (destruct Hc as [<-|Hc]; [vm_compute; discriminate|]). destruct Hc.
  - intros c Hc Hd. repeat (destruct Hc as [<-|Hc]; [first [vm_compute in Hd; discriminate Hd|split; [reflexivity|vm_compute; discriminate]]|]). destruct Hc.
Qed.
(** usage 50 and 5 percent; gaps [1500, 1700), [2000, 4000) and [9010, 9100).  The text is what the program prints. *)
Example C76_example_groups :
  usage demo_extents = [50; 5]%Z /\ free_space demo_extents = [200; 2000; 90]%Z /\
  (exists ut ft n0, histogram [50; 5]%Z ut /\ histogram [200; 2000; 90]%Z ft /\
    forall n, n0 <= n -> exists r, script n mounted (Some block_group_dist) = (Some r, ExSuccess) /\
      w_out (e_w (r_eval r)) =
        s_ "block group usage:" ++ [10%N] ++ s_ "------------------" ++ [10%N] ++ ut ++ [10%N] ++ [10%N] ++
        s_ "extent free space:" ++ [10%N] ++ s_ "------------------" ++ [10%N] ++ ft ++ [10%N]) /\
  match script 500 mounted (Some block_group_dist) with (Some r, ExSuccess) => w_out (e_w (r_eval r)) | _ => [] end = s_ "block group usage:
------------------
[4, 8)                1 |@@@@@@@@@@@@@@@@@@@@@@@@@                         |
[8, 16)               0 |                                                  |
[16, 32)              0 |                                                  |
[32, 64)              1 |@@@@@@@@@@@@@@@@@@@@@@@@@                         |


extent free space:
------------------
[64, 128)             1 |@@@@@@@@@@@@@@@@                                  |
[128, 256)            1 |@@@@@@@@@@@@@@@@                                  |
[256, 512)            0 |                                                  |
[512, 1K)             0 |                                                  |
[1K, 2K)              1 |@@@@@@@@@@@@@@@@                                  |

".
Proof.
  split; [reflexivity|]. split; [reflexivity|]. split.
  - apply (C76_block_group_dist mounted 3 demo_forest demo_still); [discriminate|reflexivity|reflexivity|exact demo_extent_tree].
  - vm_compute. reflexivity.
Qed.
Example C76_example_roots :
  exists sel items rest l n0,
    selection demo_roots (mk_skey 1 4 (2 ^ 64 - 1) 132 255 0 (2 ^ 64 - 1) 0 (2 ^ 64 - 1)) sel /\ sel = items ++ rest /\ (rest <> [] -> items <> []) /\
    shown true items l /\
    forall n, n0 <= n -> exists r, script n mounted (Some example_script) = (Some r, ExSuccess) /\
      w_out (e_w (r_eval r)) = flat_map (fun v => display v ++ [10%N]) (firstn 3 l).
Proof.
  apply (C76_example_script mounted 3 demo_forest demo_still); [discriminate|reflexivity|reflexivity|apply demo_sorted|].
  intros c Hc. split; [apply (proj1 (Forall_forall _ _) (proj2 demo_items)); exact Hc|apply (proj2 demo_shown); exact Hc].
Qed.
