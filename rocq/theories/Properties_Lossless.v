(** C70: nothing in an item is silently dropped. *)
From Verif Require Import Base Structs Definitions Value Lib Spec_Decode Proof_Decode Proof_Decode2 Proof_Lossless Properties_Decode.
From Coq Require Import Lia.
Arguments s_ s%string_scope.

(** Missing: bytes after the part that is read.  Two items of the same kind that are shown
    alike agree in everything that was read: *)
Theorem C70_what_is_shown_determines_what_was_read_partial :
  forall oc s key b b' v, In s STRUCTS -> st_name s <> s_ "btrfs_extent_item" -> st_name s <> s_ "btrfs_file_extent_item" ->
  bytes_ok b -> bytes_ok b' -> from_bytes oc s key b = Ok v -> from_bytes oc s key b' = Ok v ->
  exists read rest rest', b = read ++ rest /\ b' = read ++ rest' /\ exists ms, v = VStruct (st_name s) key ms /\ enc_item [] (st_fields s) ms read.
Proof.
  intros oc s key b b' v Hs N1 N2 Hb Hb' H H'. destruct (shipped_wf s Hs) as [Hwf|[->| ->]]; [|destruct N1; reflexivity|destruct N2; reflexivity].
  pose proof (from_bytes_items oc s key b Hwf Hb) as I. rewrite H in I. destruct I as (ms & bs & rest & -> & -> & He).
  pose proof (from_bytes_items oc s key b' Hwf Hb') as I. rewrite H' in I. destruct I as (ms' & bs' & rest' & Ev & -> & He'). injection Ev as <-.
  pose proof (item_inj _ _ _ _ He _ He') as <-. exists bs, rest, rest'. eauto 8.
Qed.
Print Assumptions C70_what_is_shown_determines_what_was_read_partial.

(** so a fixed-size item of the right length is shown completely *)
Theorem C70_exact_items_are_shown_completely_partial :
  forall oc s key b b' v, fixed_layout (ty_of s) = true -> bytes_ok b -> bytes_ok b' ->
  length b = csize (ty_of s) -> length b' = csize (ty_of s) ->
  from_bytes oc s key b = Ok v -> from_bytes oc s key b' = Ok v -> b = b'.
Proof.
  intros oc s key b b' v Hf Hb Hb' L L' H H'.
  pose proof (struct_fixed oc s key b Hf Hb) as I. rewrite (proj2 (Nat.leb_le _ _) (Nat.eq_le_incl _ _ (eq_sym L))) in I. destruct I as (ms & H1 & He).
  pose proof (struct_fixed oc s key b' Hf Hb') as I. rewrite (proj2 (Nat.leb_le _ _) (Nat.eq_le_incl _ _ (eq_sym L'))) in I. destruct I as (ms' & H1' & He').
  assert (ms = ms') by congruence. subst ms'. pose proof (enc_fields_inj _ _ _ _ He He') as E. rewrite <- L in E at 1. rewrite <- L' in E. rewrite !firstn_all in E. exact E.
Qed.
Print Assumptions C70_exact_items_are_shown_completely_partial.

(** extent items are always shown completely *)
Theorem C70_extent_items_are_shown_completely :
  forall oc key b b' v, bytes_ok b -> bytes_ok b' ->
  from_bytes oc btrfs_extent_item key b = Ok v -> from_bytes oc btrfs_extent_item key b' = Ok v -> b = b'.
Proof.
  intros oc key b b' v Hb Hb' H H'. pose proof (extent_item_good oc key b Hb) as I. rewrite H in I. destruct I as (ms & -> & He).
  pose proof (extent_item_good oc key b' Hb') as I. rewrite H' in I. destruct I as (ms' & Ev & He'). injection Ev as <-. eapply extent_inj; eassumption.
Qed.
Print Assumptions C70_extent_items_are_shown_completely.

(** Refuted: whatever follows the part that is read is ignored, without an error. *)
Theorem C70_extra_bytes_are_ignored_refuted :
  forall oc s key b v extra, In s STRUCTS -> st_name s <> s_ "btrfs_extent_item" -> bytes_ok (b ++ extra) ->
  from_bytes oc s key b = Ok v -> from_bytes oc s key (b ++ extra) = Ok v.
Proof.
  intros oc s key b v extra Hs N1 Hb H.
  assert (Hb0 : bytes_ok b).
  { destruct Hb as [H1 H2]. apply Forall_app in H1. split; [tauto|]. unfold zlen in *. rewrite app_length in H2. lia. }
  destruct (shipped_wf s Hs) as [Hwf|[->| ->]]; [|destruct N1; reflexivity|].
  - pose proof (from_bytes_items oc s key b Hwf Hb0) as I. rewrite H in I. destruct I as (ms & bs & rest & -> & -> & He). rewrite <- app_assoc in *. apply from_bytes_items_ok; assumption.
  - pose proof (file_extent_good oc key b Hb0) as I. rewrite H in I. destruct I as (ms & -> & He).
    destruct (C61_file_extent_items oc key (b ++ extra) Hb) as [HI _]. apply HI. exists ms. split; [reflexivity|].
    destruct He as [hs hb ls lb rest E1 Hd E2|hs hb rest E1 Hd]; rewrite <- !app_assoc; constructor; assumption.
Qed.
Print Assumptions C70_extra_bytes_are_ignored_refuted.

(** For example: an inode with several names in one directory has one INODE_REF item with one
    record per name, one after the other.  Only the first name is shown. *)
Theorem C70_only_the_first_name_is_shown_refuted :
  forall oc key ms1 rec1 ms2 rec2, bytes_ok (rec1 ++ rec2) ->
  enc_item [] (st_fields btrfs_inode_ref) ms1 rec1 -> enc_item [] (st_fields btrfs_inode_ref) ms2 rec2 ->
  from_bytes oc btrfs_inode_ref key (rec1 ++ rec2) = Ok (VStruct (s_ "btrfs_inode_ref") key ms1).
Proof.
  intros oc key ms1 rec1 ms2 rec2 Hb H _. exact (from_bytes_items_ok oc btrfs_inode_ref key ms1 rec1 rec2 ltac:(vm_compute; reflexivity) Hb H).
Qed.
Print Assumptions C70_only_the_first_name_is_shown_refuted.
Definition name_record (index : N) (name : str) : str := index :: repeat 0%N 7 ++ [N.of_nat (length name); 0]%N ++ name.
Example C70_example :
  from_bytes true btrfs_inode_ref None (name_record 2 (s_ "a") ++ name_record 3 (s_ "b")) =
    Ok (VStruct (s_ "btrfs_inode_ref") None [(s_ "index", VInt 2); (s_ "name_len", VInt 1); (s_ "name", VStr (s_ "a"))]) /\
  (exists ms, enc_item [] (st_fields btrfs_inode_ref) ms (name_record 3 (s_ "b"))) /\
  (exists v, from_bytes true btrfs_key None demo_key_bytes = Ok v) /\ fixed_layout (ty_of btrfs_key) = true /\ length demo_key_bytes = csize (ty_of btrfs_key).
Proof.
  split; [vm_compute; reflexivity|]. split; [|split; [eexists; vm_compute; reflexivity|split; reflexivity]].
  assert (Hb : bytes_ok (name_record 3 (s_ "b"))) by (split; [repeat constructor|reflexivity]).
  pose proof (from_bytes_items true btrfs_inode_ref None (name_record 3 (s_ "b")) ltac:(vm_compute; reflexivity) Hb) as I.
  destruct (from_bytes true btrfs_inode_ref None (name_record 3 (s_ "b"))) as [v| | |] eqn:H; [|vm_compute in H; discriminate..].
  destruct I as (ms & bs & rest & -> & E & He). 
  assert (L : length bs = 11).
  { inversion He as [|a0 n0 t0 f0 v0 m0 b0 s0 E1 R1| | |]; subst. inversion R1 as [|a1 n1 t1 f1 v1 m1 b1 s1 E2 R2| | |]; subst. inversion R2 as [| | |a2 n2 l2 f2 m2 s2 bs2 E3 R3|]; subst; [match goal with X : encodes _ _ _ |- _ => inversion X end|].
    inversion R3; subst. vm_compute in H. injection H as _ Hn Hs. apply encodes_len in E1. apply encodes_len in E2. rewrite !app_length, (proj1 E1), (proj1 E2). rewrite <- Hs. reflexivity. }
  exists ms. apply (f_equal (firstn 11)) in E. rewrite (firstn_app_exact _ _ _ (eq_sym L)) in E. change (firstn 11 (name_record 3 (s_ "b"))) with (name_record 3 (s_ "b")) in E. rewrite E. exact He.
Qed.
