(** C86: the references search() makes into the result buffer. *)
From Verif Require Import Base Structs Definitions Value Fs Memory Lib Demo_Search Spec_Search Spec_Memory Proof_Search Proof_Search2 Proof_Memory.
From Coq Require Import Lia.

(** Whatever the kernel answers (any count, any bytes): every header is read inside the
    buffer. *)
Theorem C86_references_stay_inside_the_buffer :
  forall nr buf o, Forall (fun b => (b < 256)%N) buf -> In o (header_refs nr buf 0) -> inside o.
Proof. intros nr buf o HF H. exact (refs_inside nr buf 0 o HF ltac:(lia) H). Qed.
Print Assumptions C86_references_stay_inside_the_buffer.

Lemma merge_first_occurrences all : merge [] all = first_occurrences all.
Proof. reflexivity. Qed.
(** These references are the ones the result is made of: one for each item the kernel
    announced, in order. *)
Theorem C86_the_result_is_what_the_references_read :
  forall oc nr buf items c, Forall (fun b => (b < 256)%N) buf -> extract oc nr buf 0 [] 0 = Ok (items, c) ->
  exists all, Forall2 (begins_at buf) all (header_refs nr buf 0) /\ length all = nr /\ Forall raw_item all /\ items = first_occurrences all.
Proof.
  intros oc nr buf items c HF H. destruct (refs_are_items oc nr buf 0 [] 0 items c HF ltac:(lia) H) as [L M].
  exists (map (item_at buf) (header_refs nr buf 0)). split; [|split; [|split]].
  - clear M H. assert (G : forall l, (forall o, In o l -> In o (header_refs nr buf 0)) -> Forall2 (begins_at buf) (map (item_at buf) l) l).
    { induction l as [|o l IH]; intros Hl; cbn [map]; constructor; [|apply IH; intros; apply Hl; right; assumption]. clear IH.
      apply item_begins; [exact HF|]. apply (refs_inside nr buf 0 o HF ltac:(lia)), Hl. left. reflexivity. }
    apply G. auto.
  - rewrite map_length. exact L.
  - apply Forall_forall. intros x Hx. apply in_map_iff in Hx. destruct Hx as (o & <- & _). apply item_at_raw. exact HF.
  - rewrite <- merge_first_occurrences. exact M.
Qed.
Print Assumptions C86_the_result_is_what_the_references_read.

(** Not every reference is aligned: an honest kernel's answer of an item with a 3-byte
    payload and then others, which search() returns. *)
Theorem C86_references_are_aligned_refuted :
  ~ (forall E fd states k n items base, honest E fd states -> request_ok k ->
       ioctl E n fd k = IoOk (zlen items) (encode_items items) -> Forall item_ok items -> (base mod 8 = 0)%Z ->
       forall o, In o (header_refs (length items) (encode_items items) 0) -> aligned base o).
Proof.
  intros H. destruct demo_tree_ok as (H1 & H2 & H3).
  pose proof (tree_honest false 9 demo_tree 3 ltac:(discriminate) H1 H2 H3) as Hh.
  pose (k := demo_request 255 (2 ^ 64 - 1)).
  assert (Hi : ioctl (tree_env false 9 demo_tree) 0 3 k = IoOk (zlen demo_tree) (encode_items demo_tree)) by (vm_compute; reflexivity).
  assert (Hr : request_ok k) by (unfold request_ok, u; cbn; lia).
  assert (Ho : In 35%Z (header_refs (length demo_tree) (encode_items demo_tree) 0)).
  { assert (R : header_refs (length demo_tree) (encode_items demo_tree) 0 = [0; 35; 67; 99]%Z) by (vm_compute; reflexivity).
    rewrite R. right. left. reflexivity. }
  pose proof (H _ _ _ k 0 demo_tree 0%Z Hh Hr Hi H1 eq_refl 35%Z Ho) as F. discriminate F.
Qed.
Print Assumptions C86_references_are_aligned_refuted.

(** Exactly: all references are aligned when each item that another one follows has a length
    that is a multiple of 8.  The buffer's object is allocated at a multiple of 8. *)
Theorem C86_references_are_aligned_partial :
  forall items junk base, Forall item_ok items -> (zlen (encode_items items) <= MAX_BUF_SIZE)%Z -> (base mod 8 = 0)%Z ->
  ((forall o, In o (header_refs (length items) (encode_items items ++ junk) 0) -> aligned base o) <-> lengths_keep_alignment items).
Proof.
  intros items junk base HF Hsz Hb. pose proof (refs_of_items items [] junk HF Hsz) as R. cbn [app length Z.of_nat] in R. rewrite R.
  assert (A : forall o, aligned base o <-> (o mod 8 = 0)%Z).
  { intros o. unfold aligned. rewrite <- Z.add_mod_idemp_l by lia. rewrite <- (Z.add_mod_idemp_l base) by lia. rewrite Hb.
    change ((0 + 112) mod 8)%Z with 0%Z. reflexivity. }
  transitivity (forall o, In o (starts 0 items) -> (o mod 8 = 0)%Z).
  { split; intros H o Ho; apply A, H; exact Ho. }
  rewrite (starts_aligned items 0 eq_refl). unfold last_only, lengths_keep_alignment. split; intros H pre c c' post He.
  - specialize (H pre c c' post He). rewrite Forall_forall in HF. destruct (HF c) as (_ & _ & _ & _ & _ & Hl & _); [rewrite He; apply in_or_app; right; left; reflexivity|]. rewrite <- Hl. exact H.
  - specialize (H pre c c' post He). rewrite Forall_forall in HF. destruct (HF c) as (_ & _ & _ & _ & _ & Hl & _); [rewrite He; apply in_or_app; right; left; reflexivity|]. rewrite Hl. exact H.
Qed.
Print Assumptions C86_references_are_aligned_partial.

(** the two layouts agree: the model's field offset is the specification's 112 *)
Example C86_buffer_offset : buf_field = 112%Z /\ header_size = 32%Z /\ header_align = 8%Z.
Proof. auto. Qed.
Example C86_example :
  header_refs 4 (encode_items demo_tree) 0 = [0; 35; 67; 99]%Z /\ aligned 0 0 /\ ~ aligned 0 35 /\
  header_refs 2 (encode_items [orphan 5; orphan 257]) 0 = [0; 32]%Z /\ lengths_keep_alignment [orphan 5; orphan 257] /\
  header_refs 9 (repeat 255%N 40) 0 = [0]%Z.
Proof.
  split; [vm_compute; reflexivity|]. split; [reflexivity|]. split; [discriminate|]. split; [vm_compute; reflexivity|]. split; [|vm_compute; reflexivity].
  intros pre c c' post H. destruct pre as [|p [|p' pre]]; [injection H as <- _ _; reflexivity|discriminate H|].
  destruct pre; discriminate H.
Qed.
