(** C86: the references made to item headers. *)
From Verif Require Import Base Structs Value Fs Memory Lib Spec_Decode Proof_Decode Spec_Search Spec_Memory Proof_Search Proof_Search2.
From Coq Require Import Lia.

Lemma header_size_eq : header_size = 32%Z. Proof. reflexivity. Qed.

Lemma refs_inside : forall nr buf off o, Forall (fun b => (b < 256)%N) buf -> (0 <= off)%Z -> In o (header_refs nr buf off) ->
  (0 <= o /\ o + 32 <= MAX_BUF_SIZE)%Z.
Proof.
  induction nr as [|nr IH]; intros buf off o HF Hoff Hin; cbn [header_refs] in Hin; [destruct Hin|].
  rewrite header_size_eq in Hin. destruct (Z.leb_spec (32 + off) MAX_BUF_SIZE) as [H|H]; [|destruct Hin].
  cbv zeta in Hin. destruct Hin as [<-|Hin]; [lia|].
  destruct (Z.leb_spec (h_len (header_of (buf_read buf off 32)) + (off + 32)) MAX_BUF_SIZE) as [H2|H2]; [|destruct Hin].
  refine (IH buf _ o HF _ Hin).
  assert (Lh : length (buf_read buf off 32) = 32) by apply buf_read_len.
  destruct (header_widths _ Lh (buf_read_ok _ _ _ HF)) as (_ & _ & _ & _ & W5). destruct W5. lia.
Qed.

Definition item_at (buf : str) (o : Z) : chunk :=
  let h := header_of (buf_read buf o 32) in (h, buf_read buf (o + 32) (h_len h)).

Lemma refs_are_items oc : forall nr buf off ret coll ret' coll', Forall (fun b => (b < 256)%N) buf -> (0 <= off)%Z ->
  extract oc nr buf off ret coll = Ok (ret', coll') ->
  length (header_refs nr buf off) = nr /\ ret' = merge ret (map (item_at buf) (header_refs nr buf off)).
Proof.
  induction nr as [|nr IH]; intros buf off ret coll ret' coll' HF Hoff H; cbn [extract header_refs] in *.
  - injection H as <- <-. split; reflexivity.
  - rewrite header_size_eq. unfold ensure in H at 1. destruct (Z.leb_spec (32 + off) MAX_BUF_SIZE) as [H1|H1]; cbn [bind] in H; [|discriminate].
    unfold buf_slice in H at 1. rewrite (proj2 (Z.leb_le 0 off)), (proj2 (Z.leb_le _ _)) in H by lia. cbn [andb bind] in H. cbv zeta.
    assert (Lh : length (buf_read buf off 32) = 32) by apply buf_read_len.
    destruct (header_widths _ Lh (buf_read_ok _ _ _ HF)) as (_ & _ & _ & _ & W5).
    set (h := header_of (buf_read buf off 32)) in *. destruct W5 as [W5 _].
    unfold ensure in H at 1. destruct (Z.leb_spec (h_len h + (off + 32)) MAX_BUF_SIZE) as [H2|H2]; cbn [bind] in H; [|discriminate].
    unfold buf_slice in H. rewrite (proj2 (Z.leb_le 0 (off + 32))), (proj2 (Z.leb_le _ _)) in H by lia. cbn [andb bind] in H.
    cbn [length map merge fold_left]. change (item_at buf off) with (h, buf_read buf (off + 32) (h_len h)). cbn [fst].
    destruct (existsb (fun c => header_eqb (fst c) h) ret).
    + destruct (i32_incr oc coll) as [c1| | |]; cbn [bind] in H; try discriminate.
      destruct (IH buf (off + 32 + h_len h)%Z ret c1 ret' coll' HF ltac:(lia) H) as [L M]. split; [f_equal; exact L|exact M].
    + destruct (IH buf (off + 32 + h_len h)%Z (ret ++ [(h, buf_read buf (off + 32) (h_len h))]) coll ret' coll' HF ltac:(lia) H) as [L M].
      split; [f_equal; exact L|exact M].
Qed.

(** where the headers of well-formed items are *)
Fixpoint starts (off : Z) (items : list chunk) : list Z :=
  match items with [] => [] | c :: r => off :: starts (off + 32 + h_len (fst c)) r end.
Lemma buf_read_of buf off n r : buf_slice buf off n = Ok r -> buf_read buf off n = r.
Proof. unfold buf_slice. destruct (_ && _); congruence. Qed.
Lemma refs_of_items : forall items pre post, Forall item_ok items -> (zlen (pre ++ encode_items items) <= MAX_BUF_SIZE)%Z ->
  header_refs (length items) (pre ++ encode_items items ++ post) (Z.of_nat (length pre)) = starts (Z.of_nat (length pre)) items.
Proof.
  induction items as [|c items IH]; intros pre post HF Hsz; [reflexivity|].
  inversion HF as [|? ? Hc HF']; subst. cbn [encode_items flat_map] in Hsz |- *. fold (encode_items items) in Hsz |- *.
  pose proof (encode_item_len c Hc) as Hlen.
  assert (Hlc : (0 <= h_len (fst c))%Z) by (destruct Hc as (_ & _ & _ & _ & [? ?] & _); lia).
  assert (Hsz' : (Z.of_nat (length pre) + (32 + h_len (fst c)) + zlen (encode_items items) <= MAX_BUF_SIZE)%Z).
  { unfold zlen in *. rewrite !app_length in Hsz. lia. }
  assert (Hpos : (0 <= zlen (encode_items items))%Z) by (unfold zlen; lia).
  rewrite <- app_assoc. cbn [header_refs length starts]. rewrite header_size_eq.
  rewrite (proj2 (Z.leb_le (32 + Z.of_nat (length pre)) _)) by lia. cbv zeta.
  assert (Hh : buf_read (pre ++ encode_item c ++ encode_items items ++ post) (Z.of_nat (length pre)) 32 = encode_header (fst c)).
  { apply buf_read_of. rewrite encode_item_split, <- app_assoc. apply buf_slice_app; [rewrite encode_header_len; reflexivity|lia]. }
  rewrite Hh, (header_of_ok c Hc). rewrite (proj2 (Z.leb_le _ _)) by lia. f_equal.
  replace (Z.of_nat (length pre) + 32 + h_len (fst c))%Z with (Z.of_nat (length (pre ++ encode_item c))) by (rewrite app_length; unfold zlen in Hlen; lia).
  rewrite <- (IH (pre ++ encode_item c) post); [rewrite <- app_assoc; reflexivity|exact HF'|]. unfold zlen in *. rewrite !app_length in *. lia.
Qed.

(** the headers are aligned when every item but the last has a length that is a multiple of 8 *)
Definition last_only (items : list chunk) : Prop :=
  forall pre c c' post, items = pre ++ c :: c' :: post -> (h_len (fst c) mod 8 = 0)%Z.
Lemma starts_aligned : forall items off, (off mod 8 = 0)%Z ->
  ((forall o, In o (starts off items) -> (o mod 8 = 0)%Z) <-> last_only items).
Proof.
  induction items as [|c items IH]; intros off Hoff.
  - split; [intros _ pre c c' post H; destruct pre; discriminate|intros _ o []].
  - assert (Hm : ((off + 32 + h_len (fst c)) mod 8 = 0 <-> h_len (fst c) mod 8 = 0)%Z).
    { rewrite <- Z.add_mod_idemp_l by lia. rewrite <- (Z.add_mod_idemp_l off) by lia. rewrite Hoff. rewrite Z.add_mod_idemp_l by lia.
      change (0 + 32)%Z with (4 * 8)%Z. rewrite Z.add_comm, Z.mod_add by lia. reflexivity. }
    cbn [starts]. split.
    + intros H pre d d' post E. destruct items as [|c2 items]; [destruct pre as [|? [|? ?]]; discriminate|].
      assert (Hc : (h_len (fst c) mod 8 = 0)%Z) by (apply Hm, H; right; left; reflexivity).
      destruct pre as [|p pre]; injection E as E1 E2; [subst; exact Hc|].
      apply (proj1 (IH (off + 32 + h_len (fst c))%Z (proj2 Hm Hc)) (fun o Ho => H o (or_intror Ho)) pre d d' post E2).
    + intros H o [<-|Ho]; [exact Hoff|]. destruct items as [|c2 items]; [destruct Ho|].
      refine (proj2 (IH (off + 32 + h_len (fst c))%Z (proj2 Hm (H [] c c2 items eq_refl))) _ o Ho).
      intros pre d d' post E. apply (H (c :: pre) d d' post). cbn [app]. f_equal. exact E.
Qed.

Lemma item_at_raw buf o : Forall (fun b => (b < 256)%N) buf -> raw_item (item_at buf o).
Proof.
  intros HF. assert (Lh : length (buf_read buf o 32) = 32) by apply buf_read_len.
  destruct (header_widths _ Lh (buf_read_ok _ _ _ HF)) as (W1 & W2 & W3 & W4 & W5). unfold raw_item, item_at. cbv zeta. cbn [fst snd].
  repeat split; try apply W1; try apply W2; try apply W3; try apply W4; try apply W5.
  - unfold zlen. rewrite buf_read_len. destruct W5. lia.
  - apply buf_read_ok. exact HF.
Qed.
Lemma item_begins buf o : Forall (fun b => (b < 256)%N) buf -> (0 <= o)%Z -> begins_at buf (item_at buf o) o.
Proof.
  intros HF Ho i Hi. assert (Lh : length (buf_read buf o 32) = 32) by apply buf_read_len.
  destruct (header_widths _ Lh (buf_read_ok _ _ _ HF)) as (_ & _ & _ & _ & W5). destruct W5 as [W5 _].
  assert (He : encode_item (item_at buf o) = buf_read buf o (32 + h_len (header_of (buf_read buf o 32)))).
  { rewrite encode_item_split. unfold item_at. cbv zeta. cbn [fst snd]. rewrite (header_bytes _ Lh (buf_read_ok _ _ _ HF)).
    rewrite buf_read_plus by lia. reflexivity. }
  rewrite He in Hi |- *. rewrite buf_read_len in Hi. rewrite buf_read_nth.
  rewrite (nth_indep _ 0%N (nth (Z.to_nat o + 0) buf 0%N)) by (rewrite map_length, seq_length; exact Hi).
  rewrite (map_nth (fun i => nth (Z.to_nat o + i) buf 0%N)), seq_nth by exact Hi. reflexivity.
Qed.
