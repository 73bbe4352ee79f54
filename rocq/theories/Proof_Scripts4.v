(** C76: scripts/block_group_dist.btrd, the loops. *)
From Verif Require Import Base Ast Pom Parse Structs Definitions Value Variables Semantics Fs Eval Runtime Input Main Lib Spec_Vars Spec_Decode Spec_Search Spec_Hist Spec_Run Spec_Lang Spec_Exec Spec_Layout Spec_Still Spec_Scripts
  Proof_Vars Proof_Decode Proof_Decode2 Proof_Search Proof_Search2 Proof_Run Proof_Hist Proof_Lang Proof_Exec Proof_Layout Proof_Still Proof_Access Demo_Search Proof_Scripts Proof_Scripts2 Proof_Scripts3.
Import Spec_Search.
From Coq Require Import Sorted Lia.
Arguments s_ s%string_scope.

(** ** The items a search shows *)
Lemma first_match_fun {T} (pre : list T) s post pre' s' post' (p : _ -> bool) : pre ++ s :: post = pre' ++ s' :: post' ->
  (forall x, In x pre -> p x = false) -> (forall x, In x pre' -> p x = false) -> p s = true -> p s' = true -> s = s'.
Proof.
  revert pre'. induction pre as [|a pre IH]; intros [|a' pre'] HE HP HP' Hs Hs'; cbn in HE; injection HE as -> HE.
  - reflexivity.
  - rewrite (HP' a' (or_introl eq_refl)) in Hs. discriminate.
  - rewrite (HP s' (or_introl eq_refl)) in Hs'. discriminate.
  - eapply IH; [exact HE|intros x Hx; apply HP; right; exact Hx|intros x Hx; apply HP'; right; exact Hx|exact Hs|exact Hs'].
Qed.
Lemma item_bytes c : item_ok c -> bytes_ok (snd c).
Proof.
  intros (_ & _ & _ & _ & [_ Hl] & Hlen & HFb). split; [exact HFb|]. rewrite <- Hlen.
  assert (2 ^ 32 < 2 ^ 63)%Z by reflexivity. lia.
Qed.
Lemma unsigned_num w off bytes v : unsigned_at w off bytes v -> v = VInt (num (firstn w (skipn off bytes))) /\ (0 <= num (firstn w (skipn off bytes)) < 2 ^ (8 * Z.of_nat w))%Z.
Proof. intros (z & -> & Hz & _ & He). rewrite <- He, num_le by exact Hz. split; [reflexivity|exact Hz]. Qed.
Lemma group_members c s key ms oc : item_ok c -> In s STRUCTS -> st_name s = s_ "btrfs_block_group_item" ->
  from_bytes oc s key (snd c) = Ok (VStruct (st_name s) key ms) ->
  assoc (s_ "used") ms = Some (VInt (bg_used c)) /\ assoc (s_ "flags") ms = Some (VInt (bg_flags c)) /\ (0 <= bg_used c < 2 ^ 64)%Z.
Proof.
  intros Hc Hs Hn Hv. apply item_bytes in Hc.
  assert (L1 : In (s_ "btrfs_block_group_item", [s_ "used"], 0, 8, None) kernel_layout) by (apply (nth_error_In _ 52); reflexivity).
  assert (L2 : In (s_ "btrfs_block_group_item", [s_ "flags"], 16, 8, None) kernel_layout) by (apply (nth_error_In _ 54); reflexivity).
  destruct (proj2 (layout_ok _ _ _ _ _ L1) oc s key (snd c) _ Hs Hn Hc Hv) as (x & Hx & Hu).
  destruct (proj2 (layout_ok _ _ _ _ _ L2) oc s key (snd c) _ Hs Hn Hc Hv) as (y & Hy & Hf).
  apply unsigned_num in Hu, Hf. destruct Hu as [-> Hu]. destruct Hf as [-> Hf]. cbn [member] in Hx, Hy.
  split; [|split].
  - unfold bg_used. cbn [skipn] in Hx. destruct (assoc (s_ "used") ms) as [x|]; [congruence|discriminate].
  - unfold bg_flags. destruct (assoc (s_ "flags") ms) as [x|]; [congruence|discriminate].
  - exact Hu.
Qed.
Lemma shown_cons oc c items l : item_ok c -> shown oc (c :: items) l ->
  (shown oc items l /\ is_extent c = false /\ is_group c = false) \/
  (exists nm ms l', l = VStruct nm (Some (h_objectid (fst c), h_type (fst c), h_offset (fst c))) ms :: l' /\ shown oc items l' /\
     (is_group c = true -> assoc (s_ "used") ms = Some (VInt (bg_used c)) /\ assoc (s_ "flags") ms = Some (VInt (bg_flags c)) /\ (0 <= bg_used c < 2 ^ 64)%Z)).
Proof.
  intros Hc H. destruct c as [h b]. inversion H as [|h' b' cs vs HN HT|h' b' cs vs pre s post v HS HP HK HB HT]; subst; cbn [fst snd] in *.
  - left. split; [exact HT|]. unfold is_extent, is_group. cbn [fst].
    split; [destruct (Z.eqb_spec (h_type h) 168) as [Ht|]|destruct (Z.eqb_spec (h_type h) 192) as [Ht|]]; try reflexivity; exfalso; rewrite Ht in HN.
    + eapply not_recognised; [exact HN|]. apply keys_recognised; [constructor|discriminate|discriminate].
    + eapply not_recognised; [exact HN|]. apply keys_recognised; [constructor|discriminate|discriminate].
  - right. assert (Hin : In s STRUCTS) by (rewrite HS; apply in_or_app; right; left; reflexivity).
    destruct (decode_total oc s (Some (h_objectid h, h_type h, h_offset h)) b Hin (item_bytes _ Hc)) as [(ms & Hd)|(e & Hd)]; rewrite Hd in HB; [|discriminate]. injection HB as <-.
    exists (st_name s), ms, vs. split; [reflexivity|]. split; [exact HT|]. unfold is_group. cbn [fst]. intros Ht. apply Z.eqb_eq in Ht.
    apply (group_members (h, b) s (Some (h_objectid h, h_type h, h_offset h)) ms oc Hc Hin); [|exact Hd].
    assert (R : recognised (s_ "btrfs_block_group_item") (h_objectid h) (h_type h) (h_offset h)).
    { rewrite Ht. apply keys_recognised; [constructor|discriminate|discriminate]. }
    destruct R as (pre' & s' & post' & HS' & HP' & HK' & <-). f_equal.
    apply (first_match_fun pre s post pre' s' post' (fun x => st_km x (h_objectid h) (h_type h) (h_offset h))); [congruence|assumption..].
Qed.

(** ** The inner loop *)
Lemma u_bound bits z : u bits z -> (0 <= z < 2 ^ bits)%Z.
Proof. intros H. exact H. Qed.
Notation Fr l := (VArr (map VInt l) true).
Section Inner.
Context (E : env) (i : bool) (f : option fs) (w : world) (k b u : value) (start glen : Z) (Hs : (0 <= start < 2 ^ 64)%Z) (Hg : (0 <= glen < 2 ^ 64)%Z).
Definition in_group (m1 : scope value) (last : Z) : Prop :=
  inside outer_names m1 /\ assoc (s_ "bg_start") m1 = Some (VInt start) /\ assoc (s_ "bg_len") m1 = Some (VInt glen) /\
  assoc (s_ "last_end") m1 = Some (VInt last) /\ (0 <= last < 2 ^ 66)%Z.
Lemma inner_loop oc items : forall l m2 m1 fr last, shown oc items l ->
  (forall c, In c items -> item_ok c /\ (is_extent c = true -> (h_objectid (fst c) < start + glen)%Z)) ->
  inside inner_names m2 -> in_group m1 last ->
  exists m2' m1', inside outer_names m1' /\
    each E i (s_ "extent") inner_body l (mk_est [m2; m1; G k b u (Fr fr)] f w)
      (mk_est [m2'; m1'; G k b u (Fr (fr ++ gaps last (filter is_extent items)))] f w) Ended.
Proof.
  induction items as [|c items IH]; intros l m2 m1 fr last Hl Hi I2 HG.
  - inversion Hl; subst. exists m2, m1. split; [apply HG|]. cbn [filter gaps]. rewrite app_nil_r. apply ea_done.
  - destruct (Hi c (or_introl eq_refl)) as [Hc Hlt]. assert (Hi' : forall d, In d items -> item_ok d /\ (is_extent d = true -> (h_objectid (fst d) < start + glen)%Z)) by (intros d Hd; apply Hi; right; exact Hd).
    destruct (shown_cons oc c items l Hc Hl) as [(Hl' & He & _)|(nm & ms & l' & -> & Hl' & _)].
    + cbn [filter]. rewrite He. apply IH; assumption.
    + destruct HG as (I1 & As & Al & Ae & Hlast). pose proof Hc as (_ & Ho & Hof & _). apply u_bound in Ho, Hof.
      destruct (inner_step E i f w (h_objectid (fst c)) (h_type (fst c)) (h_offset (fst c)) nm ms m2 m1 k b u fr last start glen I2 I1 As Al Ae Hs Hg Hlast Ho Hof)
        as (m2' & m1' & q & J2 & J1 & Bs & Bl & Be & Hq & Hx).
      { intros Ht. apply Hlt. unfold is_extent. rewrite Ht. reflexivity. }
      match type of Hx with executes_list _ _ _ _ (mk_est [_; _; G _ _ _ (Fr ?z)] _ _) _ => set (fr' := z) in * end.
      set (last' := if (h_type (fst c) =? 168)%Z then _ else _) in Be.
      destruct (IH l' m2' m1' fr' last' Hl' Hi' J2) as (m2'' & m1'' & K1 & Hy).
      { split; [exact J1|]. split; [exact Bs|]. split; [exact Bl|]. split; [exact Be|]. unfold last'. destruct (h_type (fst c) =? 168)%Z; [|exact Hlast].
        clear -Ho Hof. assert (2 ^ 66 = 2 ^ 64 * 4)%Z by reflexivity. lia. }
      exists m2'', m1''. split; [exact K1|]. eapply ea_next; [|exact Hx|exact Hq|].
      * eexists. split; [|reflexivity]. cbn [e_vars]. apply ins_head. apply rep_none; [eapply inside_none; [exact I1|reflexivity]|apply rep_G_local; reflexivity].
      * cbn [filter]. replace (gaps last (if is_extent c then c :: filter is_extent items else filter is_extent items)) with
          ((if h_type (fst c) =? 168 then if last <? h_objectid (fst c) then [h_objectid (fst c) - last] else [] else [])%Z ++ gaps last' (filter is_extent items)).
        { rewrite app_assoc. exact Hy. }
        unfold last', is_extent at 2. destruct (h_type (fst c) =? 168)%Z; [|reflexivity]. cbn [gaps]. reflexivity.
Qed.
End Inner.
