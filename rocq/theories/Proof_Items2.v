(** Decoding failures of the shipped structs (C90). *)
From Verif Require Import Base Structs Definitions Value Errors Lib Spec_Decode Spec_Items Proof_Decode Proof_Decode2 Proof_Items.
Require Import Lia ZArith.
Arguments s_ s%string_scope.
Opaque Z.pow.

(** what is known of the result for a struct *)
Definition explained (s : strct) (bytes : str) (r : res value) : Prop :=
  (forall er, r = Err er -> exists m, message er = Some m /\ decode_fault s bytes m) /\
  (forall m, decode_fault s bytes m -> exists er, r = Err er /\ message er = Some m).

(** ** Structs without a dynamic part *)
Lemma explained_items oc s key bytes : wf_items [] (st_fields s) = true -> trail_last (st_fields s) = true ->
  st_name s <> s_ "btrfs_extent_item" -> st_name s <> s_ "btrfs_file_extent_item" ->
  assoc (st_name s) fixed_part = Some (fsize (st_fields s)) -> bytes_ok bytes -> explained s bytes (from_bytes oc s key bytes).
Proof.
  intros Hwf Htl Hn1 Hn2 Hsz Hb. pose proof (from_bytes_items oc s key bytes Hwf Hb) as Hitems.
  assert (Hfwd : forall er, from_bytes oc s key bytes = Err er -> exists m, message er = Some m /\ decode_fault s bytes m).
  { intros er. clear Hitems. unfold from_bytes, from_bytes_gen. rewrite st_size_fsize. unfold ensure, zlen.
    destruct (Z.leb_spec (Z.of_nat (fsize (st_fields s))) (Z.of_nat (length bytes))) as [Hle|Hgt]; cbn [bind].
    - pose proof (loop_faults oc (dyn_struct oc) (st_name s) (st_km s) bytes Hb (st_fields s) [] 0 [] Hwf Htl (Forall2_nil _) ltac:(lia)) as H.
      change (Z.of_nat 0) with 0%Z in H. cbn [skipn] in H.
      destruct (struct_loop oc (dyn_struct oc) (to_value oc (dyn_struct oc)) (st_name s) (st_km s) (st_fields s) bytes 0 []) as [l|e| |]; cbn [bind]; intros E; try discriminate E.
      injection E as <-. destruct H as (m & Hm & Hf). exists m. split; [exact Hm|apply df_item; exact Hf].
    - intros [= <-]. eexists. split; [apply message_short|]. apply df_short; [exact Hsz|lia]. }
  split; [exact Hfwd|]. intros m Hm. inversion Hm as [n Hn Hl| ? Hf | | |]; subst; try contradiction.
  - assert (n = fsize (st_fields s)) by congruence. subst n. eexists. split; [|apply message_short].
    unfold from_bytes, from_bytes_gen. rewrite st_size_fsize. unfold ensure, zlen. rewrite (proj2 (Z.leb_gt _ _)) by lia. reflexivity.
  - pose proof (fault_len _ _ _ _ _ _ Hf Htl) as Hl. destruct (from_bytes oc s key bytes) as [v|er| |] eqn:E; try contradiction.
    + exfalso. destruct Hitems as (ms & bs & rest & _ & Hbs & He). rewrite Hbs in Hf at 2. exact (fault_not_item _ _ _ _ _ _ He rest m Hf).
    + exists er. split; [reflexivity|]. destruct (Hfwd er eq_refl) as (m' & Hm' & Hd). rewrite Hm'. f_equal.
      inversion Hd as [n Hn Hl'| ? Hf' | | |]; subst; try contradiction.
      * assert (n = fsize (st_fields s)) by congruence. lia.
      * eapply fault_det; eassumption.
Qed.

(** ** Extent items *)
Lemma refs_err bytes : bytes_ok bytes -> forall k offset acc e, offset <= length bytes -> length bytes - offset < k ->
  inline_refs k bytes (Z.of_nat offset) acc = Err e ->
  exists refs kind rest, skipn offset bytes = refs ++ kind :: rest /\ whole_refs refs /\
    (ref_layout (Z.of_N kind) = None /\ e = EUnknownInlineRef (Z.of_N kind) \/
     exists t, ref_layout (Z.of_N kind) = Some t /\ S (length rest) < csize t /\ e = ELeftover).
Proof.
  intros Hb. induction k as [|k IH]; intros offset acc e Ho Hk; [lia|]. cbn [inline_refs]. change (st_size btrfs_extent_inline_ref) with 1%Z.
  unfold zlen. destruct (Z.ltb_spec (Z.of_nat offset) (Z.of_nat (length bytes))) as [Hlt|Hge].
  - unfold ensure. rewrite (proj2 (Z.leb_le _ _)) by lia. cbn [bind].
    destruct (skipn offset bytes) as [|b tl] eqn:Hsk.
    { apply (f_equal (@length _)) in Hsk. rewrite skipn_length in Hsk. cbn in Hsk. lia. }
    assert (Hidx : index bytes (Z.of_nat offset) = Ok b).
    { unfold index. rewrite Nat2Z.id. rewrite <- (firstn_skipn offset bytes), Hsk.
      rewrite nth_error_app2 by (rewrite firstn_length; lia). rewrite firstn_length, Nat.min_l, Nat.sub_diag by lia. cbn. try reflexivity. }
    rewrite Hidx. cbn [bind]. pose proof (layouts_agree (Z.of_N b)) as HL.
    assert (Htl : length tl = length bytes - offset - 1).
    { apply (f_equal (@length _)) in Hsk. rewrite skipn_length in Hsk. cbn in Hsk. lia. }
    destruct (inline_ref_layout (Z.of_N b)) as [[fs sz]|].
    + destruct HL as (t & Ht & Hsz & Heq & Hpos).
      destruct (Nat.le_gt_cases (offset + csize t) (length bytes)) as [Hle|Hgt].
      * replace (Z.of_nat offset + 1 + sz)%Z with (Z.of_nat (offset + csize t)) by lia. intros HE.
        destruct (IH _ _ _ Hle ltac:(lia) HE) as (refs & kind & rest & Hs & Hw & Hor).
        exists ((b :: firstn (csize t - 1) tl) ++ refs), kind, rest. split; [|split; [|exact Hor]].
        -- rewrite <- app_assoc, <- Hs. cbn [app]. f_equal. rewrite (Nat.add_comm offset), <- skipn_skipn, Hsk.
           destruct (csize t) as [|c] eqn:Hc; [lia|]. cbn [skipn]. replace (S c - 1) with c by lia. symmetry. apply firstn_skipn.
        -- econstructor; [exact Ht| |exact Hw]. rewrite firstn_length. lia.
      * destruct k as [|k]; [lia|]. cbn [inline_refs]. unfold zlen. rewrite (proj2 (Z.ltb_ge _ _)) by lia.
        unfold ensure. rewrite (proj2 (Z.eqb_neq _ _)) by lia. cbn [bind]. intros [= <-].
        exists [], b, tl. split; [reflexivity|]. split; [constructor|]. right. exists t. split; [exact Ht|]. split; [lia|reflexivity].
    + intros [= <-]. exists [], b, tl. split; [reflexivity|]. split; [constructor|]. left. auto.
  - assert (offset = length bytes) by lia. subst. unfold ensure. rewrite Z.eqb_refl. cbn [bind]. discriminate.
Qed.

Lemma refs_skip bytes refs : bytes_ok bytes -> whole_refs refs -> forall k offset acc tail, skipn offset bytes = refs ++ tail -> tail <> [] -> offset <= length bytes -> length bytes - offset < k ->
  exists k' acc', length bytes - (offset + length refs) < k' /\ offset + length refs <= length bytes /\ skipn (offset + length refs) bytes = tail /\
    inline_refs k bytes (Z.of_nat offset) acc = inline_refs k' bytes (Z.of_nat (offset + length refs)) acc'.
Proof.
  intros Hb H. induction H as [|kind t b bs Ht Hl Hw IH]; intros k offset acc tail Hsk Hne Ho Hk.
  - exists k, acc. rewrite Nat.add_0_r. auto.
  - destruct k as [|k]; [lia|]. assert (Hlen : length (((kind :: b) ++ bs) ++ tail) = length bytes - offset) by (rewrite <- Hsk, skipn_length; reflexivity).
    rewrite !app_length in Hlen. cbn [length] in Hlen. cbn [inline_refs]. change (st_size btrfs_extent_inline_ref) with 1%Z.
    unfold zlen. rewrite (proj2 (Z.ltb_lt _ _)) by lia. unfold ensure. rewrite (proj2 (Z.leb_le _ _)) by lia. cbn [bind].
    assert (Hidx : index bytes (Z.of_nat offset) = Ok kind).
    { unfold index. rewrite Nat2Z.id. rewrite <- (firstn_skipn offset bytes), Hsk.
      rewrite nth_error_app2 by (rewrite firstn_length; lia). rewrite firstn_length, Nat.min_l, Nat.sub_diag by lia. cbn. try reflexivity. }
    rewrite Hidx. cbn [bind]. pose proof (layouts_agree (Z.of_N kind)) as HL.
    destruct (inline_ref_layout (Z.of_N kind)) as [[fs sz]|]; [|congruence]. destruct HL as (t' & Ht' & Hsz & _ & Hpos).
    rewrite Ht in Ht'. injection Ht' as <-. replace (Z.of_nat offset + 1 + sz)%Z with (Z.of_nat (offset + csize t)) by lia.
    assert (Hsk' : skipn (offset + csize t) bytes = bs ++ tail).
    { rewrite Nat.add_comm, <- skipn_skipn, Hsk, <- app_assoc. apply skipn_app_exact. cbn [length]. lia. }
    edestruct (IH k (offset + csize t)) as (k' & acc' & H1 & H2 & H3 & H4); [exact Hsk'|exact Hne|lia|lia|].
    exists k', acc'. rewrite app_length. cbn [length]. rewrite Hl. rewrite Nat.add_assoc. split; [exact H1|]. split; [exact H2|]. split; [exact H3|]. exact H4.
Qed.

Lemma refs_at bytes refs kind rest k offset acc : bytes_ok bytes -> whole_refs refs -> skipn offset bytes = refs ++ kind :: rest ->
  offset <= length bytes -> length bytes - offset < k ->
  match ref_layout (Z.of_N kind) with
  | None => inline_refs k bytes (Z.of_nat offset) acc = Err (EUnknownInlineRef (Z.of_N kind))
  | Some t => S (length rest) < csize t -> inline_refs k bytes (Z.of_nat offset) acc = Err ELeftover
  end.
Proof.
  intros Hb Hw Hs Ho Hk. destruct (refs_skip bytes refs Hb Hw k offset acc (kind :: rest) Hs) as (k' & acc' & H1 & H2 & H3 & H4); [discriminate|exact Ho|exact Hk|].
  rewrite H4. clear H4 Hk Ho Hs. remember (offset + length refs) as o eqn:Eo. clear Eo offset.
  assert (Hlen : length (kind :: rest) = length bytes - o) by (rewrite <- H3, skipn_length; reflexivity). cbn [length] in Hlen.
  destruct k' as [|k']; [lia|]. cbn [inline_refs]. change (st_size btrfs_extent_inline_ref) with 1%Z. unfold zlen.
  rewrite (proj2 (Z.ltb_lt _ _)) by lia. unfold ensure. rewrite (proj2 (Z.leb_le _ _)) by lia. cbn [bind].
  assert (Hidx : index bytes (Z.of_nat o) = Ok kind).
  { unfold index. rewrite Nat2Z.id. rewrite <- (firstn_skipn o bytes), H3.
    rewrite nth_error_app2 by (rewrite firstn_length; lia). rewrite firstn_length, Nat.min_l, Nat.sub_diag by lia. cbn. try reflexivity. }
  rewrite Hidx. cbn [bind]. pose proof (layouts_agree (Z.of_N kind)) as HL. destruct (inline_ref_layout (Z.of_N kind)) as [[fs sz]|].
  - destruct HL as (t' & Ht' & Hsz & _ & Hpos). rewrite Ht'. intros Hshort. replace (Z.of_nat o + 1 + sz)%Z with (Z.of_nat (o + csize t')) by lia.
    destruct k' as [|k']; [lia|]. cbn [inline_refs]. unfold zlen. rewrite (proj2 (Z.ltb_ge _ _)) by lia.
    unfold ensure. rewrite (proj2 (Z.eqb_neq _ _)) by lia. reflexivity.
  - rewrite HL. reflexivity.
Qed.

Lemma explained_extent oc key bytes : bytes_ok bytes -> explained btrfs_extent_item bytes (from_bytes oc btrfs_extent_item key bytes).
Proof.
  intros Hb. pose proof (extent_item_good oc key bytes Hb) as Hgood.
  assert (Heq : from_bytes oc btrfs_extent_item key bytes = from_bytes oc (mk_strct (s_ "btrfs_extent_item") (st_km btrfs_extent_item) [anon (TDyn extent_item_fields)]) key bytes) by reflexivity.
  assert (Hcb : forall e, extent_item_fields bytes = Err e -> from_bytes oc btrfs_extent_item key bytes = Err e).
  { intros e He. rewrite Heq. apply dyn_decode_err; assumption. }
  assert (Hfs : forall fs, extent_item_fields bytes = Ok fs -> exists v, from_bytes oc btrfs_extent_item key bytes = Ok v).
  { intros fs Hc.
    assert (Hx : 24 <= length bytes /\ exists rs, fs = extent_header ++ rs /\ refs_of rs (skipn 24 bytes)).
    { unfold extent_item_fields, ensure, zlen in Hc. destruct (Z.leb_spec 24 (Z.of_nat (length bytes))) as [H24|]; cbn [bind] in Hc; [|discriminate].
      split; [lia|]. pose proof (inline_refs_good bytes Hb (S (length bytes)) 24 extent_header ltac:(lia) ltac:(lia)) as H.
      change (Z.of_nat 24) with 24%Z in H. change [fld "refs" TU64; fld "generation" TU64; fld "flags" TU64] with extent_header in Hc. rewrite Hc in H. exact H. }
    destruct Hx as (H24 & rs & -> & Hr). destruct (refs_of_ok _ _ Hr) as [Hro Hrl].
    assert (HF : Forall (fun f => field_ok f = true) (extent_header ++ rs)) by (apply Forall_app; split; [apply header_ok|exact Hro]).
    assert (Hfull : fsize (extent_header ++ rs) = length bytes).
    { unfold fsize. rewrite map_app, list_sum_app. fold (fsize rs). rewrite Hrl, skipn_length. change (list_sum (map (fun f : field => csize (snd f)) extent_header)) with 24. lia. }
    rewrite Heq. rewrite (dyn_decode oc _ _ _ key bytes _ Hb Hc HF). rewrite (proj2 (Nat.leb_le _ _)) by lia.
    destruct (fields_decode oc dyn_none (s_ "btrfs_extent_item") (st_km btrfs_extent_item) _ bytes Hb HF ltac:(lia)) as (ms & -> & _). eauto. }
  assert (Hunf : 24 <= length bytes -> extent_item_fields bytes = inline_refs (S (length bytes)) bytes (Z.of_nat 24) extent_header).
  { intros Hl. unfold extent_item_fields, ensure, zlen. rewrite (proj2 (Z.leb_le _ _)) by lia. reflexivity. }
  split.
  - intros er He. destruct (extent_item_fields bytes) as [fs|e| |] eqn:Hc.
    + destruct (Hfs fs eq_refl) as [v Hv]. congruence.
    + rewrite (Hcb e eq_refl) in He. injection He as <-. destruct (Nat.le_gt_cases 24 (length bytes)) as [Hl|Hl].
      * destruct (refs_err bytes Hb (S (length bytes)) 24 extent_header e Hl ltac:(lia) (eq_sym (Hunf Hl))) as (refs & kind & rest & Hs & Hw & Hor).
        assert (Hbs : bytes = firstn 24 bytes ++ refs ++ kind :: rest) by (rewrite <- Hs; symmetry; apply firstn_skipn).
        assert (Hl24 : length (firstn 24 bytes) = 24) by (rewrite firstn_length; lia).
        destruct Hor as [[Hk ->]|(t & Ht & Hshort & ->)]; (eexists; split; [reflexivity|]).
        -- eapply df_kind; [reflexivity|exact Hbs|exact Hl24|exact Hw|exact Hk].
        -- eapply df_ref; [reflexivity|exact Hbs|exact Hl24|exact Hw|exact Ht|exact Hshort].
      * unfold extent_item_fields, ensure, zlen in Hc. rewrite (proj2 (Z.leb_gt _ _)) in Hc by lia. injection Hc as <-.
        eexists. split; [apply message_short|]. apply (df_short btrfs_extent_item bytes 24); [reflexivity|exact Hl].
    + exfalso. destruct (Nat.le_gt_cases 24 (length bytes)) as [Hl|Hl].
      * pose proof (inline_refs_good bytes Hb (S (length bytes)) 24 extent_header Hl ltac:(lia)) as H. rewrite <- (Hunf Hl) in H. exact H.
      * unfold extent_item_fields, ensure, zlen in Hc. rewrite (proj2 (Z.leb_gt _ _)) in Hc by lia. discriminate.
    + exfalso. destruct (Nat.le_gt_cases 24 (length bytes)) as [Hl|Hl].
      * pose proof (inline_refs_good bytes Hb (S (length bytes)) 24 extent_header Hl ltac:(lia)) as H. rewrite <- (Hunf Hl) in H. exact H.
      * unfold extent_item_fields, ensure, zlen in Hc. rewrite (proj2 (Z.leb_gt _ _)) in Hc by lia. discriminate.
  - intros m Hm. inversion Hm as [n Hn Hl|? Hf|hb refs kind rest Hn Hbs Hl Hw Hk|hb refs kind t rest Hn Hbs Hl Hw Hk Hshort|ty Hn ? ? ?]; subst m.
    + vm_compute in Hn. injection Hn as <-. eexists. split; [|apply message_short]. apply Hcb. unfold extent_item_fields, ensure, zlen.
      rewrite (proj2 (Z.leb_gt _ _)) by lia. reflexivity.
    + exfalso. inversion Hf as [|? ? ? ? ? b0 ? ? He ?| | | |]; subst. inversion He.
    + assert (Hl24 : 24 <= length bytes) by (rewrite Hbs, app_length; lia). exists (EUnknownInlineRef (Z.of_N kind)). split; [|reflexivity]. apply Hcb. rewrite (Hunf Hl24).
      pose proof (refs_at bytes refs kind rest (S (length bytes)) 24 extent_header Hb Hw) as H. rewrite Hk in H. apply H; [|lia|lia]. rewrite Hbs. apply skipn_app_exact. lia.
    + assert (Hl24 : 24 <= length bytes) by (rewrite Hbs, app_length; lia). exists ELeftover. split; [|reflexivity]. apply Hcb. rewrite (Hunf Hl24).
      pose proof (refs_at bytes refs kind rest (S (length bytes)) 24 extent_header Hb Hw) as H. rewrite Hk in H. apply H; [|lia|lia|exact Hshort]. rewrite Hbs. apply skipn_app_exact. lia.
    + vm_compute in Hn. discriminate Hn.
Qed.

(** ** File extent items *)
Lemma explained_file oc key bytes : bytes_ok bytes -> explained btrfs_file_extent_item bytes (from_bytes oc btrfs_file_extent_item key bytes).
Proof.
  intros Hb.
  assert (Heq : from_bytes oc btrfs_file_extent_item key bytes = from_bytes oc (mk_strct (s_ "btrfs_file_extent_item") (st_km btrfs_file_extent_item) [anon (TDyn file_extent_item_fields)]) key bytes) by reflexivity.
  assert (Hnotdyn : forall m, decode_fault btrfs_file_extent_item bytes m ->
     (length bytes < 21 /\ m = short_text (s_ "btrfs_file_extent_item") [] (zlen bytes) 21) \/
     exists ty, nth_error bytes 20 = Some ty /\ (ty = 1 \/ ty = 2)%N /\ 21 <= length bytes < 53 /\ m = short_text (s_ "btrfs_file_extent_item") [] (zlen bytes) 53).
  { intros m Hm. inversion Hm as [n Hn Hl|? Hf|hb refs kind rest Hn|hb refs kind t rest Hn|ty Hn Hnth Hty Hl]; subst m.
    - vm_compute in Hn. injection Hn as <-. left. split; [exact Hl|reflexivity].
    - exfalso. inversion Hf as [|? ? ? ? ? b0 ? ? He ?| | | |]; subst. inversion He.
    - vm_compute in Hn. discriminate Hn.
    - vm_compute in Hn. discriminate Hn.
    - right. eauto 6. }
  destruct (Nat.le_gt_cases 21 (length bytes)) as [Hle|Hlt].
  2:{ assert (Hcb : file_extent_item_fields bytes = Err (ENotEnoughBytes (s_ "btrfs_file_extent_item") [] (zlen bytes) 21)).
      { unfold file_extent_item_fields, ensure, zlen. rewrite (proj2 (Z.leb_gt _ _)) by lia. reflexivity. }
      rewrite Heq, (dyn_decode_err oc _ _ _ key bytes _ Hb Hcb). split.
      - intros er [= <-]. eexists. split; [apply message_short|]. apply (df_short btrfs_file_extent_item bytes 21); [reflexivity|exact Hlt].
      - intros m Hm. destruct (Hnotdyn m Hm) as [[_ ->]|(ty & _ & _ & Hl & _)]; [|lia]. eexists. split; [reflexivity|apply message_short]. }
  destruct (nth_error bytes 20) as [b|] eqn:Hnth; [|apply nth_error_None in Hnth; lia].
  assert (Hidx : index bytes 20 = Ok b) by (unfold index; change (Z.to_nat 20) with 20; rewrite Hnth; reflexivity).
  assert (Hcb : file_extent_item_fields bytes = Ok (if (Z.of_N b =? 1)%Z || (Z.of_N b =? 2)%Z then file_extent_header ++ file_extent_location else file_extent_header)).
  { unfold file_extent_item_fields, ensure, zlen. rewrite (proj2 (Z.leb_le _ _)) by lia. cbn [bind]. rewrite Hidx. cbn [bind].
    change BTRFS_FILE_EXTENT_REG with 1%Z. change BTRFS_FILE_EXTENT_PREALLOC with 2%Z. destruct ((Z.of_N b =? 1)%Z || (Z.of_N b =? 2)%Z); reflexivity. }
  assert (Hty : (Z.of_N b =? 1)%Z || (Z.of_N b =? 2)%Z = true <-> (b = 1 \/ b = 2)%N) by (rewrite orb_true_iff, !Z.eqb_eq; lia).
  assert (HFh : Forall (fun f => field_ok f = true) file_extent_header) by (repeat constructor).
  destruct ((Z.of_N b =? 1)%Z || (Z.of_N b =? 2)%Z) eqn:Hk.
  - assert (HF : Forall (fun f => field_ok f = true) (file_extent_header ++ file_extent_location)) by (repeat constructor).
    rewrite Heq, (dyn_decode oc _ _ _ key bytes _ Hb Hcb HF). change (fsize (file_extent_header ++ file_extent_location)) with 53.
    destruct (Nat.leb_spec 53 (length bytes)) as [H53|H53].
    + destruct (fields_decode oc dyn_none (s_ "btrfs_file_extent_item") (st_km btrfs_file_extent_item) _ bytes Hb HF H53) as (ms & -> & _).
      split; [discriminate|]. intros m Hm. destruct (Hnotdyn m Hm) as [[Hl _]|(ty & _ & _ & Hl & _)]; lia.
    + split.
      * intros er [= <-]. eexists. split; [apply message_short|]. apply (df_location btrfs_file_extent_item bytes b); [reflexivity|exact Hnth|apply Hty; reflexivity|lia].
      * intros m Hm. destruct (Hnotdyn m Hm) as [[Hl _]|(ty & _ & _ & _ & ->)]; [lia|]. eexists. split; [reflexivity|apply message_short].
  - rewrite Heq, (dyn_decode oc _ _ _ key bytes _ Hb Hcb HFh). change (fsize file_extent_header) with 21. rewrite (proj2 (Nat.leb_le _ _)) by lia.
    destruct (fields_decode oc dyn_none (s_ "btrfs_file_extent_item") (st_km btrfs_file_extent_item) _ bytes Hb HFh Hle) as (ms & -> & _).
    split; [discriminate|]. intros m Hm. destruct (Hnotdyn m Hm) as [[Hl _]|(ty & Hn & Ht & _ & _)]; [lia|]. injection Hn as ->. apply Hty in Ht. discriminate.
Qed.

(** ** All structs *)
Lemma shipped_trail s : In s STRUCTS -> s = btrfs_extent_item \/ s = btrfs_file_extent_item \/
  (wf_items [] (st_fields s) = true /\ trail_last (st_fields s) = true /\ st_name s <> s_ "btrfs_extent_item" /\
   st_name s <> s_ "btrfs_file_extent_item" /\ assoc (st_name s) fixed_part = Some (fsize (st_fields s))).
Proof.
  intros H. unfold STRUCTS in H. cbn [In] in H.
  repeat (destruct H as [<-|H]; [first [left; reflexivity|right; left; reflexivity|right; right; vm_compute; repeat split; discriminate]|]). destruct H.
Qed.

Lemma explained_all oc s key bytes : In s STRUCTS -> bytes_ok bytes -> explained s bytes (from_bytes oc s key bytes).
Proof.
  intros Hs Hb. destruct (shipped_trail s Hs) as [->|[->|(H1 & H2 & H3 & H4 & H5)]].
  - apply explained_extent; exact Hb.
  - apply explained_file; exact Hb.
  - apply explained_items; assumption.
Qed.

Theorem decode_errors oc s key bytes m : In s STRUCTS -> bytes_ok bytes ->
  (exists er, from_bytes oc s key bytes = Err er /\ message er = Some m) <-> decode_fault s bytes m.
Proof.
  intros Hs Hb. destruct (explained_all oc s key bytes Hs Hb) as [H1 H2]. split; [|apply H2].
  intros (er & He & Hm). destruct (H1 er He) as (m' & Hm' & Hd). congruence.
Qed.
Lemma decode_or_fault oc s key bytes : In s STRUCTS -> bytes_ok bytes ->
  (exists ms, from_bytes oc s key bytes = Ok (VStruct (st_name s) key ms)) \/ (exists m, decode_fault s bytes m).
Proof.
  intros Hs Hb. destruct (decode_total oc s key bytes Hs Hb) as [H|[er He]]; [left; exact H|right].
  destruct (explained_all oc s key bytes Hs Hb) as [H1 _]. destruct (H1 er He) as (m & _ & Hd). eauto.
Qed.
