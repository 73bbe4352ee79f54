(** Decoding of the shipped structs (C22-C27). *)
From Verif Require Import Base Structs Definitions Value Lib Spec_Decode Proof_Decode.
Require Import Lia ZArith.
Arguments s_ s%string_scope.
Opaque Z.pow.

Lemma ensure_short t (bytes : str) e : length bytes < csize t -> ensure (ty_size t <=? zlen bytes)%Z e = Err e.
Proof. intros H. rewrite ty_size_csize. unfold ensure, zlen. rewrite (proj2 (Z.leb_gt _ _)) by lia. reflexivity. Qed.

(** ** Structs without a dynamic part *)
Lemma from_bytes_items oc s key bytes : wf_items [] (st_fields s) = true -> bytes_ok bytes ->
  match from_bytes oc s key bytes with
  | Ok v => exists ms bs rest, v = VStruct (st_name s) key ms /\ bytes = bs ++ rest /\ enc_item [] (st_fields s) ms bs
  | Err _ => forall ms bs rest, bytes = bs ++ rest -> ~ enc_item [] (st_fields s) ms bs
  | _ => False
  end.
Proof.
  intros Hwf Hb. unfold from_bytes, from_bytes_gen. rewrite st_size_fsize. unfold ensure, zlen.
  destruct (Z.leb_spec (Z.of_nat (fsize (st_fields s))) (Z.of_nat (length bytes))) as [Hle|Hgt]; cbn [bind].
  2:{ intros ms bs rest -> He. apply enc_item_len in He. rewrite app_length in Hgt. lia. }
  pose proof (item_loop oc (dyn_struct oc) (st_name s) (st_km s) bytes Hb (st_fields s) [] 0 [] Hwf (Forall2_nil _) (Nat.le_0_l _)) as H.
  pose proof (fun ms bs rest He Hs => item_complete oc (dyn_struct oc) (st_name s) (st_km s) bytes Hb (st_fields s) [] ms bs He [] 0 rest Hwf Hs (Nat.le_0_l _)) as Hc.
  change (Z.of_nat 0) with 0%Z in *. cbn [skipn] in *.
  destruct (struct_loop oc (dyn_struct oc) (to_value oc (dyn_struct oc)) (st_name s) (st_km s) (st_fields s) bytes 0 []) as [l|e| |]; cbn [bind] in *; cbn in H; try exact H.
  - destruct H as (ms & bs & rest & -> & Hs & He). exists ms, bs, rest. auto.
  - intros ms bs rest Hs He. discriminate (Hc ms bs rest He Hs).
Qed.

(** Different decodings of the same bytes agree *)
Lemma from_bytes_items_ok oc s key ms bs rest : wf_items [] (st_fields s) = true -> bytes_ok (bs ++ rest) ->
  enc_item [] (st_fields s) ms bs -> from_bytes oc s key (bs ++ rest) = Ok (VStruct (st_name s) key ms).
Proof.
  intros Hwf Hb He. unfold from_bytes, from_bytes_gen. rewrite st_size_fsize. unfold ensure, zlen. pose proof (enc_item_len _ _ _ _ He).
  rewrite (proj2 (Z.leb_le _ _)) by (rewrite app_length; lia). cbn [bind].
  pose proof (item_complete oc (dyn_struct oc) (st_name s) (st_km s) (bs ++ rest) Hb (st_fields s) [] ms bs He [] 0 rest Hwf eq_refl (Nat.le_0_l _)) as Hc.
  change (Z.of_nat 0) with 0%Z in Hc. rewrite Hc. reflexivity.
Qed.

(** ** Inline references *)
Inductive refs_of : list field -> str -> Prop :=
| ro_nil : refs_of [] []
| ro_cons kind t b fs bs : ref_layout (Z.of_N kind) = Some t -> S (length b) = csize t -> refs_of fs bs ->
    refs_of ((Some (s_ "inline_ref"), t) :: fs) ((kind :: b) ++ bs).

Lemma layouts_agree z :
  match inline_ref_layout z with
  | Some (fs, sz) => exists t, ref_layout z = Some t /\ (1 + sz = Z.of_nat (csize t))%Z /\
      t = TStruct (st_name btrfs_extent_inline_ref) (st_km btrfs_extent_inline_ref) (st_fields btrfs_extent_inline_ref ++ fs) /\ (0 <= sz)%Z
  | None => ref_layout z = None
  end.
Proof.
  unfold inline_ref_layout, ref_layout.
  change BTRFS_EXTENT_DATA_REF_KEY with 178%Z. change BTRFS_SHARED_DATA_REF_KEY with 184%Z.
  change BTRFS_SHARED_BLOCK_REF_KEY with 182%Z. change BTRFS_TREE_BLOCK_REF_KEY with 176%Z.
  destruct (z =? 178)%Z; [eexists; repeat split; vm_compute; discriminate|].
  destruct (z =? 184)%Z; [eexists; repeat split; vm_compute; discriminate|].
  destruct (z =? 182)%Z; cbn [orb]; [eexists; repeat split; vm_compute; discriminate|].
  destruct (z =? 176)%Z; [eexists; repeat split; vm_compute; discriminate|reflexivity].
Qed.

Lemma refs_layout_static z t : ref_layout z = Some t -> fixed_layout t = true.
Proof.
  unfold ref_layout. destruct (z =? 178)%Z; [intros [= <-]; reflexivity|]. destruct (z =? 184)%Z; [intros [= <-]; reflexivity|].
  destruct (z =? 182)%Z; [intros [= <-]; reflexivity|]. destruct (z =? 176)%Z; [intros [= <-]; reflexivity|discriminate].
Qed.

Lemma inline_refs_good bytes : bytes_ok bytes -> forall k offset acc, offset <= length bytes -> length bytes - offset < k ->
  match inline_refs k bytes (Z.of_nat offset) acc with
  | Ok l => exists fs, l = acc ++ fs /\ refs_of fs (skipn offset bytes)
  | Err _ => forall fs, ~ refs_of fs (skipn offset bytes)
  | _ => False
  end.
Proof.
  intros Hb. induction k as [|k IH]; intros offset acc Ho Hk; [lia|]. cbn [inline_refs]. change (st_size btrfs_extent_inline_ref) with 1%Z.
  unfold zlen. destruct (Z.ltb_spec (Z.of_nat offset) (Z.of_nat (length bytes))) as [Hlt|Hge].
  - unfold ensure. rewrite (proj2 (Z.leb_le _ _)) by lia. cbn [bind].
    destruct (skipn offset bytes) as [|b tl] eqn:Hsk.
    { apply (f_equal (@length _)) in Hsk. rewrite skipn_length in Hsk. cbn in Hsk. lia. }
    assert (Hidx : index bytes (Z.of_nat offset) = Ok b).
    { unfold index. rewrite Nat2Z.id. rewrite <- (firstn_skipn offset bytes), Hsk.
      rewrite nth_error_app2 by (rewrite firstn_length; lia). rewrite firstn_length, Nat.min_l, Nat.sub_diag by lia. cbn. try reflexivity.
      }
    rewrite Hidx. cbn [bind]. pose proof (layouts_agree (Z.of_N b)) as HL.
    assert (Htl : length tl = length bytes - offset - 1).
    { apply (f_equal (@length _)) in Hsk. rewrite skipn_length in Hsk. cbn in Hsk. lia. }
    destruct (inline_ref_layout (Z.of_N b)) as [[fs sz]|].
    + destruct HL as (t & Ht & Hsz & Heq & Hpos).
      destruct (Nat.le_gt_cases (offset + csize t) (length bytes)) as [Hle|Hgt].
      * replace (Z.of_nat offset + 1 + sz)%Z with (Z.of_nat (offset + csize t)) by lia.
        specialize (IH (offset + csize t) (acc ++ [(Some (s_ "inline_ref"), t)]) Hle ltac:(lia)). unfold fld. rewrite <- Heq. clear Heq.
        assert (Hspl : b :: tl = (b :: firstn (csize t - 1) tl) ++ skipn (offset + csize t) bytes).
        { cbn [app]. f_equal. rewrite (Nat.add_comm offset), <- skipn_skipn, Hsk.
          destruct (csize t) as [|c] eqn:Hc; [lia|]. cbn [skipn]. replace (S c - 1) with c by lia. symmetry. apply firstn_skipn. }
        destruct (inline_refs k bytes _ _) as [l|e| |]; try exact IH.
        -- destruct IH as (fs' & -> & Hr). exists ((Some (s_ "inline_ref"), t) :: fs'). rewrite <- app_assoc. split; [reflexivity|].
           rewrite Hspl. constructor; [exact Ht| |exact Hr]. rewrite firstn_length. lia.
        -- intros fs' Hr. inversion Hr as [|kind t' b' fs0 bs Ht' Hl Hr' E1 E2]; subst. rewrite Ht in Ht'. injection Ht' as <-.
           cbn [app] in Hspl. injection Hspl as Hspl.
           apply app_len_inj in Hspl; [|rewrite firstn_length, app_length; rewrite app_length in Htl; lia]. destruct Hspl as [_ ->]. exact (IH _ Hr').
      * (* the reference runs past the end *)
        assert (Hno : forall fs0, ~ refs_of fs0 (b :: tl)).
        { clear Heq. intros fs0 Hr. inversion Hr as [|kind t' b' fs1 bs Ht' Hl Hr' E1 E2]; subst. rewrite Ht in Ht'. injection Ht' as <-.
          rewrite app_length in Htl. lia. }
        destruct k as [|k]; [lia|]. cbn [inline_refs]. unfold zlen. rewrite (proj2 (Z.ltb_ge _ _)) by lia.
        unfold ensure. rewrite (proj2 (Z.eqb_neq _ _)) by lia. cbn [bind]. exact Hno.
    + intros fs Hr. inversion Hr; subst. congruence.
  - assert (offset = length bytes) by lia. subst. unfold ensure. rewrite Z.eqb_refl. cbn [bind].
    exists []. rewrite app_nil_r, skipn_all. split; [reflexivity|constructor].
Qed.

Lemma refs_of_ok fs bs : refs_of fs bs -> Forall (fun f => field_ok f = true) fs /\ fsize fs = length bs.
Proof.
  induction 1 as [|kind t b fs bs Ht Hl Hr [IH1 IH2]]; [split; constructor|]. split.
  - constructor; [|exact IH1]. unfold field_ok, nameable. cbn [fst snd]. rewrite (refs_layout_static _ _ Ht). reflexivity.
  - rewrite fsize_cons, app_length. cbn [snd length]. lia.
Qed.
Lemma refs_of_enc fs bs ms : refs_of fs bs -> enc_fields fs ms bs -> enc_refs ms bs.
Proof.
  intros H. revert ms. induction H as [|kind t b fs bs Ht Hl Hr IH]; intros ms He; inversion He; subst; [constructor|].
  match goal with E : _ ++ _ = _, H1 : encodes t _ _ |- _ => pose proof (encodes_len _ _ _ H1) as [HL _]; change (kind :: b ++ bs) with ((kind :: b) ++ bs) in E; apply app_len_inj in E; [destruct E; subst|cbn; lia] end.
  change (kind :: b ++ bs) with ((kind :: b) ++ bs). econstructor; eauto.
Qed.
Lemma enc_refs_of ms bs : enc_refs ms bs -> exists fs, refs_of fs bs /\ enc_fields fs ms bs.
Proof.
  induction 1 as [|kind t v b ms bs Ht He Hr (fs & IH1 & IH2)]; [exists []; split; constructor|].
  exists ((Some (s_ "inline_ref"), t) :: fs). split; [constructor; auto|constructor; auto].
  apply encodes_len in He. cbn in He. lia.
Qed.

(** ** Field lists *)
Lemma enc_fields_app fs1 : forall fs2 ms bs, enc_fields (fs1 ++ fs2) ms bs <->
  exists ms1 ms2 b1 b2, ms = ms1 ++ ms2 /\ bs = b1 ++ b2 /\ enc_fields fs1 ms1 b1 /\ enc_fields fs2 ms2 b2.
Proof.
  induction fs1 as [|f fs1 IH]; intros fs2 ms bs; split.
  - intros H. exists [], ms, [], bs. repeat split; [constructor|exact H].
  - intros (m1 & m2 & b1 & b2 & -> & -> & H1 & H2). inversion H1; subst. exact H2.
  - intros H. inversion H; subst; clear H.
    + match goal with H1 : enc_fields _ _ _ |- _ => apply IH in H1; destruct H1 as (m1 & m2 & b1 & b2 & -> & -> & K1 & K2) end.
      eexists (_ :: m1), m2, (_ ++ b1), b2. rewrite app_assoc. repeat split; [constructor; eassumption|exact K2].
    + match goal with H1 : enc_fields _ _ _ |- _ => apply IH in H1; destruct H1 as (m1 & m2 & b1 & b2 & -> & -> & K1 & K2) end.
      eexists (_ ++ m1), m2, (_ ++ b1), b2. rewrite !app_assoc. repeat split; [econstructor; eassumption|exact K2].
  - intros (m1 & m2 & b1 & b2 & -> & -> & H1 & H2). inversion H1; subst; cbn [app]; rewrite <- ?app_assoc.
    + constructor; [assumption|]. apply IH. eauto 10.
    + econstructor; [eassumption|]. apply IH. eauto 10.
Qed.
Lemma enc_fields_len fs ms bs : enc_fields fs ms bs -> length bs = fsize fs.
Proof. intros H. apply (encodes_len (TStruct [] km_none fs) (VStruct [] None ms) bs). constructor. exact H. Qed.
Lemma enc_fields_det fs ms ms' bs : enc_fields fs ms bs -> enc_fields fs ms' bs -> ms = ms'.
Proof. apply fields_det. apply Forall_forall. intros f _. apply encodes_det. Qed.

Lemma fields_decode oc dyn name km fs bytes : bytes_ok bytes -> Forall (fun f => field_ok f = true) fs -> fsize fs <= length bytes ->
  exists ms, struct_loop oc dyn (to_value oc dyn) name km fs bytes 0 [] = Ok ms /\ enc_fields fs ms (firstn (fsize fs) bytes).
Proof.
  intros Hb HF Hl. destruct (struct_good oc dyn name km bytes Hb fs) with (offset := 0) (acc := @nil (str * value)) as (ms & H1 & H2).
  - eapply Forall_impl; [|exact HF]. intros f Hf. split; [exact Hf|]. apply static_good. unfold field_ok in Hf. apply andb_true_iff in Hf. tauto.
  - lia.
  - exists ms. split; [exact H1|exact H2].
Qed.
Lemma fields_static fs : Forall (fun f => field_ok f = true) fs -> forallb (fun f : field => is_static_sized (snd f)) fs = true.
Proof.
  intros H. apply forallb_forall. intros f Hin. rewrite Forall_forall in H. specialize (H f Hin). unfold field_ok in H.
  apply andb_true_iff in H. apply static_ok_static. tauto.
Qed.

(** decoding of a struct that consists of one anonymous dynamic field *)
Lemma dyn_decode oc name km cb key bytes fs : bytes_ok bytes -> cb bytes = Ok fs -> Forall (fun f => field_ok f = true) fs ->
  from_bytes oc (mk_strct name km [anon (TDyn cb)]) key bytes =
  (if fsize fs <=? length bytes then
     match struct_loop oc dyn_none (to_value oc dyn_none) name km fs bytes 0 [] with Ok ms => Ok (VStruct name key ms) | r => bind r (fun _ => Fuel) end
   else Err (ENotEnoughBytes name [] (zlen bytes) (Z.of_nat (fsize fs)))).
Proof.
  intros Hb Hcb HF. unfold from_bytes, from_bytes_gen. cbn [st_fields st_name st_km]. change (st_size (mk_strct name km [anon (TDyn cb)])) with 0%Z.
  unfold ensure at 1, zlen. rewrite (proj2 (Z.leb_le _ _)) by lia. cbn [bind struct_loop anon snd].
  pose proof (slice_from_ok bytes 0 ltac:(lia)) as Hs. change (Z.of_nat 0) with 0%Z in Hs. rewrite Hs. cbn [bind skipn].
  unfold dyn_struct. rewrite Hcb. cbn [bind]. replace (st_static (mk_strct name km fs)) with true by (symmetry; exact (fields_static fs HF)). cbn [ensure bind].
  unfold from_bytes_gen. rewrite st_size_fsize. cbn [st_fields st_name st_km]. unfold ensure, zlen.
  destruct (Nat.leb_spec (fsize fs) (length bytes)) as [Hle|Hgt].
  - rewrite (proj2 (Z.leb_le _ _)) by lia. cbn [bind].
    destruct (fields_decode oc dyn_none name km fs bytes Hb HF Hle) as (ms & -> & _). cbn [bind fst snd app].
    rewrite usize_add_ok by (rewrite ?st_size_fsize; cbn [st_fields]; destruct Hb as [_ Hb]; unfold zlen in Hb; rewrite p63 in Hb; rewrite p64; lia). reflexivity.
  - rewrite (proj2 (Z.leb_gt _ _)) by lia. reflexivity.
Qed.
Lemma dyn_decode_err oc name km cb key bytes e : bytes_ok bytes -> cb bytes = Err e ->
  from_bytes oc (mk_strct name km [anon (TDyn cb)]) key bytes = Err e.
Proof.
  intros Hb Hcb. unfold from_bytes, from_bytes_gen. cbn [st_fields st_name st_km]. change (st_size (mk_strct name km [anon (TDyn cb)])) with 0%Z.
  unfold ensure at 1, zlen. rewrite (proj2 (Z.leb_le _ _)) by lia. cbn [bind struct_loop anon snd].
  pose proof (slice_from_ok bytes 0 ltac:(lia)) as Hs. change (Z.of_nat 0) with 0%Z in Hs. rewrite Hs. cbn [bind skipn].
  unfold dyn_struct. rewrite Hcb. reflexivity.
Qed.

Lemma header_ok : Forall (fun f => field_ok f = true) extent_header.
Proof. repeat constructor. Qed.

(** ** Extent items *)
Lemma extent_item_good oc key bytes : bytes_ok bytes ->
  match from_bytes oc btrfs_extent_item key bytes with
  | Ok v => exists ms, v = VStruct (s_ "btrfs_extent_item") key ms /\ enc_extent_item ms bytes
  | Err _ => forall ms, ~ enc_extent_item ms bytes
  | _ => False
  end.
Proof.
  intros Hb. change btrfs_extent_item with (mk_strct (s_ "btrfs_extent_item") (st_km btrfs_extent_item) [anon (TDyn extent_item_fields)]).
  destruct (extent_item_fields bytes) as [fs|e| |] eqn:Hcb.
  - assert (Hfs : 24 <= length bytes /\ exists rs, fs = extent_header ++ rs /\ refs_of rs (skipn 24 bytes)).
    { unfold extent_item_fields, ensure, zlen in Hcb. destruct (Z.leb_spec 24 (Z.of_nat (length bytes))) as [H24|]; cbn [bind] in Hcb; [|discriminate].
      split; [lia|]. pose proof (inline_refs_good bytes Hb (S (length bytes)) 24 extent_header ltac:(lia) ltac:(lia)) as H.
      change (Z.of_nat 24) with 24%Z in H. change [fld "refs" TU64; fld "generation" TU64; fld "flags" TU64] with extent_header in Hcb. rewrite Hcb in H. exact H. }
    destruct Hfs as (H24 & rs & -> & Hr). destruct (refs_of_ok _ _ Hr) as [Hro Hrl].
    assert (HF : Forall (fun f => field_ok f = true) (extent_header ++ rs)) by (apply Forall_app; split; [apply header_ok|exact Hro]).
    rewrite (dyn_decode oc _ _ _ key bytes _ Hb Hcb HF).
    assert (Hfull : fsize (extent_header ++ rs) = length bytes).
    { unfold fsize. rewrite map_app, list_sum_app. fold (fsize rs). rewrite Hrl, skipn_length. change (list_sum (map (fun f : field => csize (snd f)) extent_header)) with 24. lia. }
    rewrite (proj2 (Nat.leb_le _ _)) by lia.
    destruct (fields_decode oc dyn_none (s_ "btrfs_extent_item") (st_km btrfs_extent_item) _ bytes Hb HF ltac:(lia)) as (ms & -> & He).
    rewrite Hfull, firstn_all in He. exists ms. split; [reflexivity|]. apply enc_fields_app in He.
    destruct He as (m1 & m2 & b1 & b2 & -> & -> & E1 & E2). constructor; [exact E1|]. apply refs_of_enc with (fs := rs); [|exact E2].
    rewrite skipn_app_exact in Hr; [exact Hr|]. symmetry. exact (enc_fields_len _ _ _ E1).
  - rewrite (dyn_decode_err oc _ _ _ key bytes e Hb Hcb). intros ms He. destruct He as [hs hb ms bs Eh Er].
    pose proof (enc_fields_len _ _ _ Eh) as Hl. change (fsize extent_header) with 24 in Hl.
    unfold extent_item_fields, ensure, zlen in Hcb. rewrite (proj2 (Z.leb_le _ _)) in Hcb by (rewrite app_length; lia). cbn [bind] in Hcb.
    pose proof (inline_refs_good (hb ++ bs) Hb (S (length (hb ++ bs))) 24 extent_header ltac:(rewrite app_length; lia) ltac:(lia)) as H.
    change (Z.of_nat 24) with 24%Z in H. change [fld "refs" TU64; fld "generation" TU64; fld "flags" TU64] with extent_header in Hcb. rewrite Hcb in H.
    rewrite skipn_app_exact in H by lia. apply enc_refs_of in Er. destruct Er as (fs & Hr & _). exact (H fs Hr).
  - exfalso. unfold extent_item_fields, ensure, zlen in Hcb. destruct (Z.leb_spec 24 (Z.of_nat (length bytes))) as [H24|]; cbn [bind] in Hcb; [|discriminate].
    pose proof (inline_refs_good bytes Hb (S (length bytes)) 24 extent_header ltac:(lia) ltac:(lia)) as H.
    change (Z.of_nat 24) with 24%Z in H. change [fld "refs" TU64; fld "generation" TU64; fld "flags" TU64] with extent_header in Hcb. rewrite Hcb in H. exact H.
  - exfalso. unfold extent_item_fields, ensure, zlen in Hcb. destruct (Z.leb_spec 24 (Z.of_nat (length bytes))) as [H24|]; cbn [bind] in Hcb; [|discriminate].
    pose proof (inline_refs_good bytes Hb (S (length bytes)) 24 extent_header ltac:(lia) ltac:(lia)) as H.
    change (Z.of_nat 24) with 24%Z in H. change [fld "refs" TU64; fld "generation" TU64; fld "flags" TU64] with extent_header in Hcb. rewrite Hcb in H. exact H.
Qed.

(** ** File extent items *)
Lemma fe_type hs hb bytes rest : enc_fields file_extent_header hs hb -> bytes = hb ++ rest ->
  exists b, index bytes 20 = Ok b /\ assoc (s_ "type") hs = Some (VInt (Z.of_N b)).
Proof.
  intros He ->. change file_extent_header with (firstn 5 file_extent_header ++ [(Some (s_ "type"), TU8)]) in He.
  apply enc_fields_app in He. destruct He as (m1 & m2 & b1 & b2 & -> & -> & H1 & H2).
  pose proof (enc_fields_len _ _ _ H1) as Hl. change (fsize (firstn 5 file_extent_header)) with 20 in Hl.
  inversion H2; subst. match goal with H : encodes TU8 _ _ |- _ => apply enc_u8_inv in H; destruct H as (z & -> & Hz & ->) end.
  match goal with H : enc_fields [] _ _ |- _ => inversion H; subst end. change (2 ^ 8)%Z with 256%Z in Hz.
  exists (Z.to_N z). split.
  - unfold index. change (Z.to_nat 20) with 20. rewrite <- !app_assoc. rewrite nth_error_app2 by lia. rewrite Hl. cbn. rewrite Z.mod_small by lia. try reflexivity.
  - rewrite Z2N.id by lia. clear -H1.
    repeat match goal with H : enc_fields _ _ _ |- _ => inversion H; subst; clear H; cbn [file_extent_header firstn] in * end; try reflexivity.
Qed.
Lemma file_extent_good oc key bytes : bytes_ok bytes ->
  match from_bytes oc btrfs_file_extent_item key bytes with
  | Ok v => exists ms, v = VStruct (s_ "btrfs_file_extent_item") key ms /\ enc_file_extent ms bytes
  | Err _ => forall ms, ~ enc_file_extent ms bytes
  | _ => False
  end.
Proof.
  intros Hb. change btrfs_file_extent_item with (mk_strct (s_ "btrfs_file_extent_item") (st_km btrfs_file_extent_item) [anon (TDyn file_extent_item_fields)]).
  destruct (Nat.le_gt_cases 21 (length bytes)) as [Hle|Hlt].
  2:{ assert (Hcb : file_extent_item_fields bytes = Err (ENotEnoughBytes (s_ "btrfs_file_extent_item") [] (zlen bytes) 21)).
      { unfold file_extent_item_fields, ensure, zlen. rewrite (proj2 (Z.leb_gt _ _)) by lia. reflexivity. }
      rewrite (dyn_decode_err oc _ _ _ key bytes _ Hb Hcb). intros ms He.
      destruct He as [hs hb ls lb rest Eh _ _|hs hb rest Eh _]; pose proof (enc_fields_len _ _ _ Eh) as Hl; change (fsize file_extent_header) with 21 in Hl;
        rewrite ?app_length in Hlt; lia. }
  assert (HFh : Forall (fun f => field_ok f = true) file_extent_header) by (repeat constructor).
  destruct (fields_decode oc dyn_none (s_ "btrfs_file_extent_item") (st_km btrfs_file_extent_item) file_extent_header bytes Hb HFh Hle) as (hs & Hdh & Eh).
  change (fsize file_extent_header) with 21 in Eh.
  destruct (fe_type _ _ bytes (skipn 21 bytes) Eh) as (b & Hidx & Hty); [symmetry; apply firstn_skipn|].
  assert (Hcb : file_extent_item_fields bytes = Ok (if (Z.of_N b =? 1)%Z || (Z.of_N b =? 2)%Z then file_extent_header ++ file_extent_location else file_extent_header)).
  { unfold file_extent_item_fields, ensure, zlen. rewrite (proj2 (Z.leb_le _ _)) by lia. cbn [bind]. rewrite Hidx. cbn [bind].
    change BTRFS_FILE_EXTENT_REG with 1%Z. change BTRFS_FILE_EXTENT_PREALLOC with 2%Z. destruct ((Z.of_N b =? 1)%Z || (Z.of_N b =? 2)%Z); reflexivity. }
  assert (Hdisk : (Z.of_N b =? 1)%Z || (Z.of_N b =? 2)%Z = true <-> on_disk hs).
  { unfold on_disk. rewrite Hty, orb_true_iff, !Z.eqb_eq. split; intros [H|H]; try (left; congruence); right; congruence. }
  assert (Hhs : forall hs' hb' rest', enc_fields file_extent_header hs' hb' -> bytes = hb' ++ rest' -> hs' = hs /\ rest' = skipn 21 bytes).
  { intros hs' hb' rest' E' Hs. pose proof (enc_fields_len _ _ _ E') as Hl. change (fsize file_extent_header) with 21 in Hl.
    rewrite Hs in Eh. rewrite firstn_app_exact in Eh by lia. split; [eapply enc_fields_det; eassumption|]. rewrite Hs, skipn_app_exact by lia. reflexivity. }
  destruct ((Z.of_N b =? 1)%Z || (Z.of_N b =? 2)%Z) eqn:Hk.
  - assert (HF : Forall (fun f => field_ok f = true) (file_extent_header ++ file_extent_location)) by (repeat constructor).
    rewrite (dyn_decode oc _ _ _ key bytes _ Hb Hcb HF). change (fsize (file_extent_header ++ file_extent_location)) with 53.
    destruct (Nat.leb_spec 53 (length bytes)) as [H53|H53].
    + destruct (fields_decode oc dyn_none (s_ "btrfs_file_extent_item") (st_km btrfs_file_extent_item) _ bytes Hb HF H53) as (ms & -> & He).
      exists ms. split; [reflexivity|]. change (fsize (file_extent_header ++ file_extent_location)) with 53 in He.
      apply enc_fields_app in He. destruct He as (m1 & m2 & b1 & b2 & -> & Hbb & E1 & E2).
      rewrite <- (firstn_skipn 53 bytes), Hbb, <- app_assoc. apply fe_disk; [exact E1| |exact E2].
      destruct (Hhs m1 b1 (b2 ++ skipn 53 bytes) E1) as [-> _]; [rewrite app_assoc, <- Hbb; symmetry; apply firstn_skipn|]. apply Hdisk. reflexivity.
    + intros ms He. inversion He as [hs' hb ls lb rest E1 Hd E2 Em Eb|hs' hb rest E1 Hd Em Eb]; subst.
      * pose proof (enc_fields_len _ _ _ E1) as L1. pose proof (enc_fields_len _ _ _ E2) as L2.
        change (fsize file_extent_header) with 21 in L1. change (fsize file_extent_location) with 32 in L2. rewrite !app_length in H53. lia.
      * destruct (Hhs _ _ _ E1 eq_refl) as [-> _]. apply Hd, Hdisk. reflexivity.
  - rewrite (dyn_decode oc _ _ _ key bytes _ Hb Hcb HFh). change (fsize file_extent_header) with 21. rewrite (proj2 (Nat.leb_le _ _)) by lia.
    rewrite Hdh. exists hs. split; [reflexivity|]. rewrite <- (firstn_skipn 21 bytes). apply fe_inline; [exact Eh|].
    intros Hd. apply Hdisk in Hd. discriminate.
Qed.

(** ** All shipped structs *)
Definition is_dyn (s : strct) : bool := match st_fields s with [(None, TDyn _)] => true | _ => false end.
Lemma shipped_wf s : In s STRUCTS -> wf_items [] (st_fields s) = true \/ s = btrfs_extent_item \/ s = btrfs_file_extent_item.
Proof.
  intros H. unfold STRUCTS in H. cbn [In] in H.
  repeat (destruct H as [<-|H]; [first [left; reflexivity|right; left; reflexivity|right; right; reflexivity]|]). destruct H.
Qed.
Lemma shipped_size s : In s STRUCTS -> st_fields s <> [] -> (forall n, assoc (st_name s) fixed_part = Some n -> wf_items [] (st_fields s) = true -> fsize (st_fields s) = n).
Proof.
  intros H _. unfold STRUCTS in H. cbn [In] in H.
  repeat (destruct H as [<-|H]; [intros n Hn Hwf; first [discriminate Hwf|vm_compute in Hn; injection Hn as <-; vm_compute; reflexivity]|]). destruct H.
Qed.

Lemma decode_total oc s key bytes : In s STRUCTS -> bytes_ok bytes ->
  (exists ms, from_bytes oc s key bytes = Ok (VStruct (st_name s) key ms)) \/ (exists e, from_bytes oc s key bytes = Err e).
Proof.
  intros Hs Hb. destruct (shipped_wf s Hs) as [Hwf|[->| ->]].
  - pose proof (from_bytes_items oc s key bytes Hwf Hb) as H. destruct (from_bytes oc s key bytes); try contradiction; [|eauto].
    destruct H as (ms & bs & rest & -> & _). eauto.
  - pose proof (extent_item_good oc key bytes Hb) as H. destruct (from_bytes oc btrfs_extent_item key bytes); try contradiction; [|eauto].
    destruct H as (ms & -> & _). left. exists ms. reflexivity.
  - pose proof (file_extent_good oc key bytes Hb) as H. destruct (from_bytes oc btrfs_file_extent_item key bytes); try contradiction; [|eauto].
    destruct H as (ms & -> & _). left. exists ms. reflexivity.
Qed.

Lemma decode_short oc s key bytes n : In s STRUCTS -> bytes_ok bytes -> assoc (st_name s) fixed_part = Some n -> length bytes < n ->
  exists e, from_bytes oc s key bytes = Err e.
Proof.
  intros Hs Hb Hn Hl. destruct (shipped_wf s Hs) as [Hwf|[->| ->]].
  - pose proof (from_bytes_items oc s key bytes Hwf Hb) as H. destruct (from_bytes oc s key bytes); try contradiction; [|eauto].
    destruct H as (ms & bs & rest & -> & -> & He). apply enc_item_len in He. rewrite app_length in Hl.
    assert (st_fields s <> []). { intros E. clear -Hn Hl E Hs. unfold STRUCTS in Hs. cbn [In] in Hs. repeat (destruct Hs as [<-|Hs]; [first [discriminate E|vm_compute in Hn; injection Hn as <-; lia]|]). destruct Hs. }
    rewrite (shipped_size s Hs H n Hn Hwf) in He. lia.
  - vm_compute in Hn. injection Hn as <-. pose proof (extent_item_good oc key bytes Hb) as H. destruct (from_bytes oc btrfs_extent_item key bytes); try contradiction; [|eauto].
    destruct H as (ms & -> & He). destruct He as [hs hb ms bs Eh Er]. pose proof (enc_fields_len _ _ _ Eh) as L. change (fsize extent_header) with 24 in L. rewrite app_length in Hl. lia.
  - vm_compute in Hn. injection Hn as <-. pose proof (file_extent_good oc key bytes Hb) as H. destruct (from_bytes oc btrfs_file_extent_item key bytes); try contradiction; [|eauto].
    destruct H as (ms & -> & He). destruct He as [hs hb ls lb rest Eh _ _|hs hb rest Eh _]; pose proof (enc_fields_len _ _ _ Eh) as L; change (fsize file_extent_header) with 21 in L; rewrite ?app_length in Hl; lia.
Qed.

(** ** Fixed-size structs *)
Lemma struct_fixed oc s key bytes : fixed_layout (ty_of s) = true -> bytes_ok bytes ->
  if csize (ty_of s) <=? length bytes
  then exists ms, from_bytes oc s key bytes = Ok (VStruct (st_name s) key ms) /\ enc_fields (st_fields s) ms (firstn (csize (ty_of s)) bytes)
  else from_bytes oc s key bytes = Err (ENotEnoughBytes (st_name s) [] (zlen bytes) (Z.of_nat (csize (ty_of s)))).
Proof.
  intros Hf Hb. change (csize (ty_of s)) with (fsize (st_fields s)). unfold from_bytes, from_bytes_gen. rewrite st_size_fsize. unfold ensure, zlen.
  destruct (Nat.leb_spec (fsize (st_fields s)) (length bytes)) as [Hle|Hgt].
  - rewrite (proj2 (Z.leb_le _ _)) by lia. cbn [bind].
    assert (HF : Forall (fun f => field_ok f = true) (st_fields s)) by (apply Forall_forall; apply forallb_forall; exact Hf).
    destruct (fields_decode oc (dyn_struct oc) (st_name s) (st_km s) (st_fields s) bytes Hb HF Hle) as (ms & -> & He). exists ms. split; [reflexivity|exact He].
  - rewrite (proj2 (Z.leb_gt _ _)) by lia. reflexivity.
Qed.
Lemma struct_fixed_ok oc s key ms bs rest : fixed_layout (ty_of s) = true -> bytes_ok (bs ++ rest) -> enc_fields (st_fields s) ms bs ->
  from_bytes oc s key (bs ++ rest) = Ok (VStruct (st_name s) key ms).
Proof.
  intros Hf Hb He. pose proof (struct_fixed oc s key (bs ++ rest) Hf Hb) as H. pose proof (enc_fields_len _ _ _ He) as Hl.
  change (csize (ty_of s)) with (fsize (st_fields s)) in H. rewrite (proj2 (Nat.leb_le _ _)) in H by (rewrite app_length; lia).
  destruct H as (ms' & -> & He'). rewrite firstn_app_exact in He' by lia. f_equal. f_equal. eapply enc_fields_det; eassumption.
Qed.

Lemma firstn_nth_split {A} (l : list A) k x : nth_error l k = Some x -> l = firstn k l ++ x :: skipn (S k) l.
Proof. revert k; induction l; destruct k; cbn; intros H; try discriminate; [congruence|]. f_equal. apply IHl. exact H. Qed.

Lemma enc_field_at fs ms bs k n t : enc_fields fs ms bs -> nth_error fs k = Some (Some n, t) ->
  exists pre v post, ms = pre ++ (n, v) :: post /\ encodes t v (firstn (csize t) (skipn (fsize (firstn k fs)) bs)).
Proof.
  intros He Hk. apply firstn_nth_split in Hk. rewrite Hk in He. apply enc_fields_app in He.
  destruct He as (m1 & m2 & b1 & b2 & -> & -> & E1 & E2). inversion E2; subst. exists m1. do 2 eexists. split; [reflexivity|].
  rewrite skipn_app_exact by (symmetry; apply enc_fields_len in E1; exact E1).
  match goal with H : encodes _ _ ?b |- _ => rewrite firstn_app_exact; [exact H|] end.
  symmetry. eapply encodes_len. eassumption.
Qed.

(** an anonymous union among the fields *)
Lemma enc_union_at pre nm us post ms bs : enc_fields (pre ++ (None, TUnion nm us) :: post) ms bs ->
  exists ms1 ov ms2, ms = ms1 ++ ov ++ ms2 /\ enc_fields pre ms1 (firstn (fsize pre) bs) /\
    enc_overlay us ov (firstn (csize (TUnion nm us)) (skipn (fsize pre) bs)) /\
    enc_fields post ms2 (skipn (fsize pre + csize (TUnion nm us)) bs).
Proof.
  intros He. apply enc_fields_app in He. destruct He as (m1 & m2 & b1 & b2 & -> & -> & E1 & E2). inversion E2; subst.
  pose proof (enc_fields_len _ _ _ E1) as L1. match goal with H : encodes _ _ ?b |- _ => pose proof (encodes_len _ _ _ H) as [L2 _]; apply enc_union_inv in H; destruct H as (ov & Eov & L3 & Ho) end.
  injection Eov as <- <-. eexists m1, _, _. split; [reflexivity|]. split; [rewrite firstn_app_exact by lia; exact E1|].
  rewrite skipn_app_exact by lia. split; [rewrite firstn_app_exact by lia; exact Ho|].
  rewrite Nat.add_comm, <- skipn_skipn, skipn_app_exact by lia. rewrite skipn_app_exact by lia. assumption.
Qed.
(** every member of an overlay starts at the beginning *)
Lemma overlay_at us ov bs n t : enc_overlay us ov bs -> In (Some n, t) us ->
  exists v, In (n, v) ov /\ encodes t v (firstn (csize t) bs).
Proof.
  induction 1 as [bs|n' t' fs v ms b pad bs He Hb Ho IH|t' fs nm inner ms b pad bs He Hb Ho IH]; intros Hin; [destruct Hin| |].
  - destruct Hin as [E|Hin]; [|destruct (IH Hin) as (v' & H1 & H2); exists v'; split; [right; exact H1|exact H2]].
    injection E as -> ->. exists v. split; [left; reflexivity|]. rewrite Hb, firstn_app_exact; [exact He|]. symmetry. eapply encodes_len. exact He.
  - destruct Hin as [E|Hin]; [discriminate|]. destruct (IH Hin) as (v' & H1 & H2). exists v'. split; [apply in_or_app; right; exact H1|exact H2].
Qed.

(** ** Extent items decode in one way only *)
Lemma refs_det ms bs : enc_refs ms bs -> forall ms', enc_refs ms' bs -> ms = ms'.
Proof.
  induction 1 as [|kind t v b ms bs Ht He Hr IH]; intros ms' H'; inversion H'; subst; [reflexivity|].
  match goal with H1 : ref_layout (Z.of_N kind) = Some ?t' |- _ => assert (t = t') by congruence; subst t' end.
  match goal with H1 : encodes t _ (kind :: ?b0), H2 : ?b0 ++ _ = _ |- _ =>
    pose proof (encodes_len _ _ _ He) as [L1 _]; pose proof (encodes_len _ _ _ H1) as [L2 _]; cbn in L1, L2; apply app_len_inj in H2; [destruct H2; subst|lia];
    rewrite (encodes_det _ _ _ _ He H1) end.
  f_equal. apply IH. assumption.
Qed.
Lemma extent_det ms ms' bs : enc_extent_item ms bs -> enc_extent_item ms' bs -> ms = ms'.
Proof.
  intros H H'. destruct H as [hs hb ms bs E1 E2]. inversion H' as [hs' hb' ms2 bs' E1' E2' Em Eb]; subst.
  apply app_len_inj in Eb; [|rewrite (enc_fields_len _ _ _ E1), (enc_fields_len _ _ _ E1'); reflexivity]. destruct Eb as [-> ->].
  rewrite (enc_fields_det _ _ _ _ E1 E1'), (refs_det _ _ E2 _ E2'). reflexivity.
Qed.
Lemma file_extent_det ms ms' bs : enc_file_extent ms bs -> enc_file_extent ms' bs -> ms = ms'.
Proof.
  intros H H'. destruct H as [hs hb ls lb rest E1 Hd E2|hs hb rest E1 Hd]; inversion H' as [hs' hb' ls' lb' rest' E1' Hd' E2' Em Eb|hs' hb' rest' E1' Hd' Em Eb]; subst;
  (apply app_len_inj in Eb; [|rewrite (enc_fields_len _ _ _ E1), (enc_fields_len _ _ _ E1'); reflexivity]); destruct Eb as [-> Eb];
  pose proof (enc_fields_det _ _ _ _ E1 E1') as ->; try contradiction; [|reflexivity].
  apply app_len_inj in Eb; [|rewrite (enc_fields_len _ _ _ E2), (enc_fields_len _ _ _ E2'); reflexivity]. destruct Eb as [-> _].
  rewrite (enc_fields_det _ _ _ _ E2 E2'). reflexivity.
Qed.

Lemma shipped_sizes s n : In s STRUCTS -> assoc (st_name s) fixed_part = Some n ->
  st_name s <> s_ "btrfs_extent_item" -> st_name s <> s_ "btrfs_file_extent_item" -> ty_size (ty_of s) = Z.of_nat n.
Proof.
  intros H Hn H1 H2. unfold STRUCTS in H. cbn [In] in H.
  repeat (destruct H as [<-|H]; [first [exfalso; apply H1; reflexivity|exfalso; apply H2; reflexivity|vm_compute in Hn; injection Hn as <-; vm_compute; reflexivity]|]). destruct H.
Qed.
Lemma shipped_names : NoDup (map st_name STRUCTS).
Proof.
  assert (Hd : forall l : list str, (fix nd (l : list str) := match l with [] => true | x :: l' => negb (existsb (str_eqb x) l') && nd l' end) l = true -> NoDup l).
  { induction l as [|x l IH]; intros H; constructor; apply andb_true_iff in H; destruct H as [H1 H2]; [|auto].
    intros Hin. apply negb_true_iff in H1. assert (existsb (str_eqb x) l = true); [|congruence]. apply existsb_exists. exists x. split; [exact Hin|apply str_eqb_eq; reflexivity]. }
  apply Hd. vm_compute. reflexivity.
Qed.
