(** Proofs for C70: encodings determine the bytes. *)
From Verif Require Import Base Structs Definitions Value Lib Spec_Decode Proof_Decode Proof_Decode2.
From Coq Require Import Lia.
Arguments s_ s%string_scope.

Definition inj (t : ty) : Prop := forall v b b', encodes t v b -> encodes t v b' -> b = b'.
Lemma enc_name t nm ms b nm' ms' b' : encodes t (VStruct nm None ms) b -> encodes t (VStruct nm' None ms') b' -> nm = nm'.
Proof. intros H H'. inversion H; subst; inversion H'; subst; reflexivity. Qed.
Lemma f2len {A B} (R : A -> B -> Prop) l l' : Forall2 R l l' -> length l = length l'.
Proof. induction 1; cbn; congruence. Qed.
Lemma same_count t nm ms b nm' ms' b' : encodes t (VStruct nm None ms) b -> encodes t (VStruct nm' None ms') b' -> length ms = length ms'.
Proof. intros H H'. apply flat_fits in H. apply flat_fits in H'. apply f2len in H. apply f2len in H'. congruence. Qed.
Lemma forall2_inj t vs bss : inj t -> Forall2 (encodes t) vs bss -> forall bss', Forall2 (encodes t) vs bss' -> bss = bss'.
Proof.
  intros Hi H. induction H as [|v b vs bss H HF IH]; intros bss' H'; inversion H'; subst; [reflexivity|]. f_equal; [eapply Hi; eassumption|apply IH; assumption].
Qed.
Lemma fields_inj fs : Forall (fun f : field => inj (snd f)) fs -> forall ms b b', enc_fields fs ms b -> enc_fields fs ms b' -> b = b'.
Proof.
  induction 1 as [|f fs Hf HF IH]; intros ms b b' H H'.
  - inversion H; subst. inversion H'; subst. reflexivity.
  - inversion H as [|n t fs0 v ms0 b1 bs1 He Hr|t fs0 nm inner ms0 b1 bs1 He Hr]; subst.
    + inversion H' as [|n' t' fs0' v' ms0' b1' bs1' He' Hr'|]; subst. f_equal; [eapply Hf; eassumption|eapply IH; eassumption].
    + inversion H' as [| |t' fs0' nm' inner' ms0' b1' bs1' He' Hr' E1 E2 E3]; subst.
      pose proof (enc_name _ _ _ _ _ _ _ He He') as <-. pose proof (same_count _ _ _ _ _ _ _ He He') as HL.
      apply app_len_inj in E2; [|symmetry; exact HL]. destruct E2 as [-> ->]. f_equal; [eapply Hf; cbn; eassumption|eapply IH; eassumption].
Qed.
Lemma overlay_inj fs : Forall (fun f : field => inj (snd f)) fs -> forall ms b b', enc_overlay fs ms b -> enc_overlay fs ms b' ->
  Forall (fun f : field => firstn (csize (snd f)) b = firstn (csize (snd f)) b') fs.
Proof.
  induction 1 as [|f fs Hf HF IH]; intros ms b b' H H'; [constructor|].
  inversion H as [|n t fs0 v ms0 b1 pad bs1 He Hp Hr|t fs0 nm inner ms0 b1 pad bs1 He Hp Hr]; subst.
  - inversion H' as [|n' t' fs0' v' ms0' b1' pad' bs1' He' Hp' Hr'|]; subst. constructor; [|eapply IH; eassumption]. cbn [snd].
    rewrite !firstn_app_exact by (symmetry; eapply encodes_len; eassumption). eapply Hf; eassumption.
  - inversion H' as [| |t' fs0' nm' inner' ms0' b1' pad' bs1' He' Hp' Hr' E1 E2]; subst.
    pose proof (enc_name _ _ _ _ _ _ _ He He') as <-. pose proof (same_count _ _ _ _ _ _ _ He He') as HL.
    apply app_len_inj in E2; [|symmetry; exact HL]. destruct E2 as [-> ->]. constructor; [|eapply IH; eassumption]. cbn [snd].
    rewrite !firstn_app_exact by (symmetry; eapply encodes_len; eassumption). eapply Hf; cbn; eassumption.
Qed.
Lemma firstn_max (b b' : str) (l : list nat) : Forall (fun n => firstn n b = firstn n b') l -> firstn (list_max l) b = firstn (list_max l) b'.
Proof.
  induction 1 as [|n l Hn Hl IH]; [reflexivity|]. change (list_max (n :: l)) with (Nat.max n (list_max l)). destruct (Nat.max_spec n (list_max l)) as [[_ ->]|[_ ->]]; assumption.
Qed.
Lemma encodes_inj t : inj t.
Proof.
  induction t using ty_ind'; intros v b b' He He'; try (inversion He; subst; fail).
  - apply enc_u8_inv in He. destruct He as (z & -> & Hz & ->). apply enc_u8_inv in He'. destruct He' as (z' & E & Hz' & ->). congruence.
  - apply enc_u16_inv in He. destruct He as (z & -> & Hz & ->). apply enc_u16_inv in He'. destruct He' as (z' & E & Hz' & ->). congruence.
  - apply enc_u32_inv in He. destruct He as (z & -> & Hz & ->). apply enc_u32_inv in He'. destruct He' as (z' & E & Hz' & ->). congruence.
  - apply enc_u64_inv in He. destruct He as (z & -> & Hz & ->). apply enc_u64_inv in He'. destruct He' as (z' & E & Hz' & ->). congruence.
  - apply enc_array_inv in He. destruct He as (vs & bss & -> & -> & HF & ->). apply enc_array_inv in He'. destruct He' as (vs' & bss' & Hl & E & HF' & ->). injection E as <-.
    f_equal. eapply forall2_inj; eassumption.
  - apply enc_struct_inv in He. destruct He as (ms & -> & He). apply enc_struct_inv in He'. destruct He' as (ms' & E & He'). injection E as <-. eapply fields_inj; eassumption.
  - apply enc_union_inv in He. destruct He as (ms & -> & Hl & He). apply enc_union_inv in He'. destruct He' as (ms' & E & Hl' & He'). injection E as <-.
    pose proof (overlay_inj fs H ms b b' He He') as HO. apply Forall_map with (f := fun f : field => csize (snd f)) (P := fun n => firstn n b = firstn n b') in HO. apply firstn_max in HO.
    change (list_max (map (fun f : field => csize (snd f)) fs)) with (csize (TUnion nm fs)) in HO. rewrite <- Hl in HO at 1. rewrite <- Hl' in HO. rewrite !firstn_all in HO. exact HO.
Qed.
Lemma enc_fields_inj fs ms b b' : enc_fields fs ms b -> enc_fields fs ms b' -> b = b'.
Proof. apply fields_inj. apply Forall_forall. intros f _. apply encodes_inj. Qed.
Lemma item_inj acc fs ms b : enc_item acc fs ms b -> forall b', enc_item acc fs ms b' -> b = b'.
Proof.
  induction 1 as [acc|acc n t fs v ms b bs He Hr IH|acc t fs nm inner ms b bs He Hr IH|acc n len fs ms s bs Ha Hr IH|acc n t cnt fs ms vs bss bs Ha HF Hr IH]; intros b' H'.
  - inversion H'; subst. reflexivity.
  - inversion H' as [|acc' n' t' fs' v' ms' b1 bs1 He' Hr'| | |]; subst; try (inversion He; fail). f_equal; [eapply encodes_inj; eassumption|apply IH; assumption].
  - inversion H' as [| |acc' t' fs' nm' inner' ms' b1 bs1 He' Hr' E1 E2 E3 E4| |]; subst.
    pose proof (enc_name _ _ _ _ _ _ _ He He') as <-. pose proof (same_count _ _ _ _ _ _ _ He He') as HL.
    apply app_len_inj in E3; [|symmetry; exact HL]. destruct E3 as [-> ->]. f_equal; [eapply encodes_inj; eassumption|apply IH; assumption].
  - inversion H' as [|acc' n' t' fs' v' ms' b1 bs1 He' Hr'| | |]; subst; [inversion He'|]. f_equal. apply IH. assumption.
  - inversion H' as [|acc' n' t' fs' v' ms' b1 bs1 He' Hr'| | |acc' n' t' cnt' fs' ms' vs' bss' bs1 Ha' HF' Hr']; subst; [inversion He'|].
    f_equal; [f_equal; eapply forall2_inj; [apply encodes_inj| |]; eassumption|apply IH; assumption].
Qed.
Lemma kind_shown kind t v b : ref_layout (Z.of_N kind) = Some t -> encodes t v (kind :: b) -> exists nm ms, v = VStruct nm None ((s_ "type", VInt (Z.of_N kind)) :: ms).
Proof.
  intros Ht He. assert (HT : exists nm km fs, t = TStruct nm km ((Some (s_ "type"), TU8) :: fs)).
  { unfold ref_layout in Ht. repeat match type of Ht with (if ?c then _ else _) = _ => destruct c end; try discriminate Ht; injection Ht as <-; eauto. }
  destruct HT as (nm & km & fs & ->). apply enc_struct_inv in He. destruct He as (ms & -> & He). inversion He as [|n t0 fs0 v ms0 b1 bs1 He1 Hr E1 E2 E3|]; subst.
  apply enc_u8_inv in He1. destruct He1 as (z & -> & Hz & ->). cbn [le_bytes app] in E3. inversion E3 as [[E4 E5]]. exists nm, ms0. f_equal. f_equal. f_equal. f_equal. rewrite Z2N.id; [|apply Z.mod_pos_bound; lia].
  symmetry. apply Z.mod_small. exact Hz.
Qed.
Lemma refs_inj ms b : enc_refs ms b -> forall b', enc_refs ms b' -> b = b'.
Proof.
  induction 1 as [|kind t v b ms bs Ht He Hr IH]; intros b' H'; inversion H' as [|kind' t' v' b1 ms' bs' Ht' He' Hr']; subst; [reflexivity|].
  destruct (kind_shown _ _ _ _ Ht He) as (nm & m & E). destruct (kind_shown _ _ _ _ Ht' He') as (nm' & m' & E'). rewrite E in E'. injection E' as _ Ek _. apply N2Z.inj in Ek. subst kind'.
  assert (t = t') by congruence. subst t'. f_equal; [eapply encodes_inj; eassumption|apply IH; assumption].
Qed.
Lemma fields_count fs ms b : enc_fields fs ms b -> forall ms' b', enc_fields fs ms' b' -> length ms = length ms'.
Proof.
  induction fs as [|f fs IH] in ms, b |- *; intros H ms' b' H'; [inversion H; inversion H'; reflexivity|].
  inversion H as [|n t fs0 v ms0 b1 bs1 He Hr|t fs0 nm inner ms0 b1 bs1 He Hr]; subst; inversion H' as [|n' t' fs0' v' ms0' b1' bs1' He' Hr'|t' fs0' nm' inner' ms0' b1' bs1' He' Hr']; subst.
  - cbn. f_equal. eapply IH; eassumption.
  - rewrite !app_length. f_equal; [eapply same_count; eassumption|eapply IH; eassumption].
Qed.
Lemma extent_inj ms b : enc_extent_item ms b -> forall b', enc_extent_item ms b' -> b = b'.
Proof.
  intros [hs hb ms0 bs E1 E2] b' H'. inversion H' as [hs' hb' ms1 bs' E1' E2' Em Eb]; subst.
  apply app_len_inj in Em; [|eapply fields_count; eassumption]. destruct Em as [-> ->]. f_equal; [eapply enc_fields_inj; eassumption|eapply refs_inj; eassumption].
Qed.
Lemma named_count fs ms b : forallb (fun f : field => match fst f with Some _ => true | None => false end) fs = true -> enc_fields fs ms b -> length ms = length fs.
Proof.
  induction fs as [|f fs IH] in ms, b |- *; intros HN H; inversion H as [|n t fs0 v ms0 b1 bs1 He Hr|t fs0 nm inner ms0 b1 bs1 He Hr]; subst; [reflexivity| |discriminate].
  cbn in *. f_equal. eapply IH; eassumption.
Qed.
Lemma file_extent_inj ms b : enc_file_extent ms b -> forall b', enc_file_extent ms b' -> exists bs rest rest', b = bs ++ rest /\ b' = bs ++ rest' /\ 21 <= length bs.
Proof.
  assert (L : forall hs hb, enc_fields file_extent_header hs hb -> length hs = 6 /\ length hb = 21).
  { intros hs hb H. split; [exact (named_count file_extent_header _ _ eq_refl H)|apply enc_fields_len in H; exact H]. }
  assert (L2 : forall ls lb, enc_fields file_extent_location ls lb -> length ls = 4).
  { intros hs hb H. exact (named_count file_extent_location _ _ eq_refl H). }
  intros [hs hb ls lb rest E1 Hd E2|hs hb rest E1 Hd] b' H'; inversion H' as [hs' hb' ls' lb' rest' E1' Hd' E2' Em Eb|hs' hb' rest' E1' Hd' Em Eb]; subst;
    destruct (L _ _ E1) as [La Lb], (L _ _ E1') as [La' Lb'].
  - apply app_len_inj in Em; [|congruence]. destruct Em as [-> ->]. exists (hb ++ lb), rest, rest'. rewrite <- !app_assoc. rewrite (enc_fields_inj _ _ _ _ E1 E1'), (enc_fields_inj _ _ _ _ E2 E2'). split; [reflexivity|]. split; [reflexivity|]. rewrite app_length. lia.
  - apply L2 in E2. rewrite app_length in La'. lia.
  - apply L2 in E2'. rewrite app_length in La. lia.
  - exists hb, rest, rest'. rewrite (enc_fields_inj _ _ _ _ E1 E1'). split; [reflexivity|]. split; [reflexivity|]. lia.
Qed.
