(** Decoding failures and their texts (C90). *)
From Verif Require Import Base Structs Definitions Value Errors Lib Spec_Decode Spec_Items Proof_Decode Proof_Decode2.
Require Import Lia ZArith.
Arguments s_ s%string_scope.
Opaque Z.pow.

(** trailing fields come last *)
Fixpoint trail_last (fs : list field) : bool :=
  match fs with
  | [] => true
  | f :: fs' => if is_static_sized (snd f) then trail_last fs' else (fsize fs' =? 0) && trail_last fs'
  end.

Lemma message_short s what have need : message (ENotEnoughBytes s what have need) = Some (short_text s what have need).
Proof.
  unfold message, short_text. cbv zeta. f_equal.
  rewrite <- !app_assoc. reflexivity.
Qed.

Section Loop.
Variable oc : bool.
Variable dyn : str -> (Z -> Z -> Z -> bool) -> (str -> res (list field)) -> str -> res (list (str * value) * Z).
Notation tv := (to_value oc dyn).

Lemma loop_faults name km bytes : bytes_ok bytes -> forall fs tys offset acc,
  wf_items tys fs = true -> trail_last fs = true -> Forall2 fits acc tys -> offset + fsize fs <= length bytes ->
  match struct_loop oc dyn tv name km fs bytes (Z.of_nat offset) acc with
  | Ok _ => True
  | Err er => exists m, message er = Some m /\ item_fault (zlen bytes) name acc fs (skipn offset bytes) m
  | _ => False
  end.
Proof.
  intros Hb. pose proof Hb as [_ Hz]. unfold zlen in Hz. rewrite p63 in Hz.
  induction fs as [|f fs IH]; intros tys offset acc Hwf Htl HF Ho.
  - exact I.
  - rewrite fsize_cons in Ho. cbn [trail_last] in Htl. destruct (is_static_sized (snd f)) eqn:Hst.
    + rewrite wf_static in Hwf by exact Hst. rewrite !andb_true_iff in Hwf. destruct Hwf as [[Hf Hsz] Hwf]. apply Nat.leb_le in Hsz.
      unfold field_ok in Hf. apply andb_true_iff in Hf. destruct Hf as [Hs Hn].
      rewrite struct_loop_static by exact Hst. rewrite slice_from_ok by lia. cbn [bind].
      assert (Hle : csize (snd f) <= length (skipn offset bytes)) by (rewrite skipn_length; lia).
      destruct (field_good oc dyn f (static_good oc dyn _ Hs) Hn (skipn offset bytes)) as (v & Hv & He & Ha); [apply bytes_ok_skipn; auto|exact Hle|].
      rewrite Hv. cbn [bind]. rewrite skipn_length in Hle. rewrite ty_size_csize, usize_add_ok by (rewrite p64; lia). cbn [bind].
      rewrite <- Nat2Z.inj_add. pose proof (IH (tys ++ shown f) (offset + csize (snd f)) (acc ++ members f v) Hwf Htl) as H.
      specialize (H (Forall2_app HF (fits_members f v _ He Ha)) ltac:(lia)).
      destruct (struct_loop oc dyn tv name km fs bytes (Z.of_nat (offset + csize (snd f))) (acc ++ members f v)) as [l|er| |]; auto.
      destruct H as (m & Hm & Hfault). exists m. split; [exact Hm|].
      replace (skipn offset bytes) with (firstn (csize (snd f)) (skipn offset bytes) ++ skipn (offset + csize (snd f)) bytes)
        by (rewrite (Nat.add_comm offset), <- skipn_skipn; apply firstn_skipn).
      unfold members in *. destruct f as [[n|] t]; cbn [fst snd] in *.
      -- eapply if_named; eassumption.
      -- destruct (Ha eq_refl) as (nm & inner & ->). eapply if_anon; eassumption.
    + apply andb_true_iff in Htl. destruct Htl as [Hz0 Htl]. apply Nat.eqb_eq in Hz0.
      destruct f as [nmo t]. destruct t; try discriminate Hst; cbn [snd wf_items fst] in Hwf; try discriminate Hwf;
        try (exfalso; cbn [snd] in Hst; unfold field_ok in Hwf; cbn [snd] in Hwf; rewrite !andb_true_iff in Hwf;
             destruct Hwf as [[[Hwf _] _] _]; apply static_ok_static in Hwf; congruence).
      * (* trailing string *)
        destruct nmo as [nn|]; [|discriminate Hwf]. apply andb_true_iff in Hwf. destruct Hwf as [Hsm Hwf]. cbn [snd csize] in Ho.
        destruct (fits_assoc acc tys len_field HF Hsm) as (z & Hz1 & Hz2). cbn [struct_loop snd fst]. unfold get_field_value. rewrite Hz1. cbn [as_integer bind].
        rewrite p32 in Hz2. rewrite as_usize_small by (rewrite p64; lia). rewrite usize_add_ok by (rewrite p64; lia). cbn [bind].
        assert (Hsl : zlen (skipn offset bytes) = (zlen bytes - Z.of_nat offset)%Z) by (unfold zlen; rewrite skipn_length; lia).
        destruct (Z.leb_spec (z + Z.of_nat offset) (zlen bytes)) as [Hle|Hgt]; cbn [ensure bind ok_or].
        2:{ eexists. split; [apply message_short|].
            replace (z + Z.of_nat offset)%Z with (zlen bytes - zlen (skipn offset bytes) + z)%Z by lia. eapply if_str_short; [exact Hz1|lia]. }
        unfold zlen in Hle. assert (Hzn : exists k, z = Z.of_nat k) by (exists (Z.to_nat z); lia). destruct Hzn as [k ->].
        rewrite (Z.add_comm (Z.of_nat k)), slice_ok by lia. cbn [bind]. rewrite usize_add_ok by (rewrite p64; lia). cbn [bind].
        rewrite <- Nat2Z.inj_add.
        set (s := firstn k (skipn offset bytes)). assert (Hs : length s = k) by (unfold s; rewrite firstn_length, skipn_length; lia).
        pose proof (IH (tys ++ shown (Some nn, TTrailStr len_field)) (offset + k) (acc ++ [(nn, VStr s)]) Hwf Htl) as H.
        assert (HF' : Forall2 fits [(nn, VStr s)] (shown (Some nn, TTrailStr len_field))) by (constructor; [split; [reflexivity|discriminate]|constructor]).
        specialize (H (Forall2_app HF HF') ltac:(lia)).
        destruct (struct_loop oc dyn tv name km fs bytes (Z.of_nat (offset + k)) (acc ++ [(nn, VStr s)])) as [l|er| |]; auto.
        destruct H as (m & Hm & Hfault). exists m. split; [exact Hm|].
        replace (skipn offset bytes) with (s ++ skipn (offset + k) bytes)
          by (rewrite (Nat.add_comm offset), <- skipn_skipn; apply firstn_skipn).
        apply if_str_ok; [|exact Hfault]. rewrite Hz1. unfold zlen. rewrite Hs. reflexivity.
      * (* trailing array *)
        destruct nmo as [nn|]; [|discriminate Hwf]. rewrite !andb_true_iff in Hwf. destruct Hwf as [[[Hsm Hs] [Hsz Hsz1]] Hwf]. apply Nat.leb_le in Hsz, Hsz1. cbn [snd csize] in Ho.
        destruct (fits_assoc acc tys count_field HF Hsm) as (z & Hz1 & Hz2). cbn [struct_loop snd fst]. unfold get_field_value. rewrite Hz1. cbn [as_integer bind].
        rewrite p32 in Hz2. rewrite as_usize_small by (rewrite p64; lia).
        assert (Hsl : zlen (skipn offset bytes) = (zlen bytes - Z.of_nat offset)%Z) by (unfold zlen; rewrite skipn_length; lia).
        assert (Hzn : exists k, z = Z.of_nat k) by (exists (Z.to_nat z); lia). destruct Hzn as [k ->].
        rewrite ty_size_csize, usize_mul_ok by (rewrite p64; nia). cbn [bind]. rewrite usize_add_ok by (rewrite p64; nia). cbn [bind].
        destruct (Z.leb_spec (Z.of_nat (csize t) * Z.of_nat k + Z.of_nat offset) (zlen bytes)) as [Hle|Hgt]; cbn [ensure bind].
        2:{ eexists. split; [apply message_short|].
            replace (Z.of_nat (csize t) * Z.of_nat k + Z.of_nat offset)%Z with (zlen bytes - zlen (skipn offset bytes) + Z.of_nat k * Z.of_nat (csize t))%Z by lia.
            eapply if_types_short; [exact Hz1|lia]. }
        unfold zlen in Hle. rewrite Nat2Z.id, <- ty_size_csize.
        destruct (trail_good oc dyn t bytes Hs Hb k offset) as (vs & bss & H1 & H2 & H3 & H4); [nia|]. rewrite H1. cbn [bind fst snd ok_or].
        pose proof (IH (tys ++ shown (Some nn, TTrailTypes t count_field)) (offset + k * csize t) (acc ++ [(nn, VArr vs false)]) Hwf Htl) as H.
        assert (HF' : Forall2 fits [(nn, VArr vs false)] (shown (Some nn, TTrailTypes t count_field))) by (constructor; [split; [reflexivity|discriminate]|constructor]).
        specialize (H (Forall2_app HF HF') ltac:(nia)).
        destruct (struct_loop oc dyn tv name km fs bytes (Z.of_nat (offset + k * csize t)) (acc ++ [(nn, VArr vs false)])) as [l|er| |]; auto.
        destruct H as (m & Hm & Hfault). exists m. split; [exact Hm|].
        replace (skipn offset bytes) with (concat bss ++ skipn (offset + k * csize t) bytes)
          by (rewrite H4, (Nat.add_comm offset), <- skipn_skipn; apply firstn_skipn).
        eapply if_types_ok; [|exact H3|exact Hfault]. unfold zlen. rewrite H2. exact Hz1.
Qed.
End Loop.

(** ** Only one text *)
Lemma zlen_app (a b : str) : zlen (a ++ b) = (zlen a + zlen b)%Z.
Proof. unfold zlen. rewrite app_length. lia. Qed.
Lemma zlen_inj {A B} (a : list A) (b : list B) : zlen a = zlen b -> length a = length b.
Proof. unfold zlen. lia. Qed.

Lemma split_enc t v v' b b' (bs bs' : str) : encodes t v b -> encodes t v' b' -> b ++ bs = b' ++ bs' -> v = v' /\ bs = bs'.
Proof.
  intros H1 H2 E. pose proof (proj1 (encodes_len _ _ _ H1)) as L1. pose proof (proj1 (encodes_len _ _ _ H2)) as L2.
  apply app_len_inj in E; [|lia]. destruct E as [-> ->]. split; [eapply encodes_det; eassumption|reflexivity].
Qed.
Lemma split_encs t vs vs' bss bss' (bs bs' : str) : Forall2 (encodes t) vs bss -> Forall2 (encodes t) vs' bss' -> zlen vs = zlen vs' ->
  concat bss ++ bs = concat bss' ++ bs' -> vs = vs' /\ bs = bs'.
Proof.
  intros H1 H2 L E. apply zlen_inj in L. pose proof (proj1 (forall2_len t vs bss (encodes_len t) H1)) as L1. pose proof (proj1 (forall2_len t vs' bss' (encodes_len t) H2)) as L2.
  apply app_len_inj in E; [|rewrite L1, L2, L; reflexivity]. destruct E as [E ->]. split; [|reflexivity].
  eapply forall2_det; [apply encodes_det|exact H1|exact H2|exact L|exact E].
Qed.
Lemma not_enc_str len v b : ~ encodes (TTrailStr len) v b. Proof. intros H. inversion H. Qed.
Lemma not_enc_types t len v b : ~ encodes (TTrailTypes t len) v b. Proof. intros H. inversion H. Qed.
Lemma encs_len t vs bss : Forall2 (encodes t) vs bss -> zlen (concat bss) = (zlen vs * Z.of_nat (csize t))%Z.
Proof. intros H. unfold zlen. rewrite (proj1 (forall2_len t vs bss (encodes_len t) H)). lia. Qed.

Ltac absurd_enc := exfalso; match goal with
  | H : encodes (TTrailStr _) _ _ |- _ => exact (not_enc_str _ _ _ H)
  | H : encodes (TTrailTypes _ _) _ _ |- _ => exact (not_enc_types _ _ _ _ H) end.

Lemma fault_det total s acc fs bs m : item_fault total s acc fs bs m -> forall m', item_fault total s acc fs bs m' -> m = m'.
Proof.
  induction 1 as [acc n t fs v b bs m He H IH|acc t fs nm inner b bs m He H IH|acc n len fs x bs m Ha H IH|acc n t cnt fs vs bss bs m Ha HF H IH|acc n len fs bs k Ha Hk|acc n t cnt fs bs k Ha Hk];
    intros m' H'.
  - remember (b ++ bs) as all eqn:Ea. inversion H' as [? ? ? ? v' b' bs' ? He' Hf'| |? ? ? ? x' bs' ? Ha' Hf'|? ? ? ? ? vs' bss' bs' ? Ha' HF' Hf'|? ? ? ? ? k' Ha' Hk'|? ? ? ? ? ? k' Ha' Hk']; subst; try absurd_enc.
    match goal with E : _ ++ _ = b ++ bs |- _ => destruct (split_enc _ _ _ _ _ _ _ He' He E) as [-> ->] end. apply IH. assumption.
  - remember (b ++ bs) as all eqn:Ea. inversion H' as [|? ? ? nm' inner' b' bs' ? He' Hf'| | | |]; subst.
    match goal with E : _ ++ _ = b ++ bs |- _ => destruct (split_enc _ _ _ _ _ _ _ He' He E) as [Ei ->] end. injection Ei as -> ->. apply IH. assumption.
  - remember (x ++ bs) as all eqn:Ea. inversion H' as [? ? ? ? v' b' bs' ? He' Hf'| |? ? ? ? x' bs' ? Ha' Hf'|? ? ? ? ? vs' bss' bs' ? Ha' HF' Hf'|? ? ? ? ? k' Ha' Hk'|? ? ? ? ? ? k' Ha' Hk']; subst; try absurd_enc.
    + rewrite Ha in Ha'. injection Ha' as Ha'. match goal with E : _ ++ _ = x ++ bs |- _ => symmetry in E; apply app_len_inj in E; [destruct E as [-> ->]|exact (zlen_inj _ _ Ha')] end. apply IH. assumption.
    + exfalso. rewrite Ha in Ha'. injection Ha' as Ha'. rewrite zlen_app in Hk'. unfold zlen in *. lia.
  - remember (concat bss ++ bs) as all eqn:Ea. inversion H' as [? ? ? ? v' b' bs' ? He' Hf'| |? ? ? ? x' bs' ? Ha' Hf'|? ? ? ? ? vs' bss' bs' ? Ha' HF' Hf'|? ? ? ? ? k' Ha' Hk'|? ? ? ? ? ? k' Ha' Hk']; subst; try absurd_enc.
    + rewrite Ha in Ha'. injection Ha' as Ha'. match goal with E : _ ++ _ = concat bss ++ bs |- _ => symmetry in E; destruct (split_encs _ _ _ _ _ _ _ HF HF' Ha' E) as [<- <-] end. apply IH. assumption.
    + exfalso. rewrite Ha in Ha'. injection Ha' as Ha'. rewrite zlen_app, (encs_len _ _ _ HF) in Hk'. unfold zlen in *. nia.
  - inversion H' as [? ? ? ? v' b' bs' ? He' Hf'| |? ? ? ? x' bs' ? Ha' Hf'|? ? ? ? ? vs' bss' bs' ? Ha' HF' Hf'|? ? ? ? ? k' Ha' Hk'|? ? ? ? ? ? k' Ha' Hk']; subst; try absurd_enc.
    + exfalso. rewrite Ha in Ha'. injection Ha' as ->. rewrite zlen_app in Hk. unfold zlen in *. lia.
    + rewrite Ha in Ha'. injection Ha' as ->. reflexivity.
  - inversion H' as [? ? ? ? v' b' bs' ? He' Hf'| |? ? ? ? x' bs' ? Ha' Hf'|? ? ? ? ? vs' bss' bs' ? Ha' HF' Hf'|? ? ? ? ? k' Ha' Hk'|? ? ? ? ? ? k' Ha' Hk']; subst; try absurd_enc.
    + exfalso. rewrite Ha in Ha'. injection Ha' as ->. rewrite zlen_app, (encs_len _ _ _ HF') in Hk. unfold zlen in *. nia.
    + rewrite Ha in Ha'. injection Ha' as ->. reflexivity.
Qed.

Lemma fault_not_item total s acc fs ms b : enc_item acc fs ms b -> forall rest m, ~ item_fault total s acc fs (b ++ rest) m.
Proof.
  induction 1 as [acc|acc n t fs v ms b bs He Hi IH|acc t fs nm inner ms b bs He Hi IH|acc n len fs ms x bs Ha Hi IH|acc n t cnt fs ms vs bss bs Ha HF Hi IH];
    intros rest m H'.
  - inversion H'.
  - rewrite <- app_assoc in H'. remember (b ++ bs ++ rest) as all eqn:Ea. inversion H' as [? ? ? ? v' b' bs' ? He' Hf'| |? ? ? ? x' bs' ? Ha' Hf'|? ? ? ? ? vs' bss' bs' ? Ha' HF' Hf'|? ? ? ? ? k' Ha' Hk'|? ? ? ? ? ? k' Ha' Hk']; subst; try absurd_enc.
    match goal with E : _ ++ _ = b ++ _ |- _ => destruct (split_enc _ _ _ _ _ _ _ He' He E) as [-> ->] end. eapply IH. eassumption.
  - rewrite <- app_assoc in H'. remember (b ++ bs ++ rest) as all eqn:Ea. inversion H' as [|? ? ? nm' inner' b' bs' ? He' Hf'| | | |]; subst.
    match goal with E : _ ++ _ = b ++ _ |- _ => destruct (split_enc _ _ _ _ _ _ _ He' He E) as [Ei ->] end. injection Ei as -> ->. eapply IH. eassumption.
  - rewrite <- app_assoc in H'. remember (x ++ bs ++ rest) as all eqn:Ea. inversion H' as [? ? ? ? v' b' bs' ? He' Hf'| |? ? ? ? x' bs' ? Ha' Hf'|? ? ? ? ? vs' bss' bs' ? Ha' HF' Hf'|? ? ? ? ? k' Ha' Hk'|? ? ? ? ? ? k' Ha' Hk']; subst; try absurd_enc.
    + rewrite Ha in Ha'. injection Ha' as Ha'. match goal with E : _ ++ _ = x ++ _ |- _ => symmetry in E; apply app_len_inj in E; [destruct E as [-> <-]|exact (zlen_inj _ _ Ha')] end. eapply IH. eassumption.
    + rewrite Ha in Ha'. injection Ha' as Ha'. rewrite zlen_app in Hk'. unfold zlen in *. lia.
  - rewrite <- app_assoc in H'. remember (concat bss ++ bs ++ rest) as all eqn:Ea. inversion H' as [? ? ? ? v' b' bs' ? He' Hf'| |? ? ? ? x' bs' ? Ha' Hf'|? ? ? ? ? vs' bss' bs' ? Ha' HF' Hf'|? ? ? ? ? k' Ha' Hk'|? ? ? ? ? ? k' Ha' Hk']; subst; try absurd_enc.
    + rewrite Ha in Ha'. injection Ha' as Ha'. match goal with E : _ ++ _ = concat bss ++ _ |- _ => symmetry in E; destruct (split_encs _ _ _ _ _ _ _ HF HF' Ha' E) as [<- <-] end. eapply IH. eassumption.
    + rewrite Ha in Ha'. injection Ha' as Ha'. rewrite zlen_app, (encs_len _ _ _ HF) in Hk'. unfold zlen in *. nia.
Qed.

Lemma fault_len total s acc fs bs m : item_fault total s acc fs bs m -> trail_last fs = true -> fsize fs <= length bs.
Proof.
  assert (Hst : forall t v b, encodes t v b -> trail_last ((None, t) :: []) = true -> True) by auto. clear Hst.
  induction 1 as [acc n t fs v b bs m He H IH|acc t fs nm inner b bs m He H IH|acc n len fs x bs m Ha H IH|acc n t cnt fs vs bss bs m Ha HF H IH|acc n len fs bs k Ha Hk|acc n t cnt fs bs k Ha Hk];
    intros Hl; rewrite fsize_cons; cbn [trail_last snd csize] in *; rewrite ?app_length.
  - rewrite (proj1 (encodes_len _ _ _ He)). destruct (is_static_sized t).
    + specialize (IH Hl). lia.
    + apply andb_true_iff in Hl. destruct Hl as [E _]. apply Nat.eqb_eq in E. lia.
  - rewrite (proj1 (encodes_len _ _ _ He)). destruct (is_static_sized t).
    + specialize (IH Hl). lia.
    + apply andb_true_iff in Hl. destruct Hl as [E _]. apply Nat.eqb_eq in E. lia.
  - cbn [is_static_sized] in Hl. apply andb_true_iff in Hl. destruct Hl as [_ Hl]. specialize (IH Hl). lia.
  - cbn [is_static_sized] in Hl. apply andb_true_iff in Hl. destruct Hl as [_ Hl]. specialize (IH Hl). lia.
  - cbn [is_static_sized] in Hl. apply andb_true_iff in Hl. destruct Hl as [E _]. apply Nat.eqb_eq in E. lia.
  - cbn [is_static_sized] in Hl. apply andb_true_iff in Hl. destruct Hl as [E _]. apply Nat.eqb_eq in E. lia.
Qed.
