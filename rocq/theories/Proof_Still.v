(** C75: lemmas. *)
From Verif Require Import Base Structs Value Variables Fs Ast Eval Lib Demo_Search Spec_Search Proof_Search Proof_Search2 Spec_Still.
From Coq Require Import Sorted Lia.

Lemma sorted_ext (l1 l2 : list chunk) : StronglySorted klt (map key_of l1) -> StronglySorted klt (map key_of l2) ->
  (forall c, In c l1 <-> In c l2) -> l1 = l2.
Proof.
  revert l2. induction l1 as [|a l1 IH]; intros l2 H1 H2 He.
  - destruct l2 as [|b l2]; [reflexivity|]. elim (proj2 (He b) (or_introl eq_refl)).
  - destruct l2 as [|b l2]; [elim (proj1 (He a) (or_introl eq_refl))|].
    cbn in H1, H2. apply StronglySorted_inv in H1, H2. destruct H1 as [H1 F1], H2 as [H2 F2]. rewrite Forall_forall in F1, F2.
    assert (L1 : forall c, In c l1 -> klt (key_of a) (key_of c)) by (intros c Hc; apply F1; apply in_map; exact Hc).
    assert (L2 : forall c, In c l2 -> klt (key_of b) (key_of c)) by (intros c Hc; apply F2; apply in_map; exact Hc).
    assert (a = b) as <-.
    { destruct (proj1 (He a) (or_introl eq_refl)) as [->|Ha]; [reflexivity|].
      destruct (proj2 (He b) (or_introl eq_refl)) as [->|Hb]; [reflexivity|].
      elim (klt_irrefl (key_of a)). exact (klt_trans _ _ _ (L1 _ Hb) (L2 _ Ha)). }
    f_equal. apply IH; [exact H1|exact H2|]. intros c. split; intros Hc.
    + destruct (proj1 (He c) (or_intror Hc)) as [<-|?]; [|assumption]. elim (klt_irrefl _ (L1 _ Hc)).
    + destruct (proj2 (He c) (or_intror Hc)) as [<-|?]; [|assumption]. elim (klt_irrefl _ (L2 _ Hc)).
Qed.
Lemma selection_fun tree k s1 s2 : selection tree k s1 -> selection tree k s2 -> s1 = s2.
Proof. intros [A1 B1] [A2 B2]. apply sorted_ext; [exact A1|exact A2|]. intros c. rewrite B1, B2. reflexivity. Qed.

Lemma shown_fun oc items l1 l2 : shown oc items l1 -> shown oc items l2 -> l1 = l2.
Proof.
  intros H. revert l2. induction H as [|h b cs vs HN H IH|h b cs vs pre s post v HS HP HK HB H IH]; intros l2 H2.
  - inversion H2. reflexivity.
  - inversion H2 as [|h' b' cs' vs' HN' H'|h' b' cs' vs' pre' s' post' v' HS' HP' HK' HB' H']; subst; [auto|].
    rewrite (HN s') in HK'; [discriminate|]. rewrite HS'. apply in_or_app. right. left. reflexivity.
  - inversion H2 as [|h' b' cs' vs' HN' H'|h' b' cs' vs' pre' s' post' v' HS' HP' HK' HB' H']; subst.
    + rewrite (HN' s) in HK; [discriminate|]. rewrite HS. apply in_or_app. right. left. reflexivity.
    + assert (s = s') as <-.
      { clear -HS HS' HP HP' HK HK'. rewrite HS in HS'. clear HS. revert pre' HS' HP'. induction pre as [|p pre IHp]; intros [|p' pre'] HE HP'; cbn in HE.
        - injection HE as -> _. reflexivity.
        - injection HE as -> _. rewrite (HP' p' (or_introl eq_refl)) in HK. discriminate.
        - injection HE as -> _. rewrite (HP s' (or_introl eq_refl)) in HK'. discriminate.
        - injection HE as -> HE. apply (IHp (fun p Hp => HP p (or_intror Hp)) pre' HE (fun p Hp => HP' p (or_intror Hp))). }
      rewrite HB in HB'. injection HB' as <-. f_equal. apply IH. exact H'.
Qed.
Lemma shown_app oc a b l : shown oc (a ++ b) l -> exists la lb, l = la ++ lb /\ shown oc a la /\ shown oc b lb.
Proof.
  revert l. induction a as [|c a IH]; cbn; intros l H; [exists [], l; split; [reflexivity|split; [constructor|exact H]]|].
  inversion H as [|h' b' cs' vs' HN' H'|h' b' cs' vs' pre' s' post' v' HS' HP' HK' HB' H']; subst;
  destruct (IH _ H') as (la & lb & -> & Ha & Hb).
  - exists la, lb. split; [reflexivity|]. split; [constructor; assumption|exact Hb].
  - exists (v' :: la), lb. split; [reflexivity|]. split; [econstructor; eassumption|exact Hb].
Qed.
Lemma shown_sub oc a b : sublist a b -> forall la lb, shown oc a la -> shown oc b lb -> sublist la lb.
Proof.
  induction 1 as [|x a b H IH|x a b H IH]; intros la lb HA HB.
  - inversion HA. inversion HB. constructor.
  - inversion HB as [|h' b' cs' vs' HN' H'|h' b' cs' vs' pre' s' post' v' HS' HP' HK' HB' H']; subst; [auto|constructor; auto].
  - assert (S1 : shown oc ([x] ++ a) la) by exact HA. assert (S2 : shown oc ([x] ++ b) lb) by exact HB.
    apply shown_app in S1, S2. destruct S1 as (x1 & l1 & -> & X1 & L1), S2 as (x2 & l2 & -> & X2 & L2).
    rewrite (shown_fun _ _ _ _ X2 X1). pose proof (IH _ _ L1 L2) as Hs. clear -Hs. induction x1; cbn; [exact Hs|constructor; exact IHx1].
Qed.
Lemma sublist_nil {A} (l : list A) : sublist [] l.
Proof. induction l; constructor; assumption. Qed.
Lemma sorted_sub (l1 l : list chunk) : StronglySorted klt (map key_of l1) -> StronglySorted klt (map key_of l) ->
  (forall c, In c l1 -> In c l) -> sublist l1 l.
Proof.
  revert l1. induction l as [|b l IH]; intros l1 H1 H He.
  - destruct l1 as [|a l1]; [constructor|]. elim (He a (or_introl eq_refl)).
  - destruct l1 as [|a l1]; [apply sublist_nil|]. pose proof H1 as H1'. cbn in H1, H. apply StronglySorted_inv in H1, H. destruct H1 as [H1 F1], H as [H F]. rewrite Forall_forall in F1, F.
    assert (L1 : forall c, In c l1 -> klt (key_of a) (key_of c)) by (intros c Hc; apply F1; apply in_map; exact Hc).
    assert (L : forall c, In c l -> klt (key_of b) (key_of c)) by (intros c Hc; apply F; apply in_map; exact Hc).
    destruct (He a (or_introl eq_refl)) as [->|Ha].
    + apply sub_keep. apply IH; [exact H1|exact H|]. intros c Hc. destruct (He c (or_intror Hc)) as [<-|?]; [|assumption]. elim (klt_irrefl _ (L1 _ Hc)).
    + apply sub_skip. apply IH; [exact H1'|exact H|]. intros c Hc. destruct (He c Hc) as [<-|?]; [|assumption].
      destruct Hc as [->|Hc]; [exact Ha|]. elim (klt_irrefl (key_of a)). exact (klt_trans _ _ _ (L1 _ Hc) (L _ Ha)).
Qed.

Lemma narrower_range k1 k c : narrower k1 k -> in_range k1 c -> in_range k c.
Proof.
  intros (_ & N1 & N2 & T1 & T2) (H1 & H2 & H3). split; [|split; [|lia]].
  - intros Hk. destruct (klt_total (min_key k1) (min_key k)) as [?|[Hx|Hx]]; [contradiction| |]; apply H1; [rewrite Hx; exact Hk|exact (klt_trans _ _ _ Hk Hx)].
  - intros Hk. destruct (klt_total (max_key k) (max_key k1)) as [?|[Hx|Hx]]; [contradiction| |]; apply H2; [rewrite <- Hx; exact Hk|exact (klt_trans _ _ _ Hx Hk)].
Qed.

Lemma cut_selection tree k k1 k2 s s1 s2 : cut tree k k1 k2 -> selection tree k s -> selection tree k1 s1 -> selection tree k2 s2 -> s = s1 ++ s2.
Proof.
  intros (_ & (Emin & Emax) & (C1 & C2 & C3) & Hgap & (T1 & T2) & T3 & T4) [S H] [S1 H1] [S2 H2].
  apply sorted_ext; [exact S| |].
  - rewrite map_app. apply sorted_app; [exact S1|exact S2|]. intros x y Hx Hy. apply in_map_iff in Hx, Hy. destruct Hx as (cx & <- & Hx), Hy as (cy & <- & Hy).
    apply H1 in Hx. apply H2 in Hy. destruct Hx as (_ & _ & Hx & _), Hy as (_ & Hy & _).
    destruct (klt_total (key_of cx) (max_key k1)) as [A|[A|A]]; [| |contradiction].
    + pose proof (klt_trans _ _ _ A C2) as B. destruct (klt_total (min_key k2) (key_of cy)) as [D|[D|D]]; [exact (klt_trans _ _ _ B D)|rewrite <- D; exact B|contradiction].
    + destruct (klt_total (min_key k2) (key_of cy)) as [D|[D|D]]; [rewrite A; exact (klt_trans _ _ _ C2 D)|rewrite A, <- D; exact C2|contradiction].
  - intros c. rewrite in_app_iff, H, H1, H2. unfold in_range. rewrite T1, T2, T3, T4, Emin, Emax. split.
    + intros (Hc & R1 & R2 & R3). destruct (klt_total (max_key k1) (key_of c)) as [A|A].
      * right. split; [exact Hc|]. split; [|split; [exact R2|exact R3]]. intros B. exact (Hgap c Hc (conj A B)).
      * left. split; [exact Hc|]. split; [exact R1|]. split; [|exact R3]. intros B. destruct A as [A|A]; [rewrite A in B; exact (klt_irrefl _ B)|exact (klt_irrefl _ (klt_trans _ _ _ A B))].
    + intros [(Hc & R1 & R2 & R3)|(Hc & R1 & R2 & R3)].
      * split; [exact Hc|]. split; [exact R1|]. split; [|exact R3]. intros B. apply C3.
        destruct (klt_total (key_of c) (max_key k1)) as [A|[A|A]]; [| |contradiction]; [exact (klt_trans _ _ _ (klt_trans _ _ _ B A) C2)|rewrite A in B; exact (klt_trans _ _ _ B C2)].
      * split; [exact Hc|]. split; [|split; [exact R2|exact R3]]. intros B. apply C1.
        destruct (klt_total (min_key k2) (key_of c)) as [A|[A|A]]; [| |contradiction]; [exact (klt_trans _ _ _ (klt_trans _ _ _ C2 A) B)|rewrite <- A in B; exact (klt_trans _ _ _ C2 B)].
Qed.
