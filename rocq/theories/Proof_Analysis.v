(** The analyser against Spec_Analysis (C85). *)
From Verif Require Import Base Ast Pom Parse Structs Definitions Value Variables Semantics Fs Eval Runtime Errors Lib Spec_Vars Proof_Vars Spec_Session Proof_Session Spec_Analysis.
Require Import Lia.
Arguments s_ s%string_scope.

(** ** Blocks *)
Lemma entered_app a b : entered (a ++ b) = entered a + entered b.
Proof. unfold entered. rewrite filter_app, app_length. reflexivity. Qed.
Lemma exited_app a b : exited (a ++ b) = exited a + exited b.
Proof. unfold exited. rewrite filter_app, app_length. reflexivity. Qed.
Fixpoint fits (d : nat) (l : list item) : Prop :=
  match l with
  | [] => True
  | Enter _ :: l => fits (S d) l
  | Leave :: l => match d with O => False | S d => fits d l end
  | _ :: l => fits d l
  end.
Lemma fits_spec l : forall d, fits d l <-> forall a b, l = a ++ b -> exited a <= d + entered a.
Proof.
  assert (Hcons : forall (P : list item -> Prop) i l, (forall a b, i :: l = a ++ b -> P a) <-> P [] /\ forall a b, l = a ++ b -> P (i :: a)).
  { intros P i l0. split.
    - intros H. split; [apply (H [] (i :: l0)); reflexivity|]. intros a b ->. apply (H (i :: a) b). reflexivity.
    - intros [H1 H2] a b Hab. destruct a as [|j a]; [exact H1|]. injection Hab as <- ->. eapply H2. reflexivity. }
  assert (Hcons' : forall d i l, (forall a b, i :: l = a ++ b -> exited a <= d + entered a) <-> forall a b, l = a ++ b -> exited (i :: a) <= d + entered (i :: a)).
  { intros d i l0. rewrite (Hcons (fun a => exited a <= d + entered a)). split; [tauto|]. intros H. split; [apply Nat.le_0_l|exact H]. }
  induction l as [|i l IH]; intros d.
  - split; [intros _ a b H; destruct a; [apply Nat.le_0_l|discriminate]|intros _; exact I].
  - rewrite Hcons'. assert (Hsame : (forall a, exited (i :: a) = exited a /\ entered (i :: a) = entered a) -> (fits d l <-> forall a b, l = a ++ b -> exited (i :: a) <= d + entered (i :: a))).
    { intros Hs. rewrite IH. split; intros H a b Hab; specialize (H a b Hab); destruct (Hs a) as [Hx He]; rewrite ?Hx, ?He in *; lia. }
    destruct i as [x|x|x|t|w|lp|]; cbn [fits]; try (apply Hsame; intros a; split; reflexivity).
    + rewrite IH. split; intros H a b Hab; specialize (H a b Hab); unfold entered, exited in *; cbn [filter is_enter is_leave length] in *; lia.
    + destruct d as [|d].
      * split; [intros []|]. intros H. specialize (H [] l eq_refl). cbn in H. lia.
      * rewrite IH. split; intros H a b Hab; specialize (H a b Hab); unfold entered, exited in *; cbn [filter is_enter is_leave length] in *; lia.
Qed.
Lemma stays_fits l : stays l <-> fits 0 l.
Proof. rewrite fits_spec. reflexivity. Qed.
Lemma fits_app a : forall d b, fits d (a ++ b) <-> fits d a /\ fits (d + entered a - exited a) b.
Proof.
  induction a as [|i a IH]; intros d b; cbn [app fits].
  - unfold entered, exited. cbn. rewrite Nat.add_0_r, Nat.sub_0_r. tauto.
  - assert (Hsame : (exited (i :: a) = exited a /\ entered (i :: a) = entered a) -> (fits d (a ++ b) <-> fits d a /\ fits (d + entered (i :: a) - exited (i :: a)) b)).
    { intros [Hx He]. rewrite Hx, He. apply IH. }
    destruct i as [x|x|x|t|w|lp|]; try (apply Hsame; split; reflexivity).
    + rewrite IH. unfold entered, exited. cbn [filter is_enter is_leave length]. rewrite Nat.add_succ_r. reflexivity.
    + destruct d as [|d]; [tauto|]. rewrite IH. unfold entered, exited. cbn [filter is_enter is_leave length]. reflexivity.
Qed.
Definition leaves (n : nat) : list item := repeat Leave n.
Lemma fits_leaves n : forall d, fits d (leaves n) <-> n <= d.
Proof. induction n as [|n IH]; intros d; cbn [leaves repeat fits]; [split; [lia|auto]|]. destruct d as [|d]; [split; [tauto|lia]|]. fold (leaves n). rewrite IH. lia. Qed.
Lemma leaves_snoc n : leaves n ++ [Leave] = leaves (S n).
Proof. induction n as [|n IH]; [reflexivity|]. cbn [leaves repeat app]. f_equal. exact IH. Qed.

(** ** The open blocks, from the last item backwards; n is how many are to be skipped *)
Fixpoint vis (x : str) (r : list item) (n : nat) : Prop :=
  match r with
  | [] => False
  | Declare y :: r => (n = 0 /\ y = x) \/ vis x r n
  | Enter _ :: r => vis x r (n - 1)
  | Leave :: r => vis x r (S n)
  | _ :: r => vis x r n
  end.
Fixpoint loops (r : list item) (n : nat) : Z :=
  match r with
  | [] => 0
  | Enter lp :: r => match n with O => ((if lp then 1 else 0) + loops r 0)%Z | S n => loops r n end
  | Leave :: r => loops r (S n)
  | _ :: r => loops r n
  end.

(* extending by an item the part after some position *)
Lemma split_snoc {A} (P : list A -> A -> list A -> Prop) l (i : A) :
  (exists a j b, l ++ [i] = a ++ j :: b /\ P a j b) <-> P l i [] \/ exists a j b, l = a ++ j :: b /\ P a j (b ++ [i]).
Proof.
  split.
  - intros (a & j & b & H & HP). destruct b as [|k b _] using rev_ind.
    + apply app_inj_tail in H. destruct H as [-> ->]. left. exact HP.
    + right. rewrite app_comm_cons, app_assoc in H. apply app_inj_tail in H. destruct H as [-> ->]. exists a, j, b. split; [reflexivity|exact HP].
  - intros [H|(a & j & b & -> & H)]; [exists l, i, []; auto|]. exists a, j, (b ++ [i]). split; [rewrite <- app_assoc; reflexivity|exact H].
Qed.
Definition seen_at (Q : item -> Prop) (l : list item) (n : nat) : Prop := exists a j b, l = a ++ j :: b /\ (Q j /\ fits 0 (b ++ leaves n)).
Lemma seen_snoc Q l i n : seen_at Q (l ++ [i]) n <->
  (Q i /\ n = 0) \/ match i with Enter _ => seen_at Q l (n - 1) | Leave => seen_at Q l (S n) | _ => seen_at Q l n end.
Proof.
  unfold seen_at. rewrite (split_snoc (fun a j b => Q j /\ fits 0 (b ++ leaves n))). cbn [app].
  assert (Hl : fits 0 (leaves n) <-> n = 0) by (rewrite fits_leaves; lia). rewrite Hl. apply or_iff_compat_l.
  assert (Hstep : forall m, (forall b, fits 0 ((b ++ [i]) ++ leaves n) <-> fits 0 (b ++ leaves m)) ->
     ((exists a j b, l = a ++ j :: b /\ Q j /\ fits 0 ((b ++ [i]) ++ leaves n)) <-> (exists a j b, l = a ++ j :: b /\ Q j /\ fits 0 (b ++ leaves m)))).
  { intros m Hm. split; intros (a & j & b & H1 & H2 & H3); exists a, j, b; (split; [exact H1|split; [exact H2|apply Hm; exact H3]]). }
  destruct i as [x|x|x|t|w|lp|]; apply Hstep; intros b; rewrite <- app_assoc; cbn [app]; rewrite !fits_app; cbn [fits]; try tauto.
  rewrite !fits_leaves. split; intros [H1 H2]; (split; [exact H1|lia]).
Qed.
Lemma vis_seen x l n : vis x (rev l) n <-> seen_at (fun j => j = Declare x) l n.
Proof.
  revert n. induction l as [|i l IH] using rev_ind; intros n.
  - split; [intros []|]. intros ([|? a] & j & b & H & _); discriminate.
  - rewrite seen_snoc, rev_app_distr. cbn [rev app].
    destruct i as [y|y|y|t|w|lp|]; cbn [vis]; rewrite IH;
      try (split; [intros H; right; exact H|intros [[Hd _]|H]; [discriminate|exact H]]).
    split; (intros [[H1 H2]|H]; [left|right; exact H]); [subst; auto|injection H1 as ->; auto].
Qed.
Lemma vis_visible l x : vis x (rev l) 0 <-> visible l x.
Proof.
  rewrite vis_seen. unfold seen_at, visible. split.
  - intros (a & j & b & H & -> & Hf). exists a, b. split; [exact H|]. apply stays_fits. cbn [leaves repeat] in Hf. rewrite app_nil_r in Hf. exact Hf.
  - intros (a & b & H & Hs). exists a, (Declare x), b. split; [exact H|]. split; [reflexivity|]. cbn [leaves repeat]. rewrite app_nil_r. apply stays_fits. exact Hs.
Qed.
Lemma loops_nonneg r : forall n, (0 <= loops r n)%Z.
Proof. induction r as [|i r IH]; intros n; cbn [loops]; [lia|]. destruct i; try apply IH. destruct n; [|apply IH]. specialize (IH 0). destruct loop; lia. Qed.
Lemma loops_seen l n : (0 < loops (rev l) n)%Z <-> seen_at (fun j => j = Enter true) l n.
Proof.
  revert n. induction l as [|i l IH] using rev_ind; intros n.
  - split; [cbn; lia|]. intros ([|? a] & j & b & H & _); discriminate.
  - rewrite seen_snoc, rev_app_distr. cbn [rev app].
    destruct i as [y|y|y|t|w|lp|]; cbn [loops]; rewrite ?IH;
      try (split; [intros H; right; exact H|intros [[Hd _]|H]; [discriminate|exact H]]).
    destruct n as [|n].
    + pose proof (loops_nonneg (rev l) 0). cbn [Nat.sub]. rewrite <- IH. destruct lp; [split; [intros _; left; auto|lia]|]. split; [intros HH; right; lia|]. intros [[Hd _]|HH]; [discriminate|lia].
    + rewrite IH. replace (S n - 1) with n by lia. split; [auto|]. intros [[_ Hd]|HH]; [discriminate|exact HH].
Qed.
Lemma loops_in_loop l : (0 < loops (rev l) 0)%Z <-> in_loop l.
Proof.
  rewrite loops_seen. unfold seen_at, in_loop. split.
  - intros (a & j & b & H & -> & Hf). exists a, b. split; [exact H|]. apply stays_fits. cbn [leaves repeat] in Hf. rewrite app_nil_r in Hf. exact Hf.
  - intros (a & b & H & Hs). exists a, (Enter true), b. split; [exact H|]. split; [reflexivity|]. cbn [leaves repeat]. rewrite app_nil_r. apply stays_fits. exact Hs.
Qed.
(* a stretch that stays inside and leaves e blocks open *)
Lemma loops_skip r l : forall n, fits 0 l -> entered l - exited l <= n -> loops (rev l ++ r) n = loops r (n - (entered l - exited l)).
Proof.
  induction l as [|i l IH] using rev_ind; intros n Hf Hn.
  - cbn. rewrite Nat.sub_0_r. reflexivity.
  - rewrite fits_app in Hf. destruct Hf as [Hf Hi]. rewrite rev_app_distr. cbn [rev app]. rewrite entered_app, exited_app in Hn |- *.
    assert (He : exited l <= entered l) by (apply (proj1 (fits_spec l 0) Hf l []); rewrite app_nil_r; reflexivity).
    destruct i as [y|y|y|t|w|lp|]; cbn [loops fits] in *; unfold entered at 2, exited at 2 in Hn; unfold entered at 2, exited at 2; cbn [filter is_enter is_leave length] in *;
      try (rewrite IH; [f_equal; lia|exact Hf|lia]).
    + destruct n as [|n]; [lia|]. rewrite IH; [f_equal; lia|exact Hf|lia].
    + destruct (0 + entered l - exited l) as [|k] eqn:Hk; [contradiction|]. rewrite IH; [f_equal; lia|exact Hf|lia].
Qed.
