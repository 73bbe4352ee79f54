(** Decimal text of integers. *)
From Verif Require Import Base Value Lib Spec_Grammar.
From Coq Require Import Lia.
From Coq Require DecimalFacts DecimalN DecimalPos.
Arguments s_ s%string_scope.

Lemma numeral_step s z c d : numeral s z -> (Z.of_N c - 48 = d)%Z -> (0 <= d <= 9)%Z -> numeral (s ++ [c]) (10 * z + d).
Proof. intros H <- Hd. apply num_snoc; [exact H|]. unfold decimal. lia. Qed.
Lemma acc_numeral u : forall p s, numeral s (Zpos p) -> numeral (s ++ uint_str u) (Zpos (Pos.of_uint_acc u p)).
Proof.
  induction u as [|u IH|u IH|u IH|u IH|u IH|u IH|u IH|u IH|u IH|u IH]; intros p s H; cbn [uint_str Pos.of_uint_acc]; [rewrite app_nil_r; exact H|..];
  match goal with |- numeral (_ ++ ?c :: _) _ =>
    change (c :: uint_str u) with ([c] ++ uint_str u); rewrite app_assoc; apply IH;
    match goal with |- numeral _ (Z.pos ?q) => replace (Z.pos q) with (10 * Zpos p + (Z.of_N c - 48))%Z by (cbn [Z.of_N]; lia) end;
    apply (numeral_step _ _ _ _ H eq_refl); cbn; lia
  end.
Qed.
Lemma uint_numeral u : forall s, numeral s 0 -> numeral (s ++ uint_str u) (Z.of_N (N.of_uint u)).
Proof.
  unfold N.of_uint.
  induction u as [|u IH|u _|u _|u _|u _|u _|u _|u _|u _|u _]; intros s H; cbn [uint_str Pos.of_uint]; [rewrite app_nil_r; exact H| |..];
  match goal with |- numeral (_ ++ ?c :: _) _ => change (c :: uint_str u) with ([c] ++ uint_str u); rewrite app_assoc end;
  [apply IH; apply (numeral_step _ _ 48%N _ H eq_refl); cbn; lia|..]; cbn [Z.of_N]; apply acc_numeral;
  match goal with |- numeral (_ ++ [?c]) _ => apply (numeral_step _ _ c _ H eq_refl); cbn; lia end.
Qed.
Lemma dec_N_numeral n : numeral (dec_N n) (Z.of_N n).
Proof.
  unfold dec_N. pose proof (uint_numeral (N.to_uint n) [] num_nil) as H. rewrite DecimalN.Unsigned.of_to in H. exact H.
Qed.
Lemma dec_N_nonempty n : dec_N n <> [].
Proof.
  unfold dec_N. destruct (N.to_uint n) eqn:H; cbn; try discriminate. destruct n as [|p]; [discriminate|].
  cbn in H. elim (DecimalPos.Unsigned.to_uint_nonnil p H).
Qed.
Lemma dec_N_canonical n t : dec_N n = 48%N :: t -> t = [].
Proof.
  unfold dec_N. intros H. assert (Hu : N.to_uint n = Decimal.unorm (N.to_uint n)) by (rewrite <- (DecimalN.Unsigned.to_of (N.to_uint n)), DecimalN.Unsigned.of_to; reflexivity).
  destruct (N.to_uint n) as [|u|u|u|u|u|u|u|u|u|u]; cbn [uint_str] in H; try discriminate. injection H as <-.
  unfold Decimal.unorm in Hu. destruct (Decimal.nzhead (Decimal.D0 u)) eqn:Hz; try discriminate.
  - injection Hu as ->. reflexivity.
  - elim (DecimalFacts.nzhead_nonzero _ _ Hz).
Qed.

(** digit strings have one value *)
Lemma numeral_inv s z : numeral s z -> forall s' c, s = s' ++ [c] -> exists z', numeral s' z' /\ decimal c /\ z = (10 * z' + (Z.of_N c - 48))%Z.
Proof.
  intros H s' c E. destruct H as [|s z d H Hd]; [destruct s'; discriminate|]. apply app_inj_tail in E. destruct E as [-> ->]. eauto.
Qed.
Lemma numeral_fun s : forall z z', numeral s z -> numeral s z' -> z = z'.
Proof.
  induction s as [|c s IH] using rev_ind; intros z z' H H'.
  - inversion H; [|destruct s; discriminate]. inversion H'; [reflexivity|destruct s; discriminate].
  - destruct (numeral_inv _ _ H _ _ eq_refl) as (y & Hy & _ & ->). destruct (numeral_inv _ _ H' _ _ eq_refl) as (y' & Hy' & _ & ->).
    rewrite (IH _ _ Hy Hy'). reflexivity.
Qed.
Lemma numeral_nonneg s z : numeral s z -> (0 <= z)%Z.
Proof. induction 1 as [|s z c H IH Hd]; [lia|]. unfold decimal in Hd. lia. Qed.
Lemma numeral_digits s z : numeral s z -> Forall decimal s.
Proof. induction 1 as [|s z c H IH Hd]; [constructor|]. apply Forall_app. split; [exact IH|repeat constructor; apply Hd]. Qed.
Lemma dec_N_digits n : Forall decimal (dec_N n).
Proof. exact (numeral_digits _ _ (dec_N_numeral n)). Qed.
Lemma dec_N_inj m n : dec_N m = dec_N n -> m = n.
Proof. intros H. pose proof (dec_N_numeral m) as Hm. rewrite H in Hm. pose proof (numeral_fun _ _ _ Hm (dec_N_numeral n)). lia. Qed.
Lemma dec_Z_inj a b : dec_Z a = dec_Z b -> a = b.
Proof.
  unfold dec_Z. destruct (Z.ltb_spec a 0), (Z.ltb_spec b 0); intros E.
  - injection E as E. apply dec_N_inj in E. lia.
  - pose proof (dec_N_digits (Z.to_N b)) as D. rewrite <- E in D. inversion_clear D. unfold decimal in *. lia.
  - pose proof (dec_N_digits (Z.to_N a)) as D. rewrite E in D. inversion_clear D. unfold decimal in *. lia.
  - apply dec_N_inj in E. lia.
Qed.

(** two numerals of the same value without needless zeros are the same text *)
Lemma numeral_pos s z c : numeral (c :: s) z -> c <> 48%N -> (0 < z)%Z.
Proof.
  revert z. induction s as [|d s IH] using rev_ind; intros z H Hc.
  - destruct (numeral_inv _ _ H [] c eq_refl) as (y & Hy & Hd & ->). apply numeral_nonneg in Hy. unfold decimal in Hd. lia.
  - destruct (numeral_inv _ _ H (c :: s) d eq_refl) as (y & Hy & Hd & ->). specialize (IH _ Hy Hc). unfold decimal in Hd. lia.
Qed.
Definition canonical (s : str) : Prop := s <> [] /\ forall t, s = 48%N :: t -> t = [].
Lemma numeral_unique s : forall t z, numeral s z -> numeral t z -> canonical s -> canonical t -> s = t.
Proof.
  assert (Hgen : forall s t z, numeral s z -> numeral t z -> (forall u, s = 48%N :: u -> u = []) -> (forall u, t = 48%N :: u -> u = []) -> (s = [] <-> t = []) -> s = t).
  { clear s. induction s as [|c s IH] using rev_ind; intros t z Hs Ht Cs Ct Hn.
    - destruct t; [reflexivity|]. destruct (proj1 Hn eq_refl). reflexivity.
    - destruct t as [|d t _] using rev_ind; [destruct s; cbn in *; pose proof (proj2 Hn eq_refl); discriminate|].
      destruct (numeral_inv _ _ Hs _ _ eq_refl) as (y & Hy & Hc & Ey). destruct (numeral_inv _ _ Ht _ _ eq_refl) as (y' & Hy' & Hd & Ey').
      unfold decimal in Hc, Hd. assert (y = y') by lia. assert (c = d) by lia. subst y' d. f_equal.
      assert (C : forall q x, numeral q y -> (forall u, q ++ [x] = 48%N :: u -> u = []) -> (forall u, q = 48%N :: u -> u = []) /\ (q = [] <-> y = 0%Z)).
      { intros q x Hq Cq. destruct q as [|e q]; [split; [discriminate|split; [intros _; apply (numeral_fun [] _ _ Hq num_nil)|reflexivity]]|].
        destruct (N.eq_dec e 48) as [->|He]; [specialize (Cq (q ++ [x]) eq_refl); destruct q; discriminate|].
        split; [intros u Eu; congruence|]. split; [discriminate|]. pose proof (numeral_pos _ _ _ Hq He). lia. }
      destruct (C _ c Hy Cs) as [C1 C2]. destruct (C _ c Hy' Ct) as [C3 C4]. apply (IH t y); try assumption. rewrite C2, C4. reflexivity. }
  intros t z Hs Ht [Ns Cs] [Nt Ct]. apply (Hgen _ _ z); try assumption. tauto.
Qed.
