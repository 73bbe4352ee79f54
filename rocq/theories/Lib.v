(** General lemmas about the base definitions (no /repo code is modelled here). *)
From Verif Require Import Base Ast Value Variables Fs Eval.
From Coq Require Export ZifyBool ZifyNat ZifyN.

(** ** Strings *)
Lemma str_eqb_refl a : str_eqb a a = true.
Proof. induction a as [|x a IH]; cbn; [reflexivity|]. rewrite N.eqb_refl; exact IH. Qed.

Lemma str_eqb_eq a b : str_eqb a b = true <-> a = b.
Proof.
  revert b; induction a as [|x a IH]; intros [|y b]; cbn; try (split; congruence).
  rewrite andb_true_iff, N.eqb_eq, IH. split; [intros [-> ->]; reflexivity | intros H; inversion H; auto].
Qed.

Lemma str_eqb_neq a b : str_eqb a b = false <-> a <> b.
Proof.
  rewrite <- str_eqb_eq. destruct (str_eqb a b); split; congruence.
Qed.

Lemma str_eqb_sym a b : str_eqb a b = str_eqb b a.
Proof.
  destruct (str_eqb a b) eqn:H1; destruct (str_eqb b a) eqn:H2; try reflexivity.
  - apply str_eqb_eq in H1; subst. rewrite str_eqb_refl in H2; discriminate.
  - apply str_eqb_eq in H2; subst. rewrite str_eqb_refl in H1; discriminate.
Qed.

Lemma str_dec (a b : str) : {a = b} + {a <> b}.
Proof. destruct (str_eqb a b) eqn:H; [left; apply str_eqb_eq; exact H | right; apply str_eqb_neq; exact H]. Qed.

(** ** Monad *)
Lemma mbind_ok {A B} (m : M A) (g : A -> M B) w w' a :
  m w = (w', Ok a) -> mbind m g w = g a w'.
Proof. intros H; unfold mbind; rewrite H; reflexivity. Qed.

Lemma mbind_mret_ok {A B} (a : A) (g : A -> M B) w : mbind (mret (Ok a)) g w = g a w.
Proof. reflexivity. Qed.

Lemma mbind_err {A B} (m : M A) (g : A -> M B) w w' e :
  m w = (w', Err e) -> mbind m g w = (w', Err e).
Proof. intros H; unfold mbind; rewrite H; reflexivity. Qed.

(** Inversion of a completed computation. *)
Lemma mbind_inv {A B} (m : M A) (g : A -> M B) w w2 r :
  mbind m g w = (w2, r) ->
  (exists w1 a, m w = (w1, Ok a) /\ g a w1 = (w2, r))
  \/ (exists e, m w = (w2, Err e) /\ r = Err e)
  \/ (exists p, m w = (w2, Panic p) /\ r = Panic p)
  \/ (m w = (w2, Fuel) /\ r = Fuel).
Proof.
  unfold mbind; destruct (m w) as [w1 [a|e|p|]]; intros H.
  - left; exists w1, a; auto.
  - inversion H; subst; right; left; eauto.
  - inversion H; subst; right; right; left; eauto.
  - inversion H; subst; right; right; right; auto.
Qed.

Lemma bind_inv {A B} (x : res A) (g : A -> res B) r :
  bind x g = r ->
  (exists a, x = Ok a /\ g a = r) \/ (exists e, x = Err e /\ r = Err e)
  \/ (exists p, x = Panic p /\ r = Panic p) \/ (x = Fuel /\ r = Fuel).
Proof. destruct x as [a|e|p|]; cbn; intros H; subst; eauto 8. Qed.

Lemma bind_ok_inv {A B} (x : res A) (g : A -> res B) b :
  bind x g = Ok b -> exists a, x = Ok a /\ g a = Ok b.
Proof. destruct x as [a|e|p|]; cbn; intros H; try discriminate; eauto. Qed.

Lemma mbind_ok_inv {A B} (m : M A) (g : A -> M B) w w2 b :
  mbind m g w = (w2, Ok b) -> exists w1 a, m w = (w1, Ok a) /\ g a w1 = (w2, Ok b).
Proof.
  intros H; apply mbind_inv in H.
  destruct H as [(w1 & a & H1 & H2)|[(e & _ & H)|[(p & _ & H)|(_ & H)]]]; try discriminate; eauto.
Qed.

(** ** Option/res helpers *)
Lemma ok_or_ok {A} (o : option A) e a : ok_or o e = Ok a -> o = Some a.
Proof. destruct o; cbn; intros H; inversion H; reflexivity. Qed.

Lemma ensure_ok c e u : ensure c e = Ok u -> c = true.
Proof. destruct c; cbn; intros H; [reflexivity|discriminate]. Qed.

Lemma zlen_nonneg {A} (l : list A) : (0 <= zlen l)%Z.
Proof. unfold zlen; lia. Qed.

Lemma zlen_app {A} (l m : list A) : zlen (l ++ m) = (zlen l + zlen m)%Z.
Proof. unfold zlen; rewrite app_length; lia. Qed.

Lemma zlen_cons {A} (x : A) l : zlen (x :: l) = (1 + zlen l)%Z.
Proof. unfold zlen; cbn [length]; lia. Qed.

Lemma in_i128_iff z : in_i128 z = true <-> (- 2 ^ 127 <= z <= 2 ^ 127 - 1)%Z.
Proof. unfold in_i128, I128_MIN, I128_MAX. rewrite andb_true_iff, !Z.leb_le. reflexivity. Qed.

Lemma wrap128_range z : (- 2 ^ 127 <= wrap128 z <= 2 ^ 127 - 1)%Z.
Proof.
  unfold wrap128.
  pose proof (Z.mod_pos_bound (z + 2 ^ 127) (2 ^ 128) ltac:(lia)).
  change (2 ^ 128)%Z with (2 * 2 ^ 127)%Z in *. lia.
Qed.

Lemma wrap128_cong z : exists q, wrap128 z = (z + q * 2 ^ 128)%Z.
Proof.
  unfold wrap128. exists (- ((z + 2 ^ 127) / 2 ^ 128))%Z.
  pose proof (Z.div_mod (z + 2 ^ 127) (2 ^ 128) ltac:(lia)). lia.
Qed.

Lemma wrap128_id z : (- 2 ^ 127 <= z <= 2 ^ 127 - 1)%Z -> wrap128 z = z.
Proof.
  intros H; unfold wrap128. rewrite Z.mod_small; [lia|].
  change (2 ^ 128)%Z with (2 * 2 ^ 127)%Z. lia.
Qed.
