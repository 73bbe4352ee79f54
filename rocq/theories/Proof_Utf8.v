(** Proofs for C67. *)
From Verif Require Import Base Value Lib Spec_Utf8.
From Coq Require Import Lia ZArith ZifyN.
Local Open Scope N_scope.
Lemma utf8_char_of c : c < 0x110000 -> utf8_of c (utf8_char c).
Proof.
  intros H. unfold utf8_char.
  destruct (N.ltb_spec c 128) as [K1|K1]; [apply u_one; exact K1|].
  assert (D : forall x m, m <> 0 -> x = m * (x / m) + x mod m) by (intros; apply N.div_mod; assumption).
  assert (M : forall x m, m <> 0 -> x mod m < m) by (intros; apply N.mod_lt; assumption).
  assert (DD : forall x a b, a <> 0 -> b <> 0 -> x / a / b = x / (a * b)) by (intros; apply N.div_div; assumption).
  pose proof (D c 64 ltac:(lia)). pose proof (M c 64 ltac:(lia)).
  pose proof (D (c / 64) 64 ltac:(lia)). pose proof (M (c / 64) 64 ltac:(lia)).
  pose proof (D (c / 4096) 64 ltac:(lia)). pose proof (M (c / 4096) 64 ltac:(lia)).
  pose proof (DD c 64 64 ltac:(lia) ltac:(lia)) as E1. pose proof (DD c 4096 64 ltac:(lia) ltac:(lia)) as E2.
  change (64 * 64) with 4096 in E1. change (4096 * 64) with 262144 in E2. rewrite E1 in *. rewrite E2 in *.
  destruct (N.ltb_spec c 2048) as [K2|K2].
  { pose proof (u_two (c / 64) (c mod 64)) as U. change (2 ^ 6) with 64 in U. change (2 ^ 5) with 32 in U. replace (c / 64 * 64 + c mod 64) with c in U by lia. apply U; lia. }
  destruct (N.ltb_spec c 65536) as [K3|K3].
  { pose proof (u_three (c / 4096) ((c / 64) mod 64) (c mod 64)) as U. change (2 ^ 6) with 64 in U. change (2 ^ 12) with 4096 in U. change (2 ^ 4) with 16 in U.
    replace (c / 4096 * 4096 + (c / 64) mod 64 * 64 + c mod 64) with c in U by lia. apply U; lia. }
  pose proof (u_four (c / 262144) ((c / 4096) mod 64) ((c / 64) mod 64) (c mod 64)) as U. change (2 ^ 6) with 64 in U. change (2 ^ 12) with 4096 in U. change (2 ^ 18) with 262144 in U. change (2 ^ 3) with 8 in U.
  replace (c / 262144 * 262144 + (c / 4096) mod 64 * 4096 + (c / 64) mod 64 * 64 + c mod 64) with c in U by lia. apply U; lia.
Qed.
Lemma utf8_text_of s : unicode s -> utf8_text s (utf8 s).
Proof. intros H. induction H as [|c s Hc Hs IH]; [constructor|]. apply ut_cons; [apply utf8_char_of; exact Hc|exact IH]. Qed.
(** the encoding is prefix free and injective *)
Lemma cons_eq (a b : N) l m : a :: l = b :: m -> a = b /\ l = m.
Proof. intros H. inversion H. auto. Qed.
Lemma utf8_of_inj c b r c' b' r' : utf8_of c b -> utf8_of c' b' -> b ++ r = b' ++ r' -> c = c' /\ b = b' /\ r = r'.
Proof.
  intros H H'. destruct H as [c H|a1 b1 Ha Hb H|a1 b1 c1 Ha Hb Hc H|a1 b1 c1 d1 Ha Hb Hc Hd H]; destruct H' as [c' H'|a2 b2 Ha' Hb' H'|a2 b2 c2 Ha' Hb' Hc' H'|a2 b2 c2 d2 Ha' Hb' Hc' Hd' H'];
    cbn [app]; intros E; repeat (match goal with X : _ :: _ = _ :: _ |- _ => apply cons_eq in X; destruct X end);
    change (2 ^ 3) with 8 in *; change (2 ^ 4) with 16 in *; change (2 ^ 5) with 32 in *; change (2 ^ 6) with 64 in *;
    first [exfalso; lia | idtac].
  - subst. auto.
  - assert (a1 = a2) by lia. assert (b1 = b2) by lia. subst. auto.
  - assert (a1 = a2) by lia. assert (b1 = b2) by lia. assert (c1 = c2) by lia. subst. auto.
  - assert (a1 = a2) by lia. assert (b1 = b2) by lia. assert (c1 = c2) by lia. assert (d1 = d2) by lia. subst. auto.
Qed.
Lemma utf8_of_fun c b b' : utf8_of c b -> utf8_of c b' -> b = b'.
Proof.
  intros H H'. destruct H as [c H|a1 b1 Ha Hb H|a1 b1 c1 Ha Hb Hc H|a1 b1 c1 d1 Ha Hb Hc Hd H]; inversion H' as [c' G E1 E2|a2 b2 Ha' Hb' G E1 E2|a2 b2 c2 Ha' Hb' Hc' G E1 E2|a2 b2 c2 d2 Ha' Hb' Hc' Hd' G E1 E2]; subst;
    change (2 ^ 3) with 8 in *; change (2 ^ 4) with 16 in *; change (2 ^ 5) with 32 in *; change (2 ^ 6) with 64 in *; change (2 ^ 12) with 4096 in *; change (2 ^ 18) with 262144 in *;
    try (exfalso; lia).
  - reflexivity.
  - assert (a1 = a2) by lia. assert (b1 = b2) by lia. subst. reflexivity.
  - assert (a1 = a2) by lia. assert (b1 = b2) by lia. assert (c1 = c2) by lia. subst. reflexivity.
  - assert (a1 = a2) by lia. assert (b1 = b2) by lia. assert (c1 = c2) by lia. assert (d1 = d2) by lia. subst. reflexivity.
Qed.
Lemma utf8_nonempty c b : utf8_of c b -> b <> [].
Proof. destruct 1; discriminate. Qed.
Lemma utf8_text_inj s b : utf8_text s b -> forall s', utf8_text s' b -> s = s'.
Proof.
  intros H. induction H as [|c s b bs Hc Hs IH]; intros s' H'.
  - inversion H' as [|c' s2 b' bs' Hc' Hs' E1 E2]; [reflexivity|]. apply utf8_nonempty in Hc'. destruct b'; [congruence|discriminate].
  - inversion H' as [E1 E2|c' s2 b' bs' Hc' Hs' E1 E2].
    + apply utf8_nonempty in Hc. destruct b; [congruence|discriminate].
    + destruct (utf8_of_inj _ _ _ _ _ _ Hc' Hc E2) as (-> & -> & ->). f_equal. apply IH. exact Hs'.
Qed.
Lemma utf8_text_fun s b : utf8_text s b -> forall b', utf8_text s b' -> b = b'.
Proof.
  intros H. induction H as [|c s b bs Hc Hs IH]; intros b' H'; inversion H' as [|c' s2 b2 bs' Hc' Hs' E1 E2]; [reflexivity|].
  f_equal; [eapply utf8_of_fun; eassumption|apply IH; exact Hs'].
Qed.
Lemma utf8_text_app s b : utf8_text s b -> forall t c, utf8_text t c -> utf8_text (s ++ t) (b ++ c).
Proof. intros H. induction H as [|x s b bs Hc Hs IH]; intros t c Ht; [exact Ht|]. cbn [app]. rewrite <- app_assoc. constructor; auto. Qed.
Lemma utf8_of_bytes c b : utf8_of c b -> Forall (fun x => x < 256) b.
Proof. change 256 with 256. destruct 1; change (2 ^ 3) with 8 in *; change (2 ^ 4) with 16 in *; change (2 ^ 5) with 32 in *; change (2 ^ 6) with 64 in *; repeat constructor; lia. Qed.
Lemma utf8_text_bytes s b : utf8_text s b -> Forall (fun x => x < 256) b.
Proof. intros H. induction H; [constructor|]. apply Forall_app. split; [eapply utf8_of_bytes; eassumption|assumption]. Qed.
Lemma utf8_app s t : utf8 (s ++ t) = utf8 s ++ utf8 t.
Proof. unfold utf8. apply flat_map_app. Qed.
