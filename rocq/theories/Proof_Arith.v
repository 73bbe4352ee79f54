From Verif Require Import Base Ast Value Fs Eval Lib Spec_Arith.
Local Open Scope Z_scope.

Lemma quot_abs_le a b : b <> 0 -> Z.abs (Z.quot a b) <= Z.abs a.
Proof.
  intros Hb0. rewrite <- (Z.quot_abs a b Hb0). rewrite Z.quot_div_nonneg by lia.
  apply Z.div_le_upper_bound; nia.
Qed.

Lemma quot_abs_eq a b : b <> 0 -> Z.abs (Z.quot a b) = Z.abs a -> a = 0 \/ Z.abs b = 1.
Proof.
  intros Hb0. rewrite <- (Z.quot_abs a b Hb0). rewrite Z.quot_div_nonneg by lia. intros He.
  destruct (Z.eq_dec a 0); [left; assumption|right].
  destruct (Z_lt_ge_dec (Z.abs b) 2); [lia|exfalso].
  pose proof (Z.div_lt (Z.abs a) (Z.abs b) ltac:(lia) ltac:(lia)). lia.
Qed.

Section S.
Variables (k : nat) (E : env) (vs : Variables.vars value) (f : option fs).
Notation ev := (eval_expr k E vs f).

Lemma ev_int_op op l r w w1 w2 a b :
  ev l w = (w1, Ok (VInt a)) -> ev r w1 = (w2, Ok (VInt b)) ->
  match op with OPlus | OEquals | ONotEquals | OLogicalAnd | OLogicalOr => False | _ => True end ->
  ev (EBin op l r) w = (w2, eval_int_op op a b).
Proof.
  intros H1 H2 Hop.
  destruct op; try contradiction; cbn [eval_expr];
    rewrite (mbind_ok _ _ _ _ _ H1); cbn [as_integer]; rewrite mbind_mret_ok;
    rewrite (mbind_ok _ _ _ _ _ H2); cbn [as_integer]; rewrite mbind_mret_ok; reflexivity.
Qed.

Lemma checked_spec z :
  (fits128 z /\ checked z = Some z) \/ (~ fits128 z /\ checked z = None).
Proof.
  unfold checked, fits128. destruct (in_i128 z) eqn:H.
  - left; split; [apply in_i128_iff, H | reflexivity].
  - right; split; [|reflexivity]. rewrite <- in_i128_iff. congruence.
Qed.

Lemma exact_arith op g l r w w1 w2 a b :
  exact_op op g ->
  ev l w = (w1, Ok (VInt a)) -> ev r w1 = (w2, Ok (VInt b)) ->
  (fits128 (g a b) -> ev (EBin op l r) w = (w2, Ok (VInt (g a b)))) /\
  (~ fits128 (g a b) -> ev (EBin op l r) w = (w2, Err (EOverflow a (op_sign op) b))).
Proof.
  intros Hop H1 H2.
  assert (Hc := checked_spec (g a b)).
  inversion Hop; subst.
  - cbn [eval_expr]. rewrite (mbind_ok _ _ _ _ _ H1), (mbind_ok _ _ _ _ _ H2). unfold mret; cbn [eval_plus].
    destruct Hc as [[Hf ->]|[Hf ->]]; split; intros; try contradiction; reflexivity.
  - rewrite (ev_int_op _ _ _ _ _ _ _ _ H1 H2) by exact I; cbn [eval_int_op].
    destruct Hc as [[Hf ->]|[Hf ->]]; split; intros; try contradiction; reflexivity.
  - rewrite (ev_int_op _ _ _ _ _ _ _ _ H1 H2) by exact I; cbn [eval_int_op].
    destruct Hc as [[Hf ->]|[Hf ->]]; split; intros; try contradiction; reflexivity.
Qed.

Lemma div_rem l r w w1 w2 a b :
  fits128 a -> fits128 b ->
  ev l w = (w1, Ok (VInt a)) -> ev r w1 = (w2, Ok (VInt b)) ->
  (b = 0 -> ev (EBin ODivide l r) w = (w2, Err EDivideByZero)
            /\ ev (EBin OModulo l r) w = (w2, Err EDivideByZero)) /\
  (a = - 2 ^ 127 -> b = -1 -> ev (EBin ODivide l r) w = (w2, Err (EOverflow a (s_ "/") b))
            /\ ev (EBin OModulo l r) w = (w2, Err (EOverflow a (s_ "%") b))) /\
  (b <> 0 -> ~ (a = - 2 ^ 127 /\ b = -1) ->
   exists q m, ev (EBin ODivide l r) w = (w2, Ok (VInt q))
            /\ ev (EBin OModulo l r) w = (w2, Ok (VInt m))
            /\ fits128 q /\ fits128 m
            /\ a = q * b + m /\ Z.abs m < Z.abs b /\ (m = 0 \/ Z.sgn m = Z.sgn a)).
Proof.
  intros Ha Hb H1 H2.
  rewrite (ev_int_op ODivide _ _ _ _ _ _ _ H1 H2 I), (ev_int_op OModulo _ _ _ _ _ _ _ H1 H2 I).
  cbn [eval_int_op]. unfold checked_div, checked_rem, I128_MIN.
  destruct (Z.eqb_spec b 0) as [->|Hb0].
  - repeat split; intros; try congruence; lia.
  - destruct ((a =? - 2 ^ 127) && (b =? -1)) eqn:Hm.
    + apply andb_true_iff in Hm. rewrite !Z.eqb_eq in Hm.
      repeat split; intros; try congruence; try tauto.
    + assert (~ (a = - 2 ^ 127 /\ b = -1)) as Hm' by lia.
      split; [congruence|]. split; [intros; tauto|].
      intros _ _. cbn [ok_or bind].
      exists (Z.quot a b), (Z.rem a b).
      pose proof (Z.quot_rem' a b) as Hqr.
      pose proof (Z.rem_bound_abs a b Hb0) as Hbd.
      pose proof (Z.rem_sign_nz a b Hb0) as Hs.
      pose proof (Z.quot_abs a b Hb0) as Hqa.
      pose proof (quot_abs_le a b Hb0) as Hql.
      pose proof (quot_abs_eq a b Hb0) as Hone.
      unfold fits128 in *.
      assert (fits128 (Z.quot a b)) as Hq.
      { unfold fits128. assert (Z.quot a b <> 2 ^ 127); [|clear - Hql Ha H; lia].
        intros He.
        assert (a = - 2 ^ 127) as Ha' by (clear - Hql Ha He; lia).
        assert (Z.abs b = 1) as Hb1 by (destruct Hone as [H|H]; [clear - Ha' He; lia|clear - Ha' H; lia|exact H]).
        assert (b = 1) as -> by (clear - Hb1 Ha' Hm'; lia).
        rewrite Z.quot_1_r in He. clear - He Ha'; lia. }
      repeat split; try reflexivity; try apply Hq;
        clear - Ha Hb Hqr Hbd Hs Hb0; try lia.
Qed.

Lemma compare_ok op R l r w w1 w2 a b :
  compare_op op R ->
  ev l w = (w1, Ok (VInt a)) -> ev r w1 = (w2, Ok (VInt b)) ->
  exists t, ev (EBin op l r) w = (w2, Ok (VBool t)) /\ (t = true <-> R a b).
Proof.
  intros Hop H1 H2.
  inversion Hop; subst; rewrite (ev_int_op _ _ _ _ _ _ _ _ H1 H2) by exact I; cbn [eval_int_op];
    eexists; (split; [reflexivity|]); lia.
Qed.

Lemma compare_err op R l r w w1 w2 v1 v2 :
  compare_op op R ->
  ev l w = (w1, Ok v1) -> ev r w1 = (w2, Ok v2) ->
  (forall z, v1 <> VInt z) \/ (forall z, v2 <> VInt z) ->
  exists w' e, ev (EBin op l r) w = (w', Err e).
Proof.
  intros Hop H1 H2 Hn.
  assert (exists w' e, (do x <- mret (as_integer v1) ;;
      do b <- ev r ;; do y <- mret (as_integer b) ;; mret (eval_int_op op x y)) w1 = (w', Err e)) as H.
  { destruct v1; try (eexists; eexists; reflexivity).
    cbn [as_integer]. rewrite mbind_mret_ok, (mbind_ok _ _ _ _ _ H2).
    destruct v2; try (eexists; eexists; reflexivity).
    destruct Hn as [Hn|Hn]; exfalso; eapply Hn; reflexivity. }
  destruct H as (w' & e & H). exists w', e.
  inversion Hop; subst; cbn [eval_expr]; rewrite (mbind_ok _ _ _ _ _ H1); exact H.
Qed.

(** ** bits *)
Lemma bit128_testbit z i : 0 <= i < 128 -> bit128 z i = Z.testbit z i.
Proof.
  intros Hi. unfold bit128. rewrite <- Z.shiftr_div_pow2 by lia.
  rewrite <- Z.bit0_odd, Z.shiftr_spec by lia. rewrite Z.mod_pow2_bits_low by lia. f_equal; lia.
Qed.

(** z fits iff it is the sign extension of its low 127 bits *)
Lemma fits_shiftr z : fits128 z <-> Z.shiftr z 127 = 0 \/ Z.shiftr z 127 = -1.
Proof.
  unfold fits128. rewrite Z.shiftr_div_pow2 by lia.
  pose proof (Z.div_mod z (2 ^ 127) ltac:(lia)).
  pose proof (Z.mod_pos_bound z (2 ^ 127) ltac:(lia)). lia.
Qed.

Lemma bitop_fits op a b :
  fits128 a -> fits128 b ->
  fits128 (match op with OBitAnd => Z.land a b | OBitOr => Z.lor a b | _ => Z.lxor a b end).
Proof.
  rewrite !fits_shiftr. intros Ha Hb.
  assert (Z.shiftr (match op with OBitAnd => Z.land a b | OBitOr => Z.lor a b | _ => Z.lxor a b end) 127
    = match op with OBitAnd => Z.land (Z.shiftr a 127) (Z.shiftr b 127)
               | OBitOr => Z.lor (Z.shiftr a 127) (Z.shiftr b 127)
               | _ => Z.lxor (Z.shiftr a 127) (Z.shiftr b 127) end) as ->.
  { destruct op; first [apply Z.shiftr_land | apply Z.shiftr_lor | apply Z.shiftr_lxor]. }
  destruct Ha as [-> | ->]; destruct Hb as [-> | ->]; destruct op; cbn; auto.
Qed.

Lemma bitwise_ok op g l r w w1 w2 a b :
  bit_op op g -> fits128 a -> fits128 b ->
  ev l w = (w1, Ok (VInt a)) -> ev r w1 = (w2, Ok (VInt b)) ->
  exists c, ev (EBin op l r) w = (w2, Ok (VInt c)) /\ fits128 c /\
    forall i, 0 <= i < 128 -> bit128 c i = g (bit128 a i) (bit128 b i).
Proof.
  intros Hop Ha Hb H1 H2.
  inversion Hop; subst; rewrite (ev_int_op _ _ _ _ _ _ _ _ H1 H2) by exact I; cbn [eval_int_op];
    eexists; (split; [reflexivity|]); split.
  - exact (bitop_fits OBitAnd a b Ha Hb).
  - intros i Hi. rewrite !bit128_testbit by lia. apply Z.land_spec.
  - exact (bitop_fits OBitOr a b Ha Hb).
  - intros i Hi. rewrite !bit128_testbit by lia. apply Z.lor_spec.
  - exact (bitop_fits OBitXor a b Ha Hb).
  - intros i Hi. rewrite !bit128_testbit by lia. apply Z.lxor_spec.
Qed.

Lemma lnot_fits a : fits128 a -> fits128 (Z.lnot a).
Proof. unfold fits128. pose proof (Z.add_lnot_diag a). lia. Qed.

Lemma bitnot_ok e w w1 a :
  fits128 a -> ev e w = (w1, Ok (VInt a)) ->
  exists c, ev (EUn UBitNot e) w = (w1, Ok (VInt c)) /\ fits128 c /\
    forall i, 0 <= i < 128 -> bit128 c i = negb (bit128 a i).
Proof.
  intros Ha H. cbn [eval_expr]. rewrite (mbind_ok _ _ _ _ _ H). unfold mret; cbn [eval_unop as_integer bind].
  eexists; split; [reflexivity|]. split; [apply lnot_fits, Ha|].
  intros i Hi. rewrite !bit128_testbit by lia. rewrite Z.lnot_spec by lia. reflexivity.
Qed.

(** ** shifts *)
Lemma try_into_u_iff bits z r :
  try_into_u bits z = Ok r <-> (0 <= z < 2 ^ bits /\ r = z).
Proof.
  unfold try_into_u. destruct ((0 <=? z) && (z <? 2 ^ bits)) eqn:H.
  - split; [intros He; inversion He; subst; split; [lia|reflexivity] | intros [_ ->]; reflexivity].
  - split; [discriminate|intros [Hb _]; lia].
Qed.

Lemma shr_ok l r w w1 w2 a n :
  ev l w = (w1, Ok (VInt a)) -> ev r w1 = (w2, Ok (VInt n)) ->
  (0 <= n < 128 -> ev (EBin ORightShift l r) w = (w2, Ok (VInt (a / 2 ^ n)))) /\
  (~ 0 <= n < 128 -> exists e, ev (EBin ORightShift l r) w = (w2, Err e)).
Proof.
  intros H1 H2. rewrite (ev_int_op _ _ _ _ _ _ _ _ H1 H2) by exact I; cbn [eval_int_op].
  unfold try_into_u, checked_shr. split; intros Hn.
  - replace ((0 <=? n) && (n <? 2 ^ 32)) with true by lia. cbn [bind].
    replace (n <? 128) with true by lia. cbn [ok_or bind].
    rewrite Z.shiftr_div_pow2 by lia. reflexivity.
  - destruct ((0 <=? n) && (n <? 2 ^ 32)) eqn:Hb; cbn [bind]; [|eauto].
    replace (n <? 128) with false by lia. cbn [ok_or bind]. eauto.
Qed.

Lemma shl_ok l r w w1 w2 a n :
  ev l w = (w1, Ok (VInt a)) -> ev r w1 = (w2, Ok (VInt n)) ->
  (0 <= n < 128 -> exists c, ev (EBin OLeftShift l r) w = (w2, Ok (VInt c)) /\ fits128 c
      /\ (exists q, c = a * 2 ^ n + q * 2 ^ 128) /\ (fits128 (a * 2 ^ n) -> c = a * 2 ^ n)) /\
  (~ 0 <= n < 128 -> exists e, ev (EBin OLeftShift l r) w = (w2, Err e)).
Proof.
  intros H1 H2. rewrite (ev_int_op _ _ _ _ _ _ _ _ H1 H2) by exact I; cbn [eval_int_op].
  unfold try_into_u, checked_shl. split; intros Hn.
  - replace ((0 <=? n) && (n <? 2 ^ 32)) with true by lia. cbn [bind].
    replace (n <? 128) with true by lia. cbn [ok_or bind].
    rewrite Z.shiftl_mul_pow2 by lia.
    eexists; split; [reflexivity|]. split; [apply wrap128_range|].
    split; [apply wrap128_cong | apply wrap128_id].
  - destruct ((0 <=? n) && (n <? 2 ^ 32)) eqn:Hb; cbn [bind]; [|eauto].
    replace (n <? 128) with false by lia. cbn [ok_or bind]. eauto.
Qed.

(** ** negation *)
Lemma neg_ok e w w1 a :
  fits128 a -> a <> - 2 ^ 127 -> ev e w = (w1, Ok (VInt a)) ->
  ev (EUn UMinus e) w = (w1, Ok (VInt (- a))).
Proof.
  intros Ha Hm H. cbn [eval_expr]. rewrite (mbind_ok _ _ _ _ _ H). unfold mret; cbn [eval_unop as_integer bind].
  unfold i128_neg. replace (in_i128 (- a)) with true; [reflexivity|].
  symmetry; apply in_i128_iff. unfold fits128 in Ha; lia.
Qed.

Lemma neg_min e w w1 :
  ev e w = (w1, Ok (VInt (- 2 ^ 127))) ->
  ev (EUn UMinus e) w = (w1, if overflow_checks E then Panic PArith else Ok (VInt (- 2 ^ 127))).
Proof.
  intros H. cbn [eval_expr]. rewrite (mbind_ok _ _ _ _ _ H). unfold mret; cbn [eval_unop as_integer bind].
  destruct (overflow_checks E); reflexivity.
Qed.

(** ** logical operators *)
Lemma and_false l r w w1 : ev l w = (w1, Ok (VBool false)) -> ev (EBin OLogicalAnd l r) w = (w1, Ok (VBool false)).
Proof. intros H; cbn [eval_expr]. rewrite (mbind_ok _ _ _ _ _ H). reflexivity. Qed.
Lemma or_true l r w w1 : ev l w = (w1, Ok (VBool true)) -> ev (EBin OLogicalOr l r) w = (w1, Ok (VBool true)).
Proof. intros H; cbn [eval_expr]. rewrite (mbind_ok _ _ _ _ _ H). reflexivity. Qed.
Lemma and_true l r w w1 w2 b : ev l w = (w1, Ok (VBool true)) -> ev r w1 = (w2, Ok (VBool b)) ->
  ev (EBin OLogicalAnd l r) w = (w2, Ok (VBool b)).
Proof.
  intros H1 H2; cbn [eval_expr]. rewrite (mbind_ok _ _ _ _ _ H1). cbn [as_boolean]. rewrite mbind_mret_ok.
  rewrite (mbind_ok _ _ _ _ _ H2). reflexivity.
Qed.
Lemma or_false l r w w1 w2 b : ev l w = (w1, Ok (VBool false)) -> ev r w1 = (w2, Ok (VBool b)) ->
  ev (EBin OLogicalOr l r) w = (w2, Ok (VBool b)).
Proof.
  intros H1 H2; cbn [eval_expr]. rewrite (mbind_ok _ _ _ _ _ H1). cbn [as_boolean]. rewrite mbind_mret_ok.
  rewrite (mbind_ok _ _ _ _ _ H2). reflexivity.
Qed.
(** a non-boolean operand is an error *)
Lemma logical_nonbool_l op l r w w1 v :
  (op = OLogicalAnd \/ op = OLogicalOr) -> ev l w = (w1, Ok v) -> (forall b, v <> VBool b) ->
  exists e, ev (EBin op l r) w = (w1, Err e).
Proof.
  intros Hop H1 Hn. destruct Hop; subst; cbn [eval_expr]; rewrite (mbind_ok _ _ _ _ _ H1);
    destruct v; try (eexists; reflexivity); exfalso; eapply Hn; reflexivity.
Qed.
Lemma logical_nonbool_r op l r w w1 w2 v :
  op = OLogicalAnd \/ op = OLogicalOr ->
  ev l w = (w1, Ok (VBool (match op with OLogicalAnd => true | _ => false end))) -> ev r w1 = (w2, Ok v) ->
  (forall b, v <> VBool b) ->
  exists e, ev (EBin op l r) w = (w2, Err e).
Proof.
  intros Hop H1 H2 Hn. destruct Hop; subst; cbn [eval_expr]; rewrite (mbind_ok _ _ _ _ _ H1);
    cbn [as_boolean]; rewrite mbind_mret_ok; rewrite (mbind_ok _ _ _ _ _ H2);
    destruct v; try (eexists; reflexivity); exfalso; eapply Hn; reflexivity.
Qed.
End S.

(** ** Equality *)
Lemma func_eqb_eq a b : func_eqb a b = true <-> a = b.
Proof. destruct a, b; cbn; split; congruence. Qed.

Lemma key_eqb_eq a b : key_eqb a b = true <-> a = b.
Proof.
  destruct a as [[[x y] z]|], b as [[[x' y'] z']|]; cbn; try (split; congruence).
  rewrite !andb_true_iff, !Z.eqb_eq. split; [intros [[-> ->] ->]; reflexivity | intros H; inversion H; auto].
Qed.

Lemma value_eqb_eq a b : value_eqb a b = true <-> a = b.
Proof.
  revert b. induction a as [z|s|t|vs h IH|g|n ky fs IH] using value_ind'; intros b; destruct b; cbn;
    try (split; congruence).
  - rewrite Z.eqb_eq; split; congruence.
  - rewrite str_eqb_eq; split; congruence.
  - destruct t, b; cbn; split; congruence.
  - rewrite andb_true_iff, Bool.eqb_true_iff.
    assert ((fix go (l l' : list value) {struct l} : bool :=
       match l, l' with
       | [], [] => true
       | u :: t, u' :: t' => value_eqb u u' && go t t'
       | _, _ => false
       end) vs vec = true <-> vs = vec) as Hl.
    { clear h is_hist. revert vec. induction IH as [|x l Hx Hl IHl]; intros [|y vec]; try (split; congruence).
      rewrite andb_true_iff, Hx, IHl. split; [intros [-> ->]; reflexivity|intros He; inversion He; auto]. }
    rewrite Hl. split; [intros [-> ->]; reflexivity | intros He; inversion He; auto].
  - rewrite func_eqb_eq; split; congruence.
  - rewrite !andb_true_iff, str_eqb_eq, key_eqb_eq.
    assert ((fix go (l l' : list (str * value)) {struct l} : bool :=
       match l, l' with
       | [], [] => true
       | (m, u) :: t, (m', u') :: t' => str_eqb m m' && value_eqb u u' && go t t'
       | _, _ => false
       end) fs fields = true <-> fs = fields) as Hl.
    { clear n ky name key. revert fields.
      induction IH as [|[m x] l Hx Hl IHl]; intros [|[m' y] fields]; try (split; congruence).
      rewrite !andb_true_iff, str_eqb_eq. cbn [snd] in Hx. rewrite Hx, IHl.
      split; [intros [[-> ->] ->]; reflexivity|intros He; inversion He; auto]. }
    rewrite Hl. split; [intros [[-> ->] ->]; reflexivity | intros He; inversion He; auto].
Qed.

Lemma equality_ok k E vs f l r w w1 w2 v1 v2 :
  eval_expr k E vs f l w = (w1, Ok v1) -> eval_expr k E vs f r w1 = (w2, Ok v2) ->
  exists t, eval_expr k E vs f (EBin OEquals l r) w = (w2, Ok (VBool t))
         /\ eval_expr k E vs f (EBin ONotEquals l r) w = (w2, Ok (VBool (negb t)))
         /\ (t = true <-> v1 = v2).
Proof.
  intros H1 H2. exists (value_eqb v1 v2). cbn [eval_expr].
  rewrite (mbind_ok _ _ _ _ _ H1), (mbind_ok _ _ _ _ _ H2).
  rewrite (mbind_ok _ _ _ _ _ H1), (mbind_ok _ _ _ _ _ H2).
  split; [reflexivity|]. split; [reflexivity|]. apply value_eqb_eq.
Qed.
