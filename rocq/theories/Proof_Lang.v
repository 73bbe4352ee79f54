(** C64: the evaluator against the rules of Spec_Lang. *)
From Verif Require Import Base Ast Structs Definitions Value Variables Fs Eval Lib Spec_Arith Spec_Vars Spec_Search Spec_Text Spec_Run Spec_Lang
  Proof_Arith Proof_Vars Proof_Run Proof_Search2 Proof_Session Proof_Text.
Require Import Lia ZArith.
Arguments s_ s%string_scope.

(** ** The evaluator in the shape of the rules *)
Definition chk (kd : kind) (v : value) : res unit :=
  match kd with
  | KAny => Ok tt
  | KInt => let* _ := as_integer v in Ok tt
  | KBool => let* _ := as_boolean v in Ok tt
  | KArray => let* _ := as_vec v in Ok tt
  | KStruct => let* _ := as_struct v in Ok tt
  | KFunction => let* _ := as_function v in Ok tt
  end.
Lemma chk_cases kd v : (has_kind kd v /\ chk kd v = Ok tt) \/ (~ has_kind kd v /\ exists e, chk kd v = Err e).
Proof.
  destruct kd, v; cbn [chk as_integer as_boolean as_vec as_struct as_function bind];
    first [left; split; [constructor|reflexivity] | right; split; [intros H; inversion H|eexists; reflexivity]].
Qed.

Definition apply_op (E : env) (f : option fs) (e : expr) (vals : list value) : res value :=
  match e, vals with
  | EField _ fld, [VStruct nm _ ms] => match fld with EIdent i => get_field nm ms i | _ => Err EFieldNotIdent end
  | EIndex _ _, [VArr l _; VInt z] =>
    let* u := try_into_u 64 z in
    if (u <? zlen l)%Z then ok_or (nth_error l (Z.to_nat u)) (EIndexOutOfRange z (zlen l)) else Err (EIndexOutOfRange z (zlen l))
  | EBin OPlus _ _, [a; b] => eval_plus a b
  | EBin OEquals _ _, [a; b] => Ok (VBool (value_eqb a b))
  | EBin ONotEquals _ _, [a; b] => Ok (VBool (negb (value_eqb a b)))
  | EBin op _ _, [VInt a; VInt b] => eval_int_op op a b
  | EUn op _, [v] => eval_unop (overflow_checks E) op v
  | ECast t _, [VInt z] => if (z <? 0)%Z then Err (ENegativeBytenr z) else eval_cast E f t (as_usize z)
  | _, _ => Fuel
  end.

Section Ev.
Variable k : nat.
Variable E : env.
Variable vs : vars value.
Variable f : option fs.
Notation ev := (eval_expr k E vs f).
Fixpoint eval_ops (ops : list (expr * kind)) : M (list value) :=
  match ops with
  | [] => mret (Ok [])
  | (e, kd) :: r => do v <- ev e ;; do _ <- mret (chk kd v) ;; do l <- eval_ops r ;; mret (Ok (v :: l))
  end.

Lemma eval_op_eq e ops w : operands e = Some ops -> ev e w = (do vals <- eval_ops ops ;; mret (apply_op E f e vals)) w.
Proof.
  destruct e; cbn [operands]; try discriminate.
  - intros [= <-]. cbn [eval_expr eval_ops]. unfold mbind, mret. destruct (ev e1 w) as [w1 [v|er|p|]]; try reflexivity.
    destruct v; try reflexivity. cbn. destruct e2; reflexivity.
  - intros [= <-]. cbn [eval_expr eval_ops]. unfold mbind, mret. destruct (ev e1 w) as [w1 [v|er|p|]]; try reflexivity.
    destruct v; try reflexivity. cbn. destruct (ev e2 w1) as [w2 [v|er|p|]]; try reflexivity. destruct v; try reflexivity. cbn.
    unfold try_into_u. destruct ((0 <=? z) && (z <? 2 ^ 64))%Z; reflexivity.
  - intros Ho. destruct op; try discriminate Ho; injection Ho as <-; cbn [eval_expr eval_ops]; unfold mbind, mret;
      destruct (ev e1 w) as [w1 [v|er|p|]]; try reflexivity; cbn [chk as_integer bind]; try (destruct v; try reflexivity; cbn [chk as_integer bind]);
      destruct (ev e2 w1) as [w2 [v'|er|p|]]; try reflexivity; try (destruct v'; reflexivity).
  - intros Ho. destruct op; injection Ho as <-; cbn [eval_expr eval_ops]; unfold mbind, mret;
      destruct (ev e w) as [w1 [v|er|p|]]; try reflexivity; destruct v; reflexivity.
  - intros [= <-]. cbn [eval_expr eval_ops]. unfold mbind, mret. destruct (ev e2 w) as [w1 [v|er|p|]]; try reflexivity.
    destruct v; try reflexivity. cbn. destruct (z <? 0)%Z; reflexivity.
Qed.
End Ev.

Lemma eval_ops_mono k k' E vs f ops : k <= k' -> mono (eval_ops k E vs f ops) (eval_ops k' E vs f ops).
Proof.
  intros Hk. induction ops as [|[e kd] ops IH]; cbn [eval_ops]; [apply mono_refl|].
  apply mono_bind; [apply eval_expr_mono; exact Hk|intros v]. apply mono_bind; [apply mono_refl|intros _].
  apply mono_bind; [exact IH|intros; apply mono_refl].
Qed.

(** ** Operations *)
Definition typed (ops : list (expr * kind)) (vals : list value) : Prop := Forall2 (fun p v => has_kind (snd p) v) ops vals.

Lemma checked_cases z : (fits128 z /\ checked z = Some z) \/ (~ fits128 z /\ checked z = None).
Proof. exact (checked_spec z). Qed.
Lemma fits_dec z : fits128 z \/ ~ fits128 z.
Proof. unfold fits128. lia. Qed.
Lemma wrap_reduces z : reduces128 z (wrap128 z).
Proof. split; [apply wrap128_range|]. destruct (wrap128_cong z) as [q H]. exists q. exact H. Qed.
Lemma reduces_unique z a b : reduces128 z a -> reduces128 z b -> a = b.
Proof.
  intros [H1 [q1 E1]] [H2 [q2 E2]]. unfold fits128 in *. change (2 ^ 128)%Z with (2 * 2 ^ 127)%Z in *.
  set (m := (2 ^ 127)%Z) in *. assert (0 < m)%Z by (unfold m; lia). clearbody m. assert (q1 = q2) by (destruct (Z.lt_trichotomy q1 q2) as [?|[?|?]]; [exfalso; assert (m * 2 <= (q2 - q1) * (2 * m))%Z by nia; lia|assumption|exfalso; assert (m * 2 <= (q1 - q2) * (2 * m))%Z by nia; lia]). subst. reflexivity.
Qed.
Lemma bool_spec (P : Prop) (b t : bool) : (b = true <-> P) -> ((t = true <-> P) <-> t = b).
Proof. intros H. destruct b, t; intuition congruence. Qed.

Lemma int_op_ok op a b v : op <> OPlus -> op <> OEquals -> op <> ONotEquals -> op <> OLogicalAnd -> op <> OLogicalOr ->
  (eval_int_op op a b = Ok v <-> int_result op a b v) /\
  ((exists v', eval_int_op op a b = Ok v') \/ (exists e, eval_int_op op a b = Err e)).
Proof.
  intros N1 N2 N3 N4 N5. destruct op; try contradiction; cbn [eval_int_op]; clear N1 N2 N3 N4 N5.
  - destruct (checked_cases (a - b)) as [[H ->]|[H ->]]; cbn; (split; [|eauto]); (split; [intros Hx|intros Hx; inversion Hx; subst]).
    + injection Hx as <-. constructor. exact H.
    + reflexivity.
    + discriminate.
    + contradiction.
  - destruct (checked_cases (a * b)) as [[H ->]|[H ->]]; cbn [ok_or bind]; (split; [|eauto]); (split; [intros Hx|intros Hx; inversion Hx; subst]).
    + injection Hx as <-. constructor. exact H.
    + reflexivity.
    + discriminate.
    + contradiction.
  - unfold checked_div. destruct (Z.eqb_spec b 0) as [H0|H0].
    + split; [|eauto]. split; [discriminate|intros Hx; inversion Hx; subst; contradiction].
    + unfold I128_MIN. destruct (Z.eqb_spec a (- 2 ^ 127)) as [H1|H1]; destruct (Z.eqb_spec b (-1)) as [H2|H2]; cbn [andb ok_or bind]; (split; [|eauto]);
        (split; [intros Hx|intros Hx; inversion Hx; subst]); try reflexivity; try discriminate; try tauto; injection Hx as <-; constructor; tauto.
  - unfold checked_rem. destruct (Z.eqb_spec b 0) as [H0|H0].
    + split; [|eauto]. split; [discriminate|intros Hx; inversion Hx; subst; contradiction].
    + unfold I128_MIN. destruct (Z.eqb_spec a (- 2 ^ 127)) as [H1|H1]; destruct (Z.eqb_spec b (-1)) as [H2|H2]; cbn [andb ok_or bind]; (split; [|eauto]);
        (split; [intros Hx|intros Hx; inversion Hx; subst]); try reflexivity; try discriminate; try tauto; injection Hx as <-; constructor; tauto.
  - split; [|eauto]. split; [intros [= <-]; constructor|intros Hx; inversion Hx; reflexivity].
  - split; [|eauto]. split; [intros [= <-]; constructor|intros Hx; inversion Hx; reflexivity].
  - split; [|eauto]. split; [intros [= <-]; constructor|intros Hx; inversion Hx; reflexivity].
  - unfold try_into_u, checked_shl. destruct ((0 <=? b) && (b <? 2 ^ 32))%Z eqn:Hr; cbn [bind].
    + apply andb_prop in Hr. destruct Hr as [Hr1 Hr2]. apply Z.leb_le in Hr1. destruct (Z.ltb_spec b 128) as [Hb|Hb]; cbn [ok_or bind]; (split; [|eauto]).
      * rewrite Z.shiftl_mul_pow2 by lia. split.
        -- intros [= <-]. constructor; [lia|apply wrap_reduces].
        -- intros Hx; inversion Hx; subst. f_equal. f_equal. eapply reduces_unique; [apply wrap_reduces|assumption].
      * split; [discriminate|intros Hx; inversion Hx; subst; lia].
    + split; [|eauto]. split; [discriminate|]. intros Hx; inversion Hx; subst. apply andb_false_iff in Hr. rewrite Z.leb_gt, Z.ltb_ge in Hr. change (2 ^ 32)%Z with 4294967296%Z in Hr. lia.
  - unfold try_into_u, checked_shr. destruct ((0 <=? b) && (b <? 2 ^ 32))%Z eqn:Hr; cbn [bind].
    + apply andb_prop in Hr. destruct Hr as [Hr1 Hr2]. apply Z.leb_le in Hr1. destruct (Z.ltb_spec b 128) as [Hb|Hb]; cbn [ok_or bind]; (split; [|eauto]).
      * rewrite Z.shiftr_div_pow2 by lia. split.
        -- intros [= <-]. constructor. lia.
        -- intros Hx; inversion Hx; subst. reflexivity.
      * split; [discriminate|intros Hx; inversion Hx; subst; lia].
    + split; [|eauto]. split; [discriminate|]. intros Hx; inversion Hx; subst. apply andb_false_iff in Hr. rewrite Z.leb_gt, Z.ltb_ge in Hr. change (2 ^ 32)%Z with 4294967296%Z in Hr. lia.
  - split; [|eauto]. split; [intros [= <-]; constructor; apply Z.ltb_lt|intros Hx; inversion Hx; subst]. f_equal. f_equal. symmetry. match goal with HH : _ <-> _ |- _ => revert HH end. apply bool_spec. apply Z.ltb_lt.
  - split; [|eauto]. split; [intros [= <-]; constructor; apply Z.leb_le|intros Hx; inversion Hx; subst]. f_equal. f_equal. symmetry. match goal with HH : _ <-> _ |- _ => revert HH end. apply bool_spec. apply Z.leb_le.
  - split; [|eauto]. split; [intros [= <-]; constructor; rewrite Z.gtb_ltb, Z.ltb_lt; lia|intros Hx; inversion Hx; subst]. f_equal. f_equal. symmetry. match goal with HH : _ <-> _ |- _ => revert HH end. apply bool_spec. rewrite Z.gtb_ltb, Z.ltb_lt; lia.
  - split; [|eauto]. split; [intros [= <-]; constructor; rewrite Z.geb_leb, Z.leb_le; lia|intros Hx; inversion Hx; subst]. f_equal. f_equal. symmetry. match goal with HH : _ <-> _ |- _ => revert HH end. apply bool_spec. rewrite Z.geb_leb, Z.leb_le; lia.
Qed.

Lemma assoc_first (n : str) (ms : list (str * value)) v :
  assoc n ms = Some v <-> exists before after, ms = before ++ (n, v) :: after /\ ~ In n (map fst before).
Proof.
  split.
  - induction ms as [|[m x] ms IH]; cbn [assoc]; [discriminate|]. destruct (str_eqb m n) eqn:He.
    + apply str_eqb_eq in He. intros [= ->]. subst m. exists [], ms. split; [reflexivity|intros []].
    + intros H. destruct (IH H) as (b & a & -> & Hn). exists ((m, x) :: b), a. split; [reflexivity|]. cbn. intros [->|Hi]; [rewrite str_eqb_refl in He; discriminate|contradiction].
  - intros (b & a & -> & Hn). induction b as [|[m x] b IH]; cbn [app assoc]; [rewrite str_eqb_refl; reflexivity|].
    cbn in Hn. destruct (str_eqb m n) eqn:He; [apply str_eqb_eq in He; tauto|]. apply IH. tauto.
Qed.
Lemma index_ok (l : list value) z v : (exists before after, l = before ++ v :: after /\ z = zlen before /\ (z < 2 ^ 64)%Z) <->
  (let* u := try_into_u 64 z in if (u <? zlen l)%Z then ok_or (nth_error l (Z.to_nat u)) (EIndexOutOfRange z (zlen l)) else Err (EIndexOutOfRange z (zlen l))) = Ok v.
Proof.
  split.
  - intros (b & a & -> & -> & Hz). unfold try_into_u, zlen in *. destruct (Z.leb_spec 0 (Z.of_nat (length b))); [|lia]. destruct (Z.ltb_spec (Z.of_nat (length b)) (2 ^ 64)); [|lia].
    cbn [andb bind]. rewrite app_length. cbn [length]. destruct (Z.ltb_spec (Z.of_nat (length b)) (Z.of_nat (length b + S (length a)))); [|lia].
    rewrite Nat2Z.id, nth_error_app2, Nat.sub_diag by lia. reflexivity.
  - unfold try_into_u. destruct (Z.leb_spec 0 z) as [H0|H0]; [|discriminate]. destruct (Z.ltb_spec z (2 ^ 64)) as [H1|H1]; [|discriminate]. cbn [andb bind].
    destruct (Z.ltb_spec z (zlen l)) as [H2|H2]; [|discriminate]. destruct (nth_error l (Z.to_nat z)) as [x|] eqn:En; [|discriminate]. intros [= ->].
    apply nth_error_split in En. destruct En as (b & a & -> & Hl). exists b, a. split; [reflexivity|]. split; [unfold zlen; lia|exact H1].
Qed.
Lemma index_total (l : list value) z : let r := (let* u := try_into_u 64 z in if (u <? zlen l)%Z then ok_or (nth_error l (Z.to_nat u)) (EIndexOutOfRange z (zlen l)) else Err (EIndexOutOfRange z (zlen l))) in
  (exists v, r = Ok v) \/ (exists e, r = Err e).
Proof.
  cbn zeta. unfold try_into_u. destruct ((0 <=? z) && (z <? 2 ^ 64))%Z; cbn [bind]; [|eauto]. destruct (z <? zlen l)%Z; [|eauto].
  destruct (nth_error l (Z.to_nat z)); cbn [ok_or]; eauto.
Qed.
Lemma neg_ok oc z : (fits128 (- z) /\ i128_neg oc z = Ok (- z)%Z) \/
  (~ fits128 (- z) /\ i128_neg oc z = if oc then Panic PArith else Ok (wrap128 (- z))).
Proof.
  unfold i128_neg, fits128. destruct (in_i128 (- z)) eqn:H.
  - left. apply in_i128_iff in H. auto.
  - right. split; [|reflexivity]. rewrite <- in_i128_iff. congruence.
Qed.

Definition neither (r : res value) : Prop := (forall v, r <> Ok v) /\ (forall e, r <> Err e).
Definition op_ok (E : env) (f : option fs) (e : expr) (vals : list value) (r : res value) : Prop :=
  (forall v, r = Ok v <-> result E f e vals v) /\ (neither r <-> crashes E f e vals).
Lemma not_neither r : (exists v, r = Ok v) \/ (exists e, r = Err e) -> ~ neither r.
Proof. intros [[v ->]|[e ->]] [H1 H2]; [exact (H1 v eq_refl)|exact (H2 e eq_refl)]. Qed.
Lemma op_total E f e vals r : (exists v, r = Ok v) \/ (exists er, r = Err er) -> (forall v, r = Ok v <-> result E f e vals v) ->
  ~ crashes E f e vals -> op_ok E f e vals r.
Proof. intros Ht Hr Hc. split; [exact Hr|]. pose proof (not_neither r Ht). tauto. Qed.

Ltac kinds H := repeat match type of H with
  | typed ((_, _) :: _) _ => inversion H as [|? ? ? ? ? ?H']; clear H; subst; rename H' into H
  | Forall2 _ ((_, _) :: _) _ => inversion H as [|? ? ? ? ? ?H']; clear H; subst; rename H' into H
  | Forall2 _ [] _ => inversion H; clear H; subst
  end; repeat match goal with HH : has_kind (snd (_, _)) _ |- _ => cbn [snd] in HH; inversion HH; clear HH; subst end.
Lemma apply_eq E f l r a b : apply_op E f (EBin OEquals l r) [a; b] = Ok (VBool (value_eqb a b)).
Proof. destruct a, b; reflexivity. Qed.
Lemma apply_ne E f l r a b : apply_op E f (EBin ONotEquals l r) [a; b] = Ok (VBool (negb (value_eqb a b))).
Proof. destruct a, b; reflexivity. Qed.
Lemma apply_plus E f l r a b : apply_op E f (EBin OPlus l r) [a; b] = eval_plus a b.
Proof. destruct a, b; reflexivity. Qed.
Lemma apply_ok E f e ops vals : operands e = Some ops -> typed ops vals -> op_ok E f e vals (apply_op E f e vals).
Proof.
  destruct e; cbn [operands]; try discriminate.
  - intros [= <-] Ht. kinds Ht. cbn [apply_op]. apply op_total.
    + destruct e2; eauto. unfold get_field. destruct (assoc x ms); cbn; eauto.
    + intros v. split.
      * destruct e2; try discriminate. unfold get_field. destruct (assoc x ms) as [y|] eqn:Ea; [|discriminate]. intros [= ->].
        apply assoc_first in Ea. destruct Ea as (b & a & -> & Hn). constructor. exact Hn.
      * intros Hr. inversion Hr; subst. unfold get_field. rewrite (proj2 (assoc_first _ _ v)); [reflexivity|]. eauto.
    + intros Hc. inversion Hc.
  - intros [= <-] Ht. kinds Ht. cbn [apply_op]. apply op_total; [apply index_total| |intros Hc; inversion Hc].
    intros v. rewrite <- index_ok. split.
    + intros (b & a & -> & -> & Hz). constructor; [reflexivity|exact Hz].
    + intros Hr. inversion Hr; subst. eauto 6.
  - intros Ho Ht.
    assert (Hint : forall a b, op <> OPlus -> op <> OEquals -> op <> ONotEquals -> op <> OLogicalAnd -> op <> OLogicalOr ->
      op_ok E f (EBin op e1 e2) [VInt a; VInt b] (eval_int_op op a b)).
    { intros a b N1 N2 N3 N4 N5. apply op_total; [apply (int_op_ok op a b (VInt 0)); assumption| |intros Hc; inversion Hc].
      intros v. rewrite (proj1 (int_op_ok op a b v N1 N2 N3 N4 N5)). split; [intros Hr; constructor; exact Hr|]. intros Hr. inversion Hr; subst; try contradiction; try assumption. }
    destruct op; try discriminate Ho; injection Ho as <-; kinds Ht; try (cbn [apply_op]; apply Hint; discriminate); rewrite ?apply_eq, ?apply_ne, ?apply_plus.
    + clear Hint; match goal with |- op_ok _ _ _ [?a; ?b] _ => generalize a b; clear; intros v v0 end; apply op_total; [| |intros Hc; inversion Hc].
      * unfold eval_plus. destruct v as [a|a|a|l1 h1|g1|n1 k1 m1], v0 as [b|b|b|l2 h2|g2|n2 k2 m2]; try solve [right; eexists; reflexivity|left; eexists; reflexivity]. destruct (checked_cases (a + b)) as [[H ->]|[H ->]]; cbn; eauto.
      * intros x. unfold eval_plus. split.
        -- destruct v as [a|a|a|l1 h1|g1|n1 k1 m1], v0 as [b|b|b|l2 h2|g2|n2 k2 m2]; try discriminate; try (intros [= <-]; constructor).
           destruct (checked_cases (a + b)) as [[H ->]|[H ->]]; cbn; [|discriminate]. intros [= <-]. constructor. exact H.
        -- intros Hr. inversion Hr; subst; try reflexivity.
           ++ destruct (checked_cases (a + b)) as [[H0 ->]|[H0 ->]]; [reflexivity|contradiction].
           ++ match goal with HH : int_result OPlus _ _ _ |- _ => inversion HH end.
    + clear Hint; match goal with |- op_ok _ _ _ [?a; ?b] _ => generalize a b; clear; intros v v0 end; apply op_total; [eauto| |intros Hc; inversion Hc]. intros x. split.
      * intros [= <-]. constructor. apply value_eqb_eq.
      * intros Hr. inversion Hr; subst; [match goal with HH : int_result _ _ _ _ |- _ => inversion HH end|]. f_equal. f_equal. symmetry.
        match goal with HH : _ <-> _ |- _ => revert HH end. apply bool_spec. apply value_eqb_eq.
    + clear Hint; match goal with |- op_ok _ _ _ [?a; ?b] _ => generalize a b; clear; intros v v0 end; apply op_total; [eauto| |intros Hc; inversion Hc]. assert (Hne : negb (value_eqb v v0) = true <-> v <> v0) by (rewrite <- value_eqb_eq; destruct (value_eqb v v0); cbn; intuition congruence). intros x. split.
      * intros [= <-]. constructor. exact Hne.
      * intros Hr. inversion Hr; subst; [match goal with HH : int_result _ _ _ _ |- _ => inversion HH end|]. f_equal. f_equal. symmetry.
        match goal with HH : _ <-> _ |- _ => revert HH end. apply bool_spec. exact Hne.
  - intros Ho Ht. destruct op; injection Ho as <-; kinds Ht; cbn [apply_op eval_unop as_integer bind].
    + apply op_total; [eauto| |intros Hc; inversion Hc]. intros v. replace (Z.lnot z) with (- z - 1)%Z by (unfold Z.lnot; lia). split; [intros [= <-]; constructor|intros Hr; inversion Hr; subst; reflexivity].
    + match goal with |- op_ok _ _ _ [?a] _ => generalize a; clear; intros v end. apply op_total; [destruct v; eauto| |intros Hc; inversion Hc]. intros x. split.
      * destruct v; try discriminate; intros [= <-]; constructor. apply Z.eqb_eq.
      * intros Hr. inversion Hr; subst; [|reflexivity]. f_equal. f_equal. symmetry. match goal with HH : _ <-> _ |- _ => revert HH end. apply bool_spec. apply Z.eqb_eq.
    + destruct (neg_ok (overflow_checks E) z) as [[H ->]|[H ->]]; cbn [bind].
      * apply op_total; [eauto| |]. { intros v. split; [intros [= <-]; constructor; exact H|intros Hr; inversion Hr; subst; [reflexivity|contradiction]]. } intros Hc; inversion Hc; subst; contradiction.
      * destruct (overflow_checks E) eqn:Eoc; cbn [bind].
        -- split; [intros v; split; [discriminate|intros Hr; inversion Hr; subst; [contradiction|congruence]]|]. split; [intros _; constructor; assumption|intros _; split; discriminate].
        -- apply op_total; [eauto| |]. { intros v. split; [intros [= <-]; apply rs_neg_wraps; [exact H|exact Eoc|apply wrap_reduces]|]. intros Hr. inversion Hr; subst; [contradiction|]. f_equal. f_equal. eapply reduces_unique; [apply wrap_reduces|assumption]. }
           intros Hc; inversion Hc; subst; congruence.
  - intros [= <-] Ht. kinds Ht. cbn [apply_op]. destruct (Z.ltb_spec z 0) as [Hz|Hz].
    + apply op_total; [eauto| |intros Hc; inversion Hc; subst; lia]. intros v. split; [discriminate|intros Hr; inversion Hr; subst; lia].
    + split.
      * intros v. split; [intros Hv; constructor; [exact Hz|exact Hv]|intros Hr; inversion Hr; subst; assumption].
      * split; [intros [H1 H2]; constructor; assumption|]. intros Hc. inversion Hc; subst. split; assumption.
Qed.

(** ** Calls *)
Definition call_fn (k : nat) (E : env) (f : option fs) (F : func) (vals : list value) : M value :=
  match F, vals with
  | FKey, [a; b; c; d] => mret (make_search_key (overflow_checks E) a b c d)
  | FSearch, [VInt t; key] => eval_search k E f t key
  | FTypeOf, [v] => mret (Ok (VStr (type_str v)))
  | FKeyOf, [VStruct _ key _] =>
    match key with Some (oid, ty, off) => mret (make_disk_key (overflow_checks E) oid ty off) | None => mret (Err ENoKey) end
  | FLen, [VArr l _] => mret (let* z := ok_or (checked (zlen l)) ETryFromInt in Ok (VInt z))
  | FHist, [] => mret (Ok (VArr [] true))
  | FStr, [v] => mret (Ok (match v with VStr _ => v | _ => VStr (display v) end))
  | _, _ => mret Fuel
  end.
Lemma eval_call_eq k E vs f fe args w : eval_expr k E vs f (ECall fe args) w =
  (do fv <- eval_expr k E vs f fe ;; do fn <- mret (as_function fv) ;;
   match parameters fn args with
   | None => mret (Err (arity_error fn))
   | Some ps => do vals <- eval_ops k E vs f ps ;; call_fn k E f fn vals
   end) w.
Proof.
  cbn [eval_expr]. unfold mbind, mret. destruct (eval_expr k E vs f fe w) as [w1 [v|er|p|]]; try reflexivity.
  destruct v as [z0|z0|z0|z0 z1|f0|z0 z1 z2]; try reflexivity. cbn [as_function].
  destruct f0; destruct args as [|a [|b [|c [|d [|]]]]]; try reflexivity; cbn [parameters eval_ops]; unfold mbind, mret.
  { destruct (eval_expr k E vs f a w1) as [wa [va|er|p|]]; try reflexivity. destruct va; try reflexivity. cbn [chk as_integer bind].
    destruct (eval_expr k E vs f b wa) as [wb [va|er|p|]]; try reflexivity. destruct va; try reflexivity. cbn [chk as_integer bind].
    destruct (eval_expr k E vs f c wb) as [wc [va|er|p|]]; try reflexivity. destruct va; try reflexivity. cbn [chk as_integer bind].
    destruct (eval_expr k E vs f d wc) as [wd [va|er|p|]]; try reflexivity. destruct va; reflexivity. }
  all: destruct (eval_expr k E vs f a w1) as [wa [va|er|p|]]; try reflexivity; destruct va; try reflexivity; cbn [chk as_integer as_struct bind].
  all: try (destruct (eval_expr k E vs f b wa) as [wb [va|er|p|]]; try reflexivity; destruct va; reflexivity).
  all: destruct key as [[[o t] g]|]; reflexivity.
Qed.

Lemma type_name_str v : type_name v (type_str v).
Proof. destruct v; constructor. Qed.
Lemma type_name_fun v t : type_name v t -> t = type_str v.
Proof. intros H. inversion H; reflexivity. Qed.

Lemma call_sound k E f F args ps vals w w' r o : parameters F args = Some ps -> typed ps vals -> call_fn k E f F vals w = (w', r) -> shows r = Some o ->
  returns E f F vals w w' o.
Proof.
  intros Hp Ht Hc Ho. destruct F; destruct args as [|a [|b [|c [|d [|]]]]]; try discriminate Hp; injection Hp as <-; kinds Ht; cbn [call_fn] in Hc; unfold mret in Hc.
  all: try (rewrite make_search_key_eq in Hc; injection Hc as <- <-; injection Ho as <-; constructor).
  all: try (injection Hc as <- <-; injection Ho as <-; constructor; apply type_name_str).
  all: try (injection Hc as <- <-; injection Ho as <-; constructor; fail).
  - destruct k0 as [[[oid ty] off]|]; [rewrite make_disk_key_eq in Hc|]; injection Hc as <- <-; injection Ho as <-; constructor.
  - destruct r as [v|er|p|]; try discriminate Ho; injection Ho as <-; [eapply rt_search|eapply rt_search_err]; exact Hc.
  - injection Hc as <- <-. destruct (checked_cases (zlen l)) as [[H E1]|[H E1]]; rewrite E1 in Ho; injection Ho as <-; constructor; exact H.
  - inversion Ht; subst. injection Hc as <- <-. injection Ho as <-. constructor.
  - injection Hc as <- <-. match type of Ho with context [match ?x with VStr _ => _ | _ => _ end] => destruct x end; injection Ho as <-; constructor; discriminate.
Qed.
Lemma call_complete E f F vals w w' o : returns E f F vals w w' o -> exists K, forall k, K <= k -> exists r, call_fn k E f F vals w = (w', r) /\ shows r = Some o.
Proof.
  intros H. inversion H; subst; cbn [call_fn]; unfold mret.
  2, 3: match goal with HH : eval_search ?kk _ _ _ _ _ = _ |- _ => exists kk; intros k' Hk; eexists; split;
     [eapply eval_search_mono; [exact Hk|exact HH|discriminate]|reflexivity] end.
  all: exists 0; intros k' Hk; eexists; (split; [reflexivity|]).
  - rewrite make_search_key_eq. reflexivity.
  - rewrite <- (type_name_fun _ _ H0). reflexivity.
  - rewrite make_disk_key_eq. reflexivity.
  - reflexivity.
  - destruct (checked_cases (zlen l)) as [[_ ->]|[Hn _]]; [reflexivity|contradiction].
  - destruct (checked_cases (zlen l)) as [[Hn _]|[_ ->]]; [contradiction|reflexivity].
  - reflexivity.
  - reflexivity.
  - destruct v; try reflexivity. exfalso. eapply H0. reflexivity.
Qed.

(** ** The whole evaluator *)
Lemma mbind_show {A} (m : M A) (g : A -> M value) w w' r o : mbind m g w = (w', r) -> shows r = Some o ->
  (exists w1 a, m w = (w1, Ok a) /\ g a w1 = (w', r)) \/ (exists e, m w = (w', Err e) /\ o = None).
Proof.
  unfold mbind. destruct (m w) as [w1 [a|e|p|]] eqn:Em; intros H Ho; [left; eauto|right|..]; injection H as <- <-; try discriminate Ho; injection Ho as <-; eauto.
Qed.
Section Sound.
Variable k : nat.
Variable E : env.
Variable vs : vars value.
Variable f : option fs.
Notation ev := (eval_expr k E vs f).
Definition sound (e : expr) : Prop := forall w w' r o, ev e w = (w', r) -> shows r = Some o -> gives E vs f e w w' o.
Lemma ops_sound ops : Forall (fun p => sound (fst p)) ops -> forall w w' r, eval_ops k E vs f ops w = (w', r) ->
  match r with
  | Ok vals => gives_all E vs f ops w w' (Some vals) /\ typed ops vals
  | Err _ => gives_all E vs f ops w w' None
  | _ => True
  end.
Proof.
  induction 1 as [|[e kd] ops He Hops IH]; intros w w' r; cbn [eval_ops].
  - intros [= <- <-]. split; constructor.
  - cbn [fst] in He. unfold mbind. destruct (ev e w) as [w1 [v|er|p|]] eqn:Ev; try (intros [= <- <-]; trivial; fail).
    + unfold mret. destruct (chk_cases kd v) as [[Hk ->]|[Hk [er ->]]].
      * destruct (eval_ops k E vs f ops w1) as [w2 r2] eqn:Eo. specialize (IH _ _ _ Eo). destruct r2 as [l|er|p|]; intros [= <- <-]; trivial.
        -- destruct IH as [IH1 IH2]. split; [|constructor; [exact Hk|exact IH2]]. econstructor; [eapply He; [exact Ev|reflexivity]|exact Hk|exact IH1].
        -- eapply ga_later; [eapply He; [exact Ev|reflexivity]|exact Hk|exact IH].
      * intros [= <- <-]. eapply ga_kind; [eapply He; [exact Ev|reflexivity]|exact Hk].
    + intros [= <- <-]. apply ga_error. eapply He; [exact Ev|reflexivity].
Qed.
Lemma op_sound e ops : operands e = Some ops -> Forall (fun p => sound (fst p)) ops -> sound e.
Proof.
  intros Ho HF w w' r o H Hs. rewrite (eval_op_eq _ _ _ _ _ _ _ Ho) in H. apply mbind_show with (o := o) in H; [|exact Hs].
  destruct H as [(w1 & vals & H1 & H2)|(er & H1 & ->)].
  - apply (ops_sound _ HF) in H1. destruct H1 as [H1 Ht]. unfold mret in H2. injection H2 as <- Hr.
    destruct (apply_ok E f e ops vals Ho Ht) as [Ha Hc]. rewrite Hr in Ha, Hc. destruct r as [v|er|p|]; try discriminate Hs; injection Hs as <-.
    + eapply gv_op; [exact Ho|exact H1|]. apply Ha. reflexivity.
    + eapply gv_op_bad; [exact Ho|exact H1| |].
      * intros v Hv. apply Ha in Hv. discriminate.
      * intros Hcr. apply Hc in Hcr. destruct Hcr as [_ Hcr]. exact (Hcr er eq_refl).
  - apply (ops_sound _ HF) in H1. eapply gv_op_operand; eassumption.
Qed.
Lemma one_sound e kd : sound e -> Forall (fun p : expr * kind => sound (fst p)) [(e, kd)].
Proof. intros H. constructor; [exact H|constructor]. Qed.
Lemma lazy_sound op l r : op = OLogicalAnd \/ op = OLogicalOr -> sound l -> sound r -> sound (EBin op l r).
Proof.
  intros Hop Hl Hr w w' res o H Ho.
  assert (Hsh : ev (EBin op l r) w = (do a <- eval_ops k E vs f [(l, KBool)] ;;
     match a with [VBool x] => if Bool.eqb x (match op with OLogicalAnd => true | _ => false end) then
        (do b <- eval_ops k E vs f [(r, KBool)] ;; mret (match b with [v] => Ok v | _ => Fuel end)) else mret (Ok (VBool x)) | _ => mret Fuel end) w).
  { destruct Hop as [-> | ->]; cbn [eval_expr eval_ops]; unfold mbind, mret; (destruct (ev l w) as [w1 [a|er|p|]]; try reflexivity); (destruct a as [z|z|b|z z1|z|z z1 z2]; try reflexivity);
      destruct b; cbn; try reflexivity; (destruct (ev r w1) as [w2 [a|er|p|]]; try reflexivity); destruct a; reflexivity. }
  rewrite Hsh in H. clear Hsh. apply mbind_show with (o := o) in H; [|exact Ho]. destruct H as [(w1 & a & H1 & H2)|(er & H1 & ->)].
  - apply (ops_sound _ (one_sound l KBool Hl)) in H1. destruct H1 as [H1 Ht]. kinds Ht. inversion H1; subst.
    match goal with HH : gives_all _ _ _ [] _ _ _ |- _ => inversion HH; subst end.
    match type of H2 with (if ?c then _ else _) _ = _ => destruct c eqn:Hc end.
    + apply Bool.eqb_prop in Hc. apply mbind_show with (o := o) in H2; [|exact Ho]. destruct H2 as [(w2 & bb & H3 & H4)|(er & H3 & ->)].
      * apply (ops_sound _ (one_sound r KBool Hr)) in H3. destruct H3 as [H3 Ht3]. kinds Ht3. injection H4 as <- <-. injection Ho as <-.
        eapply gv_right; [|eassumption|exact H3]. destruct Hop as [-> | ->]; auto.
      * apply (ops_sound _ (one_sound r KBool Hr)) in H3. eapply gv_right_bad; [|eassumption|exact H3]. destruct Hop as [-> | ->]; auto.
    + injection H2 as <- <-. injection Ho as <-. apply gv_lazy; [|assumption]. destruct Hop as [-> | ->]; destruct b; cbn in Hc; try discriminate; auto.
  - apply (ops_sound _ (one_sound l KBool Hl)) in H1. apply gv_left_bad; assumption.
Qed.
Lemma params_sound F args ps : parameters F args = Some ps -> Forall sound args -> Forall (fun p => sound (fst p)) ps.
Proof.
  intros Hp HF. destruct F; destruct args as [|a [|b [|c [|d [|]]]]]; try discriminate Hp; injection Hp as <-;
    repeat (inversion HF as [|? ? ? HF']; subst; clear HF; rename HF' into HF); repeat constructor; assumption.
Qed.
Lemma eval_sound e : sound e.
Proof.
  induction e using expr_ind'; try (eapply op_sound; [reflexivity|repeat (constructor; cbn [fst]; try assumption)]; fail).
  - intros w w' r o H Ho. cbn [eval_expr] in H. unfold mret in H. injection H as <- <-.
    destruct (vars_get_binding x vs) as [(i & Hi & He)|[Hu He]]; rewrite He in Ho.
    + destruct (binding vs i x) as [v|] eqn:Eb; [|destruct Hi; contradiction]. injection Ho as <-. eapply gv_var; eassumption.
    + injection Ho as <-. apply gv_unbound. exact Hu.
  - intros w w' r o H Ho. injection H as <- <-. injection Ho as <-. constructor.
  - intros w w' r o H Ho. injection H as <- <-. injection Ho as <-. constructor.
  - intros w w' r o H Ho. injection H as <- <-. injection Ho as <-. constructor.
  - intros w w' r o H Ho. constructor. eapply IHe; eassumption.
  - intros w w' r o Hc Ho. rewrite eval_call_eq in Hc. apply mbind_show with (o := o) in Hc; [|exact Ho]. destruct Hc as [(w1 & fv & H1 & H2)|(er & H1 & ->)].
    + pose proof (IHe _ _ _ _ H1 eq_refl) as G1. destruct fv as [z|z|b|z z1|F|z z1 z2]; cbn [as_function] in H2; unfold mret at 1, mbind at 1 in H2;
        try (injection H2 as <- <-; injection Ho as <-; apply gv_call_not_function; eapply ga_kind; [exact G1|intros Hk; inversion Hk]).
      destruct (parameters F args) as [ps|] eqn:Ep.
      * pose proof (params_sound _ _ _ Ep H) as HF. apply mbind_show with (o := o) in H2; [|exact Ho]. destruct H2 as [(w2 & vals & H3 & H4)|(er & H3 & ->)].
        -- apply (ops_sound _ HF) in H3. destruct H3 as [H3 Ht]. eapply gv_call; [exact G1|exact Ep|exact H3|]. eapply call_sound; eassumption.
        -- apply (ops_sound _ HF) in H3. eapply gv_call_argument; eassumption.
      * injection H2 as <- <-. injection Ho as <-. eapply gv_call_arity; eassumption.
    + apply gv_call_not_function. apply ga_error. eapply IHe; [exact H1|reflexivity].
  - destruct op; try (eapply op_sound; [reflexivity|repeat (constructor; cbn [fst]; try assumption)]; fail); apply lazy_sound; auto.
  - destruct op; (eapply op_sound; [reflexivity|repeat (constructor; cbn [fst]; try assumption)]).
Qed.
End Sound.

Definition shows_all (r : res (list value)) : option (option (list value)) :=
  match r with Ok v => Some (Some v) | Err _ => Some None | _ => None end.
Scheme gives_mind := Induction for gives Sort Prop with gives_all_mind := Induction for gives_all Sort Prop.
Definition completes (E : env) (vs : vars value) (f : option fs) (e : expr) (w w' : world) (o : option value) : Prop :=
  exists K, forall k, K <= k -> exists r, eval_expr k E vs f e w = (w', r) /\ shows r = Some o.
Definition completes_all (E : env) (vs : vars value) (f : option fs) (ops : list (expr * kind)) (w w' : world) (o : option (list value)) : Prop :=
  (exists K, forall k, K <= k -> exists r, eval_ops k E vs f ops w = (w', r) /\ shows_all r = Some o) /\
  match o with Some vals => typed ops vals | None => True end.
Lemma shows_ok r v : shows r = Some (Some v) -> r = Ok v.
Proof. destruct r; cbn; congruence. Qed.
Lemma shows_err r : shows r = Some None -> exists e, r = Err e.
Proof. destruct r; cbn; try congruence. eauto. Qed.
Lemma showsa_ok r v : shows_all r = Some (Some v) -> r = Ok v.
Proof. destruct r; cbn; congruence. Qed.
Lemma showsa_err r : shows_all r = Some None -> exists e, r = Err e.
Proof. destruct r; cbn; try congruence. eauto. Qed.

Ltac up H K1 := destruct H as [K1 H].
Lemma all_one E vs f e kd w w' o : completes_all E vs f [(e, kd)] w w' o -> exists K, forall k, K <= k ->
  match o with
  | Some vals => exists v, vals = [v] /\ eval_expr k E vs f e w = (w', Ok v) /\ has_kind kd v
  | None => exists r, eval_expr k E vs f e w = (w', r) /\ match r with Ok v => ~ has_kind kd v | Err _ => True | _ => False end
  end.
Proof.
  intros [[K H] _]. exists K. intros k Hk. destruct (H k Hk) as (r & Hr & Ho). cbn [eval_ops] in Hr. unfold mbind, mret in Hr.
  destruct (eval_expr k E vs f e w) as [w1 [v|er|p|]] eqn:Ev.
  - destruct (chk_cases kd v) as [[Hkd Ec]|[Hkd [er Ec]]]; rewrite Ec in Hr; injection Hr as <- <-; injection Ho as <-; eauto.
  - injection Hr as <- <-. injection Ho as <-. eexists; split; [reflexivity|exact I].
  - injection Hr as <- <-. discriminate.
  - injection Hr as <- <-. discriminate.
Qed.
Lemma kbool v : has_kind KBool v -> exists b, v = VBool b.
Proof. intros H. inversion H. eauto. Qed.
Lemma not_kbool v : ~ has_kind KBool v -> exists e, as_boolean v = Err e.
Proof. intros H. destruct v; cbn; eauto. exfalso. apply H. constructor. Qed.
Lemma not_kfun v : ~ has_kind KFunction v -> exists e, as_function v = Err e.
Proof. intros H. destruct v; cbn; eauto. exfalso. apply H. constructor. Qed.
Section Complete.
Variable E : env.
Variable vs : vars value.
Variable f : option fs.
Lemma eval_complete e w w' o : gives E vs f e w w' o -> completes E vs f e w w' o.
Proof.
  revert e w w' o. apply (gives_mind E vs f (fun e w w' o _ => completes E vs f e w w' o) (fun ops w w' o _ => completes_all E vs f ops w w' o)).
  - intros z w. exists 0. intros k _. eexists. split; reflexivity.
  - intros b w. exists 0. intros k _. eexists. split; reflexivity.
  - intros s w. exists 0. intros k _. eexists. split; reflexivity.
  - intros x i v w Hi Hb. exists 0. intros k _. cbn [eval_expr]. unfold mret. rewrite (vars_get_innermost _ _ _ Hi), Hb. eexists. split; reflexivity.
  - intros x w Hu. exists 0. intros k _. cbn [eval_expr]. unfold mret. rewrite (proj2 (vars_get_none _ _) Hu). eexists. split; reflexivity.
  - intros e w w' o _ H. exact H.
  - intros e ops w w' vals v Ho _ [[K H] Ht] Hr. exists K. intros k Hk. destruct (H k Hk) as (r & H1 & H2). apply showsa_ok in H2. subst r.
    rewrite (eval_op_eq _ _ _ _ _ _ _ Ho). unfold mbind, mret. rewrite H1. rewrite (proj2 (proj1 (apply_ok E f e ops vals Ho Ht) v) Hr). eexists. split; reflexivity.
  - intros e ops w w' Ho _ [[K H] Ht]. exists K. intros k Hk. destruct (H k Hk) as (r & H1 & H2). apply showsa_err in H2. destruct H2 as [er ->].
    rewrite (eval_op_eq _ _ _ _ _ _ _ Ho). unfold mbind, mret. rewrite H1. eexists. split; reflexivity.
  - intros e ops w w' vals Ho _ [[K H] Ht] Hn Hc. exists K. intros k Hk. destruct (H k Hk) as (r & H1 & H2). apply showsa_ok in H2. subst r.
    rewrite (eval_op_eq _ _ _ _ _ _ _ Ho). unfold mbind, mret. rewrite H1. destruct (apply_ok E f e ops vals Ho Ht) as [Ha Hcr].
    destruct (apply_op E f e vals) as [v|er|p|].
    + exfalso. eapply Hn. apply Ha. reflexivity.
    + eexists. split; reflexivity.
    + exfalso. apply Hc, Hcr. split; discriminate.
    + exfalso. apply Hc, Hcr. split; discriminate.
  - intros op t l r w w' Hop _ [K H]. exists K. intros k Hk. destruct (H k Hk) as (x & H1 & H2). apply shows_ok in H2. subst x.
    destruct Hop as [[-> ->]|[-> ->]]; cbn [eval_expr]; unfold mbind, mret; rewrite H1; cbn; eexists; split; reflexivity.
  - intros op t l r w w1 w' b Hop _ [K H] _ H0. apply all_one in H0. destruct H0 as [K0 H0]. exists (Nat.max K K0). intros k Hk.
    destruct (H k ltac:(lia)) as (x & H1 & H2). apply shows_ok in H2. subst x. destruct (H0 k ltac:(lia)) as (v & [= <-] & H3 & Hkd). apply kbool in Hkd. destruct Hkd as [c ->].
    destruct Hop as [[-> ->]|[-> ->]]; cbn [eval_expr]; unfold mbind, mret; rewrite H1; cbn [as_boolean]; rewrite H3; cbn; eexists; split; reflexivity.
  - intros op t l r w w1 w' Hop _ [K H] _ H0. apply all_one in H0. destruct H0 as [K0 H0]. exists (Nat.max K K0). intros k Hk.
    destruct (H k ltac:(lia)) as (x & H1 & H2). apply shows_ok in H2. subst x. destruct (H0 k ltac:(lia)) as (y & H3 & Hy).
    destruct y as [v|er|p|]; try contradiction; [apply not_kbool in Hy; destruct Hy as [er Hy]|];
      (destruct Hop as [[-> ->]|[-> ->]]; cbn [eval_expr]; unfold mbind, mret; rewrite H1; cbn [as_boolean]; rewrite H3; cbn; try rewrite Hy; eexists; split; reflexivity).
  - intros op l r w w' Hop _ H0. apply all_one in H0. destruct H0 as [K0 H0]. exists K0. intros k Hk. destruct (H0 k Hk) as (y & H3 & Hy).
    destruct y as [v|er|p|]; try contradiction; [apply not_kbool in Hy; destruct Hy as [er Hy]|];
      (destruct Hop as [-> | ->]; cbn [eval_expr]; unfold mbind, mret; rewrite H3; cbn; try rewrite Hy; eexists; split; reflexivity).
  - intros fe args w w' _ H0. apply all_one in H0. destruct H0 as [K0 H0]. exists K0. intros k Hk. destruct (H0 k Hk) as (y & H3 & Hy).
    rewrite eval_call_eq. unfold mbind at 1. rewrite H3. destruct y as [v|er|p|]; try contradiction; [|eexists; split; reflexivity].
    apply not_kfun in Hy. destruct Hy as [er Hy]. unfold mbind at 1, mret at 1. rewrite Hy. eexists; split; reflexivity.
  - intros fe args F w w' _ [K H] Hp. exists K. intros k Hk. destruct (H k Hk) as (x & H1 & H2). apply shows_ok in H2. subst x.
    rewrite eval_call_eq. unfold mbind at 1. rewrite H1. cbn [as_function]. unfold mbind at 1, mret at 1. rewrite Hp. eexists; split; reflexivity.
  - intros fe args F ps w w1 w' _ [K H] Hp _ [[K0 H0] _]. exists (Nat.max K K0). intros k Hk. destruct (H k ltac:(lia)) as (x & H1 & H2). apply shows_ok in H2. subst x.
    destruct (H0 k ltac:(lia)) as (y & H3 & Hy). apply showsa_err in Hy. destruct Hy as [er ->].
    rewrite eval_call_eq. unfold mbind at 1. rewrite H1. cbn [as_function]. unfold mbind at 1, mret at 1. rewrite Hp. unfold mbind. rewrite H3. eexists; split; reflexivity.
  - intros fe args F ps w w1 w2 w' vals o _ [K H] Hp _ [[K0 H0] _] Hr. apply call_complete in Hr. destruct Hr as [K2 Hr]. exists (Nat.max K (Nat.max K0 K2)). intros k Hk.
    destruct (H k ltac:(lia)) as (x & H1 & H2). apply shows_ok in H2. subst x. destruct (H0 k ltac:(lia)) as (y & H3 & Hy). apply showsa_ok in Hy. subst y.
    destruct (Hr k ltac:(lia)) as (z & H4 & Hz). rewrite eval_call_eq. unfold mbind at 1. rewrite H1. cbn [as_function]. unfold mbind at 1, mret at 1. rewrite Hp. unfold mbind. rewrite H3. eauto.
  - intros w. split; [|constructor]. exists 0. intros k _. eexists. split; reflexivity.
  - intros e kd ops w w1 w' v vals _ [K H] Hkd _ [[K0 H0] Ht]. split; [|constructor; assumption]. exists (Nat.max K K0). intros k Hk.
    destruct (H k ltac:(lia)) as (x & H1 & H2). apply shows_ok in H2. subst x. destruct (H0 k ltac:(lia)) as (y & H3 & Hy). apply showsa_ok in Hy. subst y.
    cbn [eval_ops]. unfold mbind, mret. rewrite H1. destruct (chk_cases kd v) as [[_ ->]|[Hn _]]; [|contradiction]. rewrite H3. eexists; split; reflexivity.
  - intros e kd ops w w1 w' v _ [K H] Hkd _ [[K0 H0] _]. split; [|trivial]. exists (Nat.max K K0). intros k Hk.
    destruct (H k ltac:(lia)) as (x & H1 & H2). apply shows_ok in H2. subst x. destruct (H0 k ltac:(lia)) as (y & H3 & Hy). apply showsa_err in Hy. destruct Hy as [er ->].
    cbn [eval_ops]. unfold mbind, mret. rewrite H1. destruct (chk_cases kd v) as [[_ ->]|[Hn _]]; [|contradiction]. rewrite H3. eexists; split; reflexivity.
  - intros e kd ops w w' v _ [K H] Hkd. split; [|trivial]. exists K. intros k Hk. destruct (H k Hk) as (x & H1 & H2). apply shows_ok in H2. subst x.
    cbn [eval_ops]. unfold mbind, mret. rewrite H1. destruct (chk_cases kd v) as [[Hn _]|[_ [er ->]]]; [contradiction|]. eexists; split; reflexivity.
  - intros e kd ops w w' _ [K H]. split; [|trivial]. exists K. intros k Hk. destruct (H k Hk) as (x & H1 & H2). apply shows_err in H2. destruct H2 as [er ->].
    cbn [eval_ops]. unfold mbind, mret. rewrite H1. eexists; split; reflexivity.
Qed.
End Complete.

Lemma evals_gives E s e w o : (exists r, evals E s e w r /\ shows r = Some o) <-> gives E (e_vars s) (e_fs s) e (e_w s) w o.
Proof.
  split.
  - intros (r & [_ [k H]] & Ho). eapply eval_sound; eassumption.
  - intros H. apply eval_complete in H. destruct H as [K H]. destruct (H K (le_n K)) as (r & H1 & H2). exists r. split; [|exact H2].
    split; [intros ->; discriminate|]. exists K. exact H1.
Qed.
Lemma evals_value E s e w v : evals E s e w (Ok v) <-> gives E (e_vars s) (e_fs s) e (e_w s) w (Some v).
Proof.
  rewrite <- evals_gives. split; [intros H; exists (Ok v); auto|]. intros (r & H & Hs). apply shows_ok in Hs. subst r. exact H.
Qed.
Lemma evals_error E s e w : (exists er, evals E s e w (Err er)) <-> gives E (e_vars s) (e_fs s) e (e_w s) w None.
Proof.
  rewrite <- evals_gives. split; [intros [er H]; exists (Err er); auto|]. intros (r & H & Hs). apply shows_err in Hs. destruct Hs as [er ->]. eauto.
Qed.
Lemma gives_fun E vs f e w w1 w2 o1 o2 : gives E vs f e w w1 o1 -> gives E vs f e w w2 o2 -> w1 = w2 /\ o1 = o2.
Proof.
  intros H1 H2. apply (proj2 (evals_gives E (mk_est vs f w) e _ _)) in H1. apply (proj2 (evals_gives E (mk_est vs f w) e _ _)) in H2.
  destruct H1 as (r1 & H1 & Ho1), H2 as (r2 & H2 & Ho2). destruct (evals_fun _ _ _ _ _ _ _ H1 H2) as [-> ->]. split; congruence.
Qed.
