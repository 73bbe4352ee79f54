(** C01, C02, C04-C09: arithmetic, comparison, equality and logic, for arbitrary operand
    expressions [l] and [r] (which may have effects: [w], [w1], [w2] are the worlds before,
    between and after). *)
From Verif Require Import Base Ast Value Variables Fs Eval Runtime Demo Spec_Arith Proof_Arith.
Local Open Scope Z_scope.

Theorem C01_add_sub_mul_exact_or_error :
  forall k E vs f op g l r w w1 w2 a b,
  exact_op op g ->
  eval_expr k E vs f l w = (w1, Ok (VInt a)) ->
  eval_expr k E vs f r w1 = (w2, Ok (VInt b)) ->
  (fits128 (g a b) -> eval_expr k E vs f (EBin op l r) w = (w2, Ok (VInt (g a b)))) /\
  (~ fits128 (g a b) -> eval_expr k E vs f (EBin op l r) w = (w2, Err (EOverflow a (op_sign op) b))).
Proof. exact exact_arith. Qed.
Print Assumptions C01_add_sub_mul_exact_or_error.

Example C01_example :
  demo_out (demo_run true false "print 3 * 5 - 100 + 7;") = s_ "-78
" /\
  snd (demo_run true false "x = 170141183460469231731687303715884105727 + 1;") = RErr (EOverflow 170141183460469231731687303715884105727 (s_ "+") 1) /\
  snd (demo_run true false "x = (1 << 126) * 4;") = RErr (EOverflow (2 ^ 126) (s_ "*") 4).
Proof. vm_compute. auto. Qed.

Theorem C02_division_and_remainder :
  forall k E vs f l r w w1 w2 a b,
  fits128 a -> fits128 b ->
  eval_expr k E vs f l w = (w1, Ok (VInt a)) ->
  eval_expr k E vs f r w1 = (w2, Ok (VInt b)) ->
  (b = 0 -> eval_expr k E vs f (EBin ODivide l r) w = (w2, Err EDivideByZero)
            /\ eval_expr k E vs f (EBin OModulo l r) w = (w2, Err EDivideByZero)) /\
  (a = - 2 ^ 127 -> b = -1 ->
            eval_expr k E vs f (EBin ODivide l r) w = (w2, Err (EOverflow a (s_ "/") b))
            /\ eval_expr k E vs f (EBin OModulo l r) w = (w2, Err (EOverflow a (s_ "%") b))) /\
  (b <> 0 -> ~ (a = - 2 ^ 127 /\ b = -1) ->
   exists q m, eval_expr k E vs f (EBin ODivide l r) w = (w2, Ok (VInt q))
            /\ eval_expr k E vs f (EBin OModulo l r) w = (w2, Ok (VInt m))
            /\ fits128 q /\ fits128 m
            /\ a = q * b + m /\ Z.abs m < Z.abs b /\ (m = 0 \/ Z.sgn m = Z.sgn a)).
Proof. exact div_rem. Qed.
Print Assumptions C02_division_and_remainder.

Example C02_example :
  demo_out (demo_run true false "print -7 / 2; print -7 % 2; print 7 / -2; print 7 % -2;")
    = s_ "-3
-1
-3
1
" /\
  snd (demo_run true false "x = 1 / 0;") = RErr EDivideByZero /\
  snd (demo_run true false "x = (1 << 127) % -1;") = RErr (EOverflow (- 2 ^ 127) (s_ "%") (-1)).
Proof. vm_compute. auto. Qed.

(** C04.  Full property: as below, with [~ fits128 (a * 2 ^ n) -> error] for [<<].  That
    part is false ([C04_left_shift_refuted]): the code checks only the shift amount, so
    [<<] keeps the low 128 bits. *)
Theorem C04_shifts_partial :
  forall k E vs f l r w w1 w2 a n,
  eval_expr k E vs f l w = (w1, Ok (VInt a)) ->
  eval_expr k E vs f r w1 = (w2, Ok (VInt n)) ->
  (0 <= n < 128 ->
     eval_expr k E vs f (EBin ORightShift l r) w = (w2, Ok (VInt (a / 2 ^ n)))) /\
  (~ 0 <= n < 128 -> exists e, eval_expr k E vs f (EBin ORightShift l r) w = (w2, Err e)) /\
  (0 <= n < 128 ->
     exists c, eval_expr k E vs f (EBin OLeftShift l r) w = (w2, Ok (VInt c)) /\ fits128 c
       /\ (exists q, c = a * 2 ^ n + q * 2 ^ 128) /\ (fits128 (a * 2 ^ n) -> c = a * 2 ^ n)) /\
  (~ 0 <= n < 128 -> exists e, eval_expr k E vs f (EBin OLeftShift l r) w = (w2, Err e)).
Proof.
  exact (fun k E vs f l r w w1 w2 a n H1 H2 =>
    conj (proj1 (shr_ok k E vs f l r w w1 w2 a n H1 H2))
   (conj (proj2 (shr_ok k E vs f l r w w1 w2 a n H1 H2))
         (shl_ok k E vs f l r w w1 w2 a n H1 H2))).
Qed.
Print Assumptions C04_shifts_partial.

(** A left shift that loses bits is not an error: [2 << 127] is 0. *)
Theorem C04_left_shift_refuted :
  forall oc, demo_out (demo_run oc false "print 2 << 127;") = s_ "0
" /\ snd (demo_run oc false "print 2 << 127;") = ROk /\ ~ fits128 (2 * 2 ^ 127).
Proof. intros oc; destruct oc; (split; [vm_compute; reflexivity | split; [vm_compute; reflexivity|]]);
  unfold fits128; intros [_ H]; vm_compute in H; exact (H eq_refl). Qed.
Print Assumptions C04_left_shift_refuted.

Example C04_example :
  demo_out (demo_run true false "print 3 << 4; print -5 >> 1;") = s_ "48
-3
" /\
  snd (demo_run true false "x = 1 << 128;") = RErr (EOverflow 1 (s_ "<<") 128) /\
  snd (demo_run true false "x = 1 >> -1;") = RErr ETryFromInt.
Proof. vm_compute. auto. Qed.

(** C05.  Full property: for every 128-bit [a], [- a] if it fits and an error otherwise.
    False at the minimum ([C05_negate_min_refuted]). *)
Theorem C05_negation_partial :
  forall k E vs f e w w1 a,
  fits128 a -> a <> - 2 ^ 127 ->
  eval_expr k E vs f e w = (w1, Ok (VInt a)) ->
  eval_expr k E vs f (EUn UMinus e) w = (w1, Ok (VInt (- a))).
Proof. exact neg_ok. Qed.
Print Assumptions C05_negation_partial.

(** Negating the minimum crashes a debug build and silently gives the minimum in a
    release build. *)
Theorem C05_negate_min_refuted :
  snd (demo_run true false "x = -(1 << 127);") = RPanic PArith /\
  snd (demo_run false false "x = -(1 << 127); print x;") = ROk /\
  demo_out (demo_run false false "x = -(1 << 127); print x;")
    = s_ "-170141183460469231731687303715884105728
".
Proof. vm_compute. auto. Qed.
Print Assumptions C05_negate_min_refuted.

Theorem C06_bitwise_operators :
  forall k E vs f,
  (forall op g l r w w1 w2 a b,
    bit_op op g -> fits128 a -> fits128 b ->
    eval_expr k E vs f l w = (w1, Ok (VInt a)) ->
    eval_expr k E vs f r w1 = (w2, Ok (VInt b)) ->
    exists c, eval_expr k E vs f (EBin op l r) w = (w2, Ok (VInt c)) /\ fits128 c /\
      forall i, 0 <= i < 128 -> bit128 c i = g (bit128 a i) (bit128 b i)) /\
  (forall e w w1 a,
    fits128 a ->
    eval_expr k E vs f e w = (w1, Ok (VInt a)) ->
    exists c, eval_expr k E vs f (EUn UBitNot e) w = (w1, Ok (VInt c)) /\ fits128 c /\
      forall i, 0 <= i < 128 -> bit128 c i = negb (bit128 a i)).
Proof. exact (fun k E vs f => conj (bitwise_ok k E vs f) (bitnot_ok k E vs f)). Qed.
Print Assumptions C06_bitwise_operators.

Example C06_example :
  demo_out (demo_run true false "print 12 & 10; print 12 | 10; print 12 ^ 10; print ~12; print -1 & 255;")
    = s_ "8
14
6
-13
255
".
Proof. vm_compute. auto. Qed.

Theorem C07_comparisons :
  forall k E vs f op R l r w w1 w2 v1 v2,
  compare_op op R ->
  eval_expr k E vs f l w = (w1, Ok v1) ->
  eval_expr k E vs f r w1 = (w2, Ok v2) ->
  (forall a b, v1 = VInt a -> v2 = VInt b ->
     exists t, eval_expr k E vs f (EBin op l r) w = (w2, Ok (VBool t)) /\ (t = true <-> R a b)) /\
  ((forall z, v1 <> VInt z) \/ (forall z, v2 <> VInt z) ->
     exists w' e, eval_expr k E vs f (EBin op l r) w = (w', Err e)).
Proof.
  exact (fun k E vs f op R l r w w1 w2 v1 v2 Hop H1 H2 =>
    conj (fun a b Ha Hb =>
            compare_ok k E vs f op R l r w w1 w2 a b Hop
              (eq_trans H1 (f_equal (fun v => (w1, Ok v)) Ha))
              (eq_trans H2 (f_equal (fun v => (w2, Ok v)) Hb)))
         (compare_err k E vs f op R l r w w1 w2 v1 v2 Hop H1 H2)).
Qed.
Print Assumptions C07_comparisons.

Example C07_example :
  demo_out (demo_run true false "print -1 < 0; print 2 <= 1; print 3 > 3; print 3 >= 3;")
    = s_ "true
false
false
true
" /\
  snd (demo_run true false "print ""a"" < 3;") = RErr (EExpected (s_ "integer") (s_ "a")).
Proof. vm_compute. auto. Qed.

(** The result is true exactly when the two values are identical, hence equality is
    reflexive, symmetric and transitive; [!=] is its negation. *)
Theorem C08_equality :
  forall k E vs f l r w w1 w2 v1 v2,
  eval_expr k E vs f l w = (w1, Ok v1) ->
  eval_expr k E vs f r w1 = (w2, Ok v2) ->
  exists t, eval_expr k E vs f (EBin OEquals l r) w = (w2, Ok (VBool t))
         /\ eval_expr k E vs f (EBin ONotEquals l r) w = (w2, Ok (VBool (negb t)))
         /\ (t = true <-> v1 = v2).
Proof. exact equality_ok. Qed.
Print Assumptions C08_equality.

Example C08_example :
  demo_out (demo_run true false "print key(1,2,3,4) == key(1,2,3,4); print key(1,2,3,4) != key(1,2,3,5); print 1 == ""1""; print key == key;")
    = s_ "true
true
false
true
".
Proof. vm_compute. auto. Qed.

(** [e] is arbitrary: it may fail, crash, query the kernel or exhaust every budget. *)
Theorem C09_short_circuit :
  forall k E vs f l w w1,
  (eval_expr k E vs f l w = (w1, Ok (VBool false)) ->
     forall e, eval_expr k E vs f (EBin OLogicalAnd l e) w = (w1, Ok (VBool false))) /\
  (eval_expr k E vs f l w = (w1, Ok (VBool true)) ->
     forall e, eval_expr k E vs f (EBin OLogicalOr l e) w = (w1, Ok (VBool true))) /\
  (forall e w2 b, eval_expr k E vs f l w = (w1, Ok (VBool true)) ->
     eval_expr k E vs f e w1 = (w2, Ok (VBool b)) ->
     eval_expr k E vs f (EBin OLogicalAnd l e) w = (w2, Ok (VBool b))) /\
  (forall e w2 b, eval_expr k E vs f l w = (w1, Ok (VBool false)) ->
     eval_expr k E vs f e w1 = (w2, Ok (VBool b)) ->
     eval_expr k E vs f (EBin OLogicalOr l e) w = (w2, Ok (VBool b))).
Proof.
  exact (fun k E vs f l w w1 =>
    conj (fun H e => and_false k E vs f l e w w1 H)
   (conj (fun H e => or_true k E vs f l e w w1 H)
   (conj (fun e w2 b => and_true k E vs f l e w w1 w2 b)
         (fun e w2 b => or_false k E vs f l e w w1 w2 b)))).
Qed.
Print Assumptions C09_short_circuit.

Example C09_example :
  demo_out (demo_run true false "print false && (1 / 0 == 1); print true || search(1, 2); print 1 < 2 && 2 < 1;")
    = s_ "false
true
false
".
Proof. vm_compute. auto. Qed.
