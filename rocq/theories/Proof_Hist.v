(** Histograms: value.rs:128-273. *)
From Verif Require Import Base Ast Value Lib Variables Fs Eval Spec_Run Proof_Run Spec_Grammar Proof_Text Spec_Hist.
From Coq Require Import Lia.
Arguments s_ s%string_scope.

(** the e-th boundary: ..., -4, -2, -1, 0, 1, 2, 4, ... *)
Definition pw (e : Z) : Z := (if e =? 0 then 0 else if 0 <? e then 2 ^ (e - 1) else - 2 ^ (- e - 1))%Z.
Lemma pw_pos e : (0 < e)%Z -> pw e = (2 ^ (e - 1))%Z.
Proof. intros H. unfold pw. rewrite (proj2 (Z.eqb_neq e 0)), (proj2 (Z.ltb_lt 0 e)) by lia. reflexivity. Qed.
Lemma pw_neg e : (e < 0)%Z -> pw e = (- 2 ^ (- e - 1))%Z.
Proof. intros H. unfold pw. rewrite (proj2 (Z.eqb_neq e 0)), (proj2 (Z.ltb_ge 0 e)) by lia. reflexivity. Qed.
Lemma pw_power e : power_of_two (pw e).
Proof.
  unfold power_of_two. destruct (Z.lt_trichotomy e 0) as [H|[->|H]]; [right|left; reflexivity|right].
  - rewrite pw_neg by exact H. exists (- e - 1)%Z. split; [lia|right; reflexivity].
  - rewrite pw_pos by exact H. exists (e - 1)%Z. split; [lia|left; reflexivity].
Qed.
Lemma power_pw z : power_of_two z -> exists e, z = pw e.
Proof.
  intros [->|(j & Hj & [->| ->])]; [exists 0%Z; reflexivity| |].
  - exists (j + 1)%Z. rewrite pw_pos by lia. f_equal. lia.
  - exists (- j - 1)%Z. rewrite pw_neg by lia. do 2 f_equal. lia.
Qed.
Lemma pw_succ_lt e : (pw e < pw (e + 1))%Z.
Proof.
  destruct (Z.lt_trichotomy e 0) as [H|[->|H]]; [|reflexivity|].
  - destruct (Z.eq_dec e (-1)) as [->|Hn]; [reflexivity|]. rewrite !pw_neg by lia.
    assert (2 ^ (- (e + 1) - 1) < 2 ^ (- e - 1))%Z by (apply Z.pow_lt_mono_r; lia). lia.
  - rewrite !pw_pos by lia. apply Z.pow_lt_mono_r; lia.
Qed.
Lemma pw_lt_n n : forall e, (0 < n)%nat -> (pw e < pw (e + Z.of_nat n))%Z.
Proof.
  induction n as [|n IH]; intros e H; [lia|]. destruct n as [|n]; [apply pw_succ_lt|].
  replace (e + Z.of_nat (S (S n)))%Z with (e + Z.of_nat (S n) + 1)%Z by lia. pose proof (pw_succ_lt (e + Z.of_nat (S n))). specialize (IH e ltac:(lia)). lia.
Qed.
Lemma pw_lt a b : (a < b -> pw a < pw b)%Z.
Proof. intros H. replace b with (a + Z.of_nat (Z.to_nat (b - a)))%Z by lia. apply pw_lt_n. lia. Qed.
Lemma pw_lt_inv a b : (pw a < pw b -> a < b)%Z.
Proof. intros H. destruct (Z.lt_trichotomy a b) as [|[->|Hb]]; [assumption|lia|]. apply pw_lt in Hb. lia. Qed.
Lemma pw_le a b : (a <= b -> pw a <= pw b)%Z.
Proof. intros H. destruct (Z.eq_dec a b) as [->|]; [lia|]. assert (Hl : (a < b)%Z) by lia. apply pw_lt in Hl. lia. Qed.
Lemma pw_next e p : power_of_two p -> (pw e < p)%Z -> (pw (e + 1) <= p)%Z.
Proof. intros Hp H. destruct (power_pw p Hp) as (e' & ->). apply pw_lt_inv in H. apply pw_le. lia. Qed.

Lemma wrap128_id z : (- 2 ^ 127 <= z < 2 ^ 127)%Z -> wrap128 z = z.
Proof. intros H. unfold wrap128. rewrite Z.mod_small; [lia|]. change (2 ^ 128)%Z with (2 ^ 127 + 2 ^ 127)%Z. lia. Qed.
Lemma shl1_pos j : (0 <= j <= 125)%Z -> checked_shl (2 ^ j) 1 = Some (2 ^ (j + 1))%Z.
Proof.
  intros H. unfold checked_shl. cbn [Z.ltb Z.compare Pos.compare Pos.compare_cont]. rewrite Z.shiftl_mul_pow2 by lia. rewrite wrap128_id.
  - rewrite Z.pow_add_r by lia. reflexivity.
  - rewrite <- Z.pow_add_r by lia. assert (0 < 2 ^ (j + 1))%Z by (apply Z.pow_pos_nonneg; lia). assert (2 ^ (j + 1) < 2 ^ 127)%Z by (apply Z.pow_lt_mono_r; lia). lia.
Qed.
Lemma shl1_neg j : (0 <= j <= 126)%Z -> checked_shl (- 2 ^ j) 1 = Some (- 2 ^ (j + 1))%Z.
Proof.
  intros H. unfold checked_shl. cbn [Z.ltb Z.compare Pos.compare Pos.compare_cont]. rewrite Z.shiftl_mul_pow2 by lia. rewrite wrap128_id.
  - rewrite Z.pow_add_r by lia. f_equal. lia.
  - replace (- 2 ^ j * 2 ^ 1)%Z with (- 2 ^ (j + 1))%Z by (rewrite Z.pow_add_r by lia; lia).
    assert (0 < 2 ^ (j + 1))%Z by (apply Z.pow_pos_nonneg; lia). assert (2 ^ (j + 1) <= 2 ^ 127)%Z by (apply Z.pow_le_mono_r; lia). lia.
Qed.

(** value.rs:207-210 *)
Lemma shl_le_ok x : (0 < x < 2 ^ 126)%Z -> forall m k j, (0 <= j)%Z -> (j + Z.of_nat m = Z.log2 x + 1)%Z -> m < k ->
  shl_while_le k x (2 ^ j) = Ok (Some (2 ^ (Z.log2 x + 1))%Z).
Proof.
  intros Hx. assert (Hlog : (Z.log2 x < 126)%Z) by (apply Z.log2_lt_pow2; lia).
  pose proof (Z.log2_spec x ltac:(lia)) as [Hl Hu]. pose proof (Z.log2_nonneg x).
  induction m as [|m IH]; intros k j Hj Hm Hk; (destruct k as [|k]; [lia|]); cbn [shl_while_le].
  - replace j with (Z.log2 x + 1)%Z by lia. unfold Z.succ in Hu. rewrite (proj2 (Z.leb_gt _ _)) by lia. reflexivity.
  - assert (Hle : (2 ^ j <= 2 ^ Z.log2 x)%Z) by (apply Z.pow_le_mono_r; lia). rewrite (proj2 (Z.leb_le _ _)) by lia.
    rewrite shl1_pos by lia. apply IH; lia.
Qed.
(** no power of two above x fits: it never ends *)
Lemma shl_le_hangs x : (2 ^ 126 <= x < 2 ^ 127)%Z -> forall k i, (i = 0 \/ i = - 2 ^ 127 \/ exists j, 0 <= j <= 126 /\ i = 2 ^ j)%Z -> shl_while_le k x i = Fuel.
Proof.
  intros Hx. induction k as [|k IH]; intros i Hi; [reflexivity|]. cbn [shl_while_le].
  assert (Hle : (i <= x)%Z).
  { destruct Hi as [->|[->|(j & Hj & ->)]]; [lia|lia|]. assert (2 ^ j <= 2 ^ 126)%Z by (apply Z.pow_le_mono_r; lia). lia. }
  rewrite (proj2 (Z.leb_le _ _)) by exact Hle.
  destruct Hi as [->|[->|(j & Hj & ->)]].
  - change (checked_shl 0 1) with (Some 0%Z). apply IH. auto.
  - change (checked_shl (- 2 ^ 127) 1) with (Some 0%Z). apply IH. auto.
  - destruct (Z.eq_dec j 126) as [->|Hn].
    + change (checked_shl (2 ^ 126) 1) with (Some (- 2 ^ 127)%Z). apply IH. auto.
    + rewrite shl1_pos by lia. apply IH. right. right. exists (j + 1)%Z. split; [lia|reflexivity].
Qed.
(** value.rs:215-218 *)
Lemma shl_gt_ok x : (- 2 ^ 127 <= x < 0)%Z -> forall m k j, (0 <= j)%Z -> (j + Z.of_nat m = Z.log2_up (- x))%Z -> m < k ->
  shl_while_gt k x (- 2 ^ j) = Ok (Some (- 2 ^ Z.log2_up (- x))%Z).
Proof.
  intros Hx. assert (Hlog : (Z.log2_up (- x) <= 127)%Z) by (apply Z.log2_up_le_pow2; lia).
  assert (Hu : (- x <= 2 ^ Z.log2_up (- x))%Z) by (apply Z.log2_up_le_pow2; lia).
  induction m as [|m IH]; intros k j Hj Hm Hk; (destruct k as [|k]; [lia|]); cbn [shl_while_gt]; rewrite Z.gtb_ltb.
  - replace j with (Z.log2_up (- x)) by lia. rewrite (proj2 (Z.ltb_ge _ _)) by lia. reflexivity.
  - assert (Hlt : (2 ^ j < - x)%Z) by (apply Z.log2_up_lt_pow2; lia). rewrite (proj2 (Z.ltb_lt _ _)) by lia.
    rewrite shl1_neg by lia. apply IH; lia.
Qed.

(** [previous_power_2]: the largest boundary not above x *)
Definition prev_idx (x : Z) : Z := if (x =? 0)%Z then 0%Z else if (0 <? x)%Z then (Z.log2 x + 1)%Z else (- Z.log2_up (- x) - 1)%Z.
Lemma prev_ok k x : 130 <= k -> (- 2 ^ 127 <= x < 2 ^ 126)%Z -> previous_power_2 k x = Ok (Some (pw (prev_idx x))).
Proof.
  intros Hk Hx. unfold previous_power_2, prev_idx. destruct (Z.eqb_spec x 0) as [->|Hn]; [reflexivity|]. rewrite Z.gtb_ltb.
  destruct (Z.ltb_spec 0 x) as [Hp|Hp].
  - assert (Hlog : (Z.log2 x < 126)%Z) by (apply Z.log2_lt_pow2; lia). pose proof (Z.log2_nonneg x).
    change 1%Z with (2 ^ 0)%Z at 1; rewrite (shl_le_ok x ltac:(lia) (Z.to_nat (Z.log2 x + 1)) k 0) by lia. cbn [bind].
    rewrite pw_pos by lia. rewrite Z.shiftr_div_pow2 by lia. rewrite Z.pow_add_r by lia. rewrite Z.div_mul by lia. do 3 f_equal. lia.
  - assert (Hlog : (Z.log2_up (- x) <= 127)%Z) by (apply Z.log2_up_le_pow2; lia). pose proof (Z.log2_up_nonneg (- x)).
    change (-1)%Z with (- 2 ^ 0)%Z. rewrite (shl_gt_ok x ltac:(lia) (Z.to_nat (Z.log2_up (- x))) k 0) by lia.
    rewrite pw_neg by lia. do 4 f_equal. lia.
Qed.
Lemma prev_hangs k x : (2 ^ 126 <= x < 2 ^ 127)%Z -> previous_power_2 k x = Fuel.
Proof.
  intros Hx. unfold previous_power_2. rewrite (proj2 (Z.eqb_neq x 0)) by lia. rewrite Z.gtb_ltb, (proj2 (Z.ltb_lt 0 x)) by lia.
  rewrite (shl_le_hangs x Hx); [reflexivity|]. right. right. exists 0%Z. split; [lia|reflexivity].
Qed.
Lemma prev_le x : (pw (prev_idx x) <= x)%Z.
Proof.
  unfold prev_idx. destruct (Z.eqb_spec x 0) as [->|Hn]; [reflexivity|]. destruct (Z.ltb_spec 0 x) as [Hp|Hp].
  - pose proof (Z.log2_nonneg x). rewrite pw_pos by lia. replace (Z.log2 x + 1 - 1)%Z with (Z.log2 x) by lia. pose proof (Z.log2_spec x Hp). lia.
  - pose proof (Z.log2_up_nonneg (- x)). rewrite pw_neg by lia. replace (- (- Z.log2_up (- x) - 1) - 1)%Z with (Z.log2_up (- x)) by lia.
    assert (- x <= 2 ^ Z.log2_up (- x))%Z by (apply Z.log2_up_le_pow2; lia). lia.
Qed.
Lemma prev_idx_pw e : prev_idx (pw e) = e.
Proof.
  unfold prev_idx. destruct (Z.lt_trichotomy e 0) as [H|[->|H]]; [| reflexivity|].
  - rewrite pw_neg by exact H. assert (0 < 2 ^ (- e - 1))%Z by (apply Z.pow_pos_nonneg; lia). rewrite (proj2 (Z.eqb_neq _ 0)), (proj2 (Z.ltb_ge 0 _)) by lia.
    rewrite Z.opp_involutive, Z.log2_up_pow2 by lia. lia.
  - rewrite pw_pos by exact H. assert (0 < 2 ^ (e - 1))%Z by (apply Z.pow_pos_nonneg; lia). rewrite (proj2 (Z.eqb_neq _ 0)), (proj2 (Z.ltb_lt 0 _)) by lia.
    rewrite Z.log2_pow2 by lia. lia.
Qed.
Lemma prev_lt_next x : (x < pw (prev_idx x + 1))%Z.
Proof.
  destruct (Z.lt_ge_cases x (pw (prev_idx x + 1))) as [H|H]; [exact H|]. exfalso.
  unfold prev_idx in H. destruct (Z.eqb_spec x 0) as [Hz|Hn]; [rewrite Hz in H; cbn in H; lia|]. destruct (Z.ltb_spec 0 x) as [Hp|Hp].
  - pose proof (Z.log2_nonneg x). rewrite pw_pos in H by lia. replace (Z.log2 x + 1 + 1 - 1)%Z with (Z.succ (Z.log2 x)) in H by lia. pose proof (Z.log2_spec x Hp). lia.
  - pose proof (Z.log2_up_nonneg (- x)). destruct (Z.eq_dec (Z.log2_up (- x)) 0) as [E|E].
    + rewrite E in H. change (- 0 - 1 + 1)%Z with 0%Z in H. change (pw 0) with 0%Z in H. lia.
    + rewrite pw_neg in H by lia. replace (- (- Z.log2_up (- x) - 1 + 1) - 1)%Z with (Z.log2_up (- x) - 1)%Z in H by lia.
      assert (Hl : (Z.log2_up (- x) <= Z.log2_up (- x) - 1)%Z) by (apply Z.log2_up_le_pow2; lia). lia.
Qed.

Lemma pw_bounds e : (-128 <= e <= 126)%Z -> (- 2 ^ 127 <= pw e < 2 ^ 126)%Z.
Proof.
  intros H. split.
  - change (- 2 ^ 127)%Z with (pw (-128)). apply pw_le. lia.
  - change (2 ^ 126)%Z with (pw 127). apply pw_lt. lia.
Qed.
Lemma next_ok k e : 130 <= k -> (-128 <= e <= 126)%Z -> next_power_2 k (pw e) = Ok (Some (pw (e + 1))).
Proof.
  intros Hk He. unfold next_power_2. rewrite !prev_ok by (auto using pw_bounds). rewrite prev_idx_pw. cbn [bind].
  destruct (Z.lt_trichotomy e 0) as [H|[->|H]]; [|reflexivity|].
  - destruct (Z.eqb_spec (pw e) (-1)) as [E|E].
    + replace e with (-1)%Z; [reflexivity|]. assert (e = -1)%Z by (destruct (Z.lt_trichotomy e (-1)) as [Hl|[->|Hl]]; [apply pw_lt in Hl; change (pw (-1)) with (-1)%Z in Hl; lia|reflexivity|lia]). lia.
    + assert (Hlt : (pw e < 0)%Z) by (change 0%Z with (pw 0); apply pw_lt; lia). rewrite (proj2 (Z.eqb_neq _ 0)) by lia. rewrite Z.gtb_ltb, (proj2 (Z.ltb_ge 0 _)) by lia.
      assert (e <> -1)%Z by (intros ->; apply E; reflexivity). rewrite !pw_neg by lia. unfold checked_shr. cbn [Z.ltb Z.compare Pos.compare Pos.compare_cont].
      rewrite Z.shiftr_div_pow2 by lia. do 2 f_equal. replace (- e - 1)%Z with (- (e + 1) - 1 + 1)%Z by lia. rewrite Z.pow_add_r by lia.
      rewrite <- Z.mul_opp_l. rewrite Z.div_mul by lia. reflexivity.
  - assert (Hlt : (0 < pw e)%Z) by (change 0%Z with (pw 0); apply pw_lt; lia).
    rewrite (proj2 (Z.eqb_neq _ (-1))), (proj2 (Z.eqb_neq _ 0)) by lia. rewrite Z.gtb_ltb, (proj2 (Z.ltb_lt 0 _)) by lia.
    rewrite !pw_pos by lia. rewrite shl1_pos by lia. do 3 f_equal. lia.
Qed.

(** the bucket loop *)
Definition row (vals : list Z) (e : Z) (d : nat) : list (Z * Z * Z) :=
  map (fun i => (pw (e + Z.of_nat i), pw (e + Z.of_nat i + 1), count_in vals (pw (e + Z.of_nat i)) (pw (e + Z.of_nat i + 1)))) (seq 0 d).
Lemma row_S vals e d : row vals e (S d) = (pw e, pw (e + 1), count_in vals (pw e) (pw (e + 1))) :: row vals (e + 1) d.
Proof.
  unfold row. cbn [seq map]. replace (e + Z.of_nat 0)%Z with e by lia. f_equal. rewrite <- seq_shift, map_map. apply map_ext. intros i.
  replace (e + Z.of_nat (S i))%Z with (e + 1 + Z.of_nat i)%Z by lia. reflexivity.
Qed.
Lemma hist_buckets_ok vals max : forall d k e, (-128 <= e)%Z -> (e + Z.of_nat d <= 127)%Z -> 131 + d <= k ->
  (max <= pw (e + Z.of_nat d))%Z -> (d <> 0%nat -> pw (e + Z.of_nat d - 1) < max)%Z ->
  hist_buckets k vals max (pw e) = Ok (row vals e d).
Proof.
  induction d as [|d IH]; intros k e He Hd Hk Hmax Hlast; (destruct k as [|k]; [lia|]); cbn [hist_buckets].
  - replace (e + Z.of_nat 0)%Z with e in Hmax by lia. rewrite (proj2 (Z.ltb_ge _ _)) by lia. reflexivity.
  - assert (Hlt : (pw e < max)%Z). { specialize (Hlast ltac:(lia)). assert (pw e <= pw (e + Z.of_nat (S d) - 1))%Z by (apply pw_le; lia). lia. }
    rewrite (proj2 (Z.ltb_lt _ _)) by exact Hlt. rewrite next_ok by lia. cbn [bind ok_or]. rewrite IH; [cbn [bind]; rewrite row_S; reflexivity|lia|lia|lia| |].
    + replace (e + 1 + Z.of_nat d)%Z with (e + Z.of_nat (S d))%Z by lia. exact Hmax.
    + intros _. replace (e + 1 + Z.of_nat d - 1)%Z with (e + Z.of_nat (S d) - 1)%Z by lia. apply Hlast. lia.
Qed.
Lemma row_buckets vals : forall d e, buckets vals (pw e) (row vals e d) (pw (e + Z.of_nat d)).
Proof.
  induction d as [|d IH]; intros e; [replace (e + Z.of_nat 0)%Z with e by lia; constructor; apply pw_power|]. rewrite row_S.
  change (count_in vals (pw e) (pw (e + 1))) with (Z.of_nat (number_in vals (pw e) (pw (e + 1)))).
  constructor; [apply pw_power|apply pw_power|apply pw_succ_lt|apply pw_next|]. replace (e + Z.of_nat (S d))%Z with (e + 1 + Z.of_nat d)%Z by lia. apply IH.
Qed.
(** how many buckets: from the boundary below min to the first boundary not below max *)
Lemma row_length e max : (pw e <= max)%Z -> (max <= 2 ^ 126)%Z -> (-128 <= e)%Z ->
  exists d, (e + Z.of_nat d <= 127)%Z /\ (max <= pw (e + Z.of_nat d))%Z /\ (d <> 0%nat -> pw (e + Z.of_nat d - 1) < max)%Z.
Proof.
  intros He Hmax Hlo. pose proof (prev_le max) as P1. pose proof (prev_lt_next max) as P2.
  assert (Hge : (e <= prev_idx max)%Z) by (destruct (Z.le_gt_cases e (prev_idx max)) as [H|H]; [exact H|]; assert (pw (prev_idx max + 1) <= pw e)%Z by (apply pw_le; lia); lia).
  change (2 ^ 126)%Z with (pw 127) in Hmax.
  destruct (Z.eq_dec (pw (prev_idx max)) max) as [E|E].
  - exists (Z.to_nat (prev_idx max - e)). replace (e + Z.of_nat (Z.to_nat (prev_idx max - e)))%Z with (prev_idx max) by lia.
    split; [|split].
    + destruct (Z.le_gt_cases (prev_idx max) 127) as [H|H]; [exact H|]. apply pw_lt in H. lia.
    + lia.
    + intros _. rewrite <- E at 2. apply pw_lt. lia.
  - exists (Z.to_nat (prev_idx max + 1 - e)). replace (e + Z.of_nat (Z.to_nat (prev_idx max + 1 - e)))%Z with (prev_idx max + 1)%Z by lia.
    split; [|split].
    + assert (H : (pw (prev_idx max) < pw 127)%Z) by lia. apply pw_lt_inv in H. lia.
    + lia.
    + intros _. replace (prev_idx max + 1 - 1)%Z with (prev_idx max) by lia. lia.
Qed.

(** ** Labels *)
Lemma shiftr_pow j n : (0 <= j)%Z -> (0 <= n)%Z -> Z.shiftr (2 ^ j) n = if (j <? n)%Z then 0%Z else (2 ^ (j - n))%Z.
Proof.
  intros Hj Hn. rewrite Z.shiftr_div_pow2 by lia. destruct (Z.ltb_spec j n).
  - apply Z.div_small. split; [apply Z.pow_nonneg; lia|apply Z.pow_lt_mono_r; lia].
  - rewrite Z.pow_sub_r by lia. reflexivity.
Qed.
Lemma dec_Z_pow j : (0 <= j)%Z -> dec_Z (2 ^ j) = dec_N (Z.to_N (2 ^ j)).
Proof. intros H. unfold dec_Z. rewrite (proj2 (Z.ltb_ge _ _)) by (apply Z.pow_nonneg; lia). reflexivity. Qed.
Definition pretty_pos (b : Z) : str :=
  if negb (Z.shiftr b 40 =? 0)%Z then dec_Z (Z.shiftr b 40) ++ s_ "T"
  else if negb (Z.shiftr b 30 =? 0)%Z then dec_Z (Z.shiftr b 30) ++ s_ "G"
  else if negb (Z.shiftr b 20 =? 0)%Z then dec_Z (Z.shiftr b 20) ++ s_ "M"
  else if negb (Z.shiftr b 10 =? 0)%Z then dec_Z (Z.shiftr b 10) ++ s_ "K"
  else dec_Z b.
Lemma pretty_pos_ok j : (0 <= j)%Z -> exists n i sfx, nth_error suffixes i = Some sfx /\ pretty_pos (2 ^ j) = dec_N n ++ sfx /\ (Z.of_N n * 1024 ^ Z.of_nat i = 2 ^ j)%Z.
Proof.
  intros Hj. unfold pretty_pos. rewrite !shiftr_pow by lia.
  assert (H : forall s i sfx, (0 <= s <= j)%Z -> nth_error suffixes i = Some sfx -> (1024 ^ Z.of_nat i = 2 ^ s)%Z ->
     exists n i' sfx', nth_error suffixes i' = Some sfx' /\ dec_Z (2 ^ (j - s)) ++ sfx = dec_N n ++ sfx' /\ (Z.of_N n * 1024 ^ Z.of_nat i' = 2 ^ j)%Z).
  { intros s i sfx Hs Hn Hp. exists (Z.to_N (2 ^ (j - s))), i, sfx. split; [exact Hn|]. split; [rewrite dec_Z_pow by lia; reflexivity|].
    rewrite Hp, Z2N.id by (apply Z.pow_nonneg; lia). rewrite <- Z.pow_add_r by lia. f_equal. lia. }
  assert (P : forall s, (0 <= s <= j)%Z -> (2 ^ (j - s) =? 0)%Z = false) by (intros s Hs; apply Z.eqb_neq; assert (0 < 2 ^ (j - s))%Z by (apply Z.pow_pos_nonneg; lia); lia).
  destruct (Z.ltb_spec j 40); [|rewrite P by lia; apply (H 40%Z 4); [lia|reflexivity|reflexivity]]. cbn [negb Z.eqb].
  destruct (Z.ltb_spec j 30); [|rewrite P by lia; apply (H 30%Z 3); [lia|reflexivity|reflexivity]]. cbn [negb Z.eqb].
  destruct (Z.ltb_spec j 20); [|rewrite P by lia; apply (H 20%Z 2); [lia|reflexivity|reflexivity]]. cbn [negb Z.eqb].
  destruct (Z.ltb_spec j 10); [|rewrite P by lia; apply (H 10%Z 1); [lia|reflexivity|reflexivity]]. cbn [negb Z.eqb].
  destruct (H 0%Z 0 (s_ "")) as (n & i & sfx & G1 & G2 & G3); [lia|reflexivity|reflexivity|]. exists n, i, sfx. split; [exact G1|]. split; [|exact G3].
  rewrite <- G2. rewrite Z.sub_0_r, app_nil_r. reflexivity.
Qed.
Lemma pretty_ok k oc e : 130 <= k -> (-127 <= e <= 126)%Z -> exists t, num_bytes_to_pretty k oc (pw e) = Ok t /\ label t (pw e).
Proof.
  intros Hk He. unfold num_bytes_to_pretty. rewrite prev_ok by (auto using pw_bounds; apply pw_bounds; lia). rewrite prev_idx_pw. cbn [bind unwrap]. rewrite Z.eqb_refl. cbn [negb].
  destruct (Z.lt_trichotomy e 0) as [H|[->|H]].
  - assert (Hlt : (pw e < 0)%Z) by (change 0%Z with (pw 0); apply pw_lt; lia). rewrite (proj2 (Z.eqb_neq _ 0)), (proj2 (Z.ltb_lt _ 0)) by lia.
    rewrite pw_neg by lia. unfold i128_neg, in_i128, I128_MIN, I128_MAX. rewrite Z.opp_involutive.
    assert (2 ^ (- e - 1) <= 2 ^ 126)%Z by (apply Z.pow_le_mono_r; lia). assert (0 < 2 ^ (- e - 1))%Z by (apply Z.pow_pos_nonneg; lia).
    rewrite (proj2 (Z.leb_le (- 2 ^ 127) _)), (proj2 (Z.leb_le _ (2 ^ 127 - 1))) by (clear -H0 H1; lia). cbn [andb bind].
    destruct (pretty_pos_ok (- e - 1)) as (n & i & sfx & H2 & H3 & H4); [lia|].
    exists (45%N :: pretty_pos (2 ^ (- e - 1))). split; [reflexivity|]. rewrite H3, <- H4. apply (label_neg (dec_N n) (Z.of_N n) i sfx); [apply dec_N_numeral|apply dec_N_nonempty|exact H2].
  - eexists. split; [reflexivity|]. apply (label_pos (s_ "0") 0 0 (s_ "")); [apply (dec_N_numeral 0)|discriminate|reflexivity].
  - assert (Hlt : (0 < pw e)%Z) by (change 0%Z with (pw 0); apply pw_lt; lia). rewrite (proj2 (Z.eqb_neq _ 0)), (proj2 (Z.ltb_ge _ 0)) by lia. cbn [bind].
    rewrite pw_pos by lia. destruct (pretty_pos_ok (e - 1)) as (n & i & sfx & H2 & H3 & H4); [lia|].
    exists (pretty_pos (2 ^ (e - 1))). split; [reflexivity|]. rewrite H3, <- H4. apply (label_pos (dec_N n) (Z.of_N n) i sfx); [apply dec_N_numeral|apply dec_N_nonempty|exact H2].
Qed.
Lemma lines_ok k oc n vals : 130 <= k -> forall d e, (-127 <= e)%Z -> (e + Z.of_nat d <= 126)%Z ->
  exists t, hist_lines k oc n (row vals e d) = Ok t /\ diagram n (row vals e d) t.
Proof.
  intros Hk. induction d as [|d IH]; intros e He Hd; [exists []; split; [reflexivity|constructor]|]. rewrite row_S. cbn [hist_lines].
  unfold hist_line. destruct (pretty_ok k oc e) as (la & Ha & La); [exact Hk|lia|]. destruct (pretty_ok k oc (e + 1)) as (lb & Hb & Lb); [exact Hk|lia|].
  destruct (IH (e + 1)%Z) as (t & Ht & Dt); [lia|lia|]. rewrite Ha. cbn [bind]. rewrite Hb. cbn [bind]. rewrite Ht. cbn [bind].
  eexists. split; [reflexivity|]. rewrite <- !app_assoc. unfold repeat_char, nl. apply (diagram_cons n _ _ _ _ la lb t); assumption.
Qed.

(** ** The whole diagram *)
Lemma fold_min l : forall x, (fold_left Z.min l x <= x)%Z /\ (forall v, In v l -> fold_left Z.min l x <= v)%Z /\ In (fold_left Z.min l x) (x :: l).
Proof.
  induction l as [|a l IH]; intros x; cbn [fold_left]; [split; [lia|split; [intros v []|cbn; auto]]|].
  destruct (IH (Z.min x a)) as (H1 & H2 & H3). split; [lia|]. split; [intros v [<-|Hv]; [lia|auto]|].
  cbn [In] in *. destruct H3 as [H3|H3]; [|auto]. destruct (Z.min_spec x a) as [[_ E]|[_ E]]; rewrite E in *; auto.
Qed.
Lemma fold_max l : forall x, (x <= fold_left Z.max l x)%Z /\ (forall v, In v l -> v <= fold_left Z.max l x)%Z /\ In (fold_left Z.max l x) (x :: l).
Proof.
  induction l as [|a l IH]; intros x; cbn [fold_left]; [split; [lia|split; [intros v []|cbn; auto]]|].
  destruct (IH (Z.max x a)) as (H1 & H2 & H3). split; [lia|]. split; [intros v [<-|Hv]; [lia|auto]|].
  cbn [In] in *. destruct H3 as [H3|H3]; [|auto]. destruct (Z.max_spec x a) as [[_ E]|[_ E]]; rewrite E in *; auto.
Qed.
Lemma zmin_spec x l : In (zmin x l) (x :: l) /\ forall v, In v (x :: l) -> (zmin x l <= v)%Z.
Proof. destruct (fold_min l x) as (H1 & H2 & H3). split; [exact H3|]. intros v [<-|Hv]; auto. Qed.
Lemma zmax_spec x l : In (zmax x l) (x :: l) /\ forall v, In v (x :: l) -> (v <= zmax x l)%Z.
Proof. destruct (fold_max l x) as (H1 & H2 & H3). split; [exact H3|]. intros v [<-|Hv]; auto. Qed.
Lemma hist_vals_map vals : hist_vals (map VInt vals) = Ok vals.
Proof. induction vals as [|v vals IH]; [reflexivity|]. cbn [map hist_vals]. rewrite IH. reflexivity. Qed.
Lemma hist_vals_other vs : (exists v, In v vs /\ forall z, v <> VInt z) -> exists v, In v vs /\ (forall z, v <> VInt z) /\ hist_vals vs = Err (EHistValue (short_display v)).
Proof.
  induction vs as [|x vs IH]; intros (v & Hv & Hn); [destruct Hv|].
  destruct x; try (eexists; split; [left; reflexivity|split; [discriminate|reflexivity]]). cbn [hist_vals].
  destruct Hv as [<-|Hv]; [elim (Hn z); reflexivity|]. destruct IH as (u & H1 & H2 & H3); [eauto|]. exists u. split; [right; exact H1|]. split; [exact H2|]. rewrite H3. reflexivity.
Qed.

Lemma number_split vals a b c : (a <= b)%Z -> (b <= c)%Z -> number_in vals a c = number_in vals a b + number_in vals b c.
Proof.
  intros Hab Hbc. unfold number_in. induction vals as [|v vals IH]; [reflexivity|]. cbn [filter].
  destruct (Z.leb_spec a v), (Z.ltb_spec v b), (Z.leb_spec b v), (Z.ltb_spec v c); cbn [andb length]; lia.
Qed.
Lemma buckets_le vals a bs z : buckets vals a bs z -> (a <= z)%Z.
Proof. induction 1; lia. Qed.
Lemma buckets_total vals a bs z : buckets vals a bs z -> total bs = Z.of_nat (number_in vals a z).
Proof.
  induction 1 as [a _|a b z bs _ _ Hab _ Hb IH].
  - unfold number_in. cbn [total fold_right]. replace (filter (fun v => (a <=? v) && (v <? a))%Z vals) with (@nil Z); [reflexivity|].
    induction vals as [|v vals IH]; [reflexivity|]. cbn [filter]. destruct (Z.leb_spec a v), (Z.ltb_spec v a); cbn [andb]; try exact IH. lia.
  - cbn [total fold_right snd]. fold (total bs). rewrite IH. rewrite (number_split vals a b z); [lia|lia|]. exact (buckets_le _ _ _ _ Hb).
Qed.

Definition counted (vals : list Z) (z : Z) : nat := length (filter (fun v => negb (v =? z)%Z) vals).
Lemma number_all vals a z : (forall v, In v vals -> a <= v <= z)%Z -> number_in vals a z = counted vals z.
Proof.
  unfold number_in, counted. intros H. f_equal. apply filter_ext_in. intros v Hv. specialize (H v Hv).
  destruct (Z.leb_spec a v), (Z.ltb_spec v z), (Z.eqb_spec v z); cbn; try reflexivity; lia.
Qed.

Lemma as_hist_ok k oc vals : 400 <= k -> vals <> [] -> (forall v, In v vals -> - 2 ^ 126 <= v <= 2 ^ 125)%Z ->
  exists bs a z text, as_hist k oc (map VInt vals) = Ok text /\ buckets vals a bs z /\
    (forall v, In v vals -> a <= v <= z)%Z /\ diagram (zlen vals) bs text /\ (exists m, In m vals /\ forall b, In b bs -> fst (fst b) < m)%Z.
Proof.
  intros Hk Hne Hb. destruct vals as [|v vals]; [congruence|]. unfold as_hist. rewrite hist_vals_map. cbn [bind].
  destruct (zmin_spec v vals) as [Hmi Hmin]. destruct (zmax_spec v vals) as [Hma Hmax]. set (mi := zmin v vals) in *. set (ma := zmax v vals) in *.
  pose proof (Hb mi Hmi) as Bmi. pose proof (Hb ma Hma) as Bma. specialize (Hmin ma Hma) as Hmm.
  assert (P126 : (2 ^ 126 = 2 * 2 ^ 125)%Z) by reflexivity. assert (P127 : (2 ^ 127 = 4 * 2 ^ 125)%Z) by reflexivity. assert (P0 : (0 < 2 ^ 125)%Z) by reflexivity.
  rewrite prev_ok by lia. cbn [bind ok_or].
  set (e := prev_idx mi). assert (He : (-127 <= e)%Z).
  { destruct (Z.le_gt_cases (-127) e) as [H|H]; [exact H|]. assert (H' : (e + 1 <= -127)%Z) by lia. apply pw_le in H'. change (pw (-127)) with (- 2 ^ 126)%Z in H'. pose proof (prev_lt_next mi). fold e in H0. lia. }
  assert (Hpe : (pw e <= ma)%Z) by (pose proof (prev_le mi); fold e in H; lia).
  destruct (row_length e ma) as (d & Hd & Hdm & Hdl); [exact Hpe|lia|lia|].
  assert (Hd126 : (e + Z.of_nat d <= 126)%Z).
  { destruct (Z.le_gt_cases (e + Z.of_nat d) 126) as [H|H]; [exact H|]. destruct d as [|d].
    - replace (e + Z.of_nat 0)%Z with e in H by lia. assert (H' : (127 <= e)%Z) by lia. apply pw_le in H'. change (pw 127) with (2 ^ 126)%Z in H'. lia.
    - specialize (Hdl ltac:(lia)). assert (H' : (126 <= e + Z.of_nat (S d) - 1)%Z) by lia. apply pw_le in H'. change (pw 126) with (2 ^ 125)%Z in H'. lia. }
  rewrite (hist_buckets_ok (v :: vals) ma d k e); [|lia|lia|lia|exact Hdm|exact Hdl]. cbn [bind].
  destruct (lines_ok k oc (zlen (v :: vals)) (v :: vals) ltac:(lia) d e He Hd126) as (t & Ht & Dt).
  exists (row (v :: vals) e d), (pw e), (pw (e + Z.of_nat d)), t. split; [exact Ht|]. split; [apply row_buckets|]. split; [|split; [exact Dt|]].
  - intros x Hx. pose proof (prev_le mi). fold e in H. specialize (Hmin x Hx). specialize (Hmax x Hx). lia.
  - exists ma. split; [exact Hma|]. intros b Hbin. unfold row in Hbin. apply in_map_iff in Hbin. destruct Hbin as (i & <- & Hi). apply in_seq in Hi. cbn [fst].
    specialize (Hdl ltac:(lia)). assert (H : (e + Z.of_nat i <= e + Z.of_nat d - 1)%Z) by lia. apply pw_le in H. lia.
Qed.

(** ** Any values *)
Lemma pretty_any k oc e : 130 <= k -> (-128 <= e <= 127)%Z ->
  (exists t, num_bytes_to_pretty k oc (pw e) = Ok t) \/ (num_bytes_to_pretty k oc (pw e) = Fuel /\ e = 127%Z) \/
  (num_bytes_to_pretty k oc (pw e) = Panic PArith /\ oc = true /\ e = (-128)%Z).
Proof.
  intros Hk He. destruct (Z.eq_dec e 127) as [->|H1].
  - right. left. split; [|reflexivity]. unfold num_bytes_to_pretty. change (pw 127) with (2 ^ 126)%Z. rewrite prev_hangs by (split; [apply Z.le_refl|reflexivity]). reflexivity.
  - destruct (Z.eq_dec e (-128)) as [->|H2].
    + unfold num_bytes_to_pretty. rewrite prev_ok by (auto using pw_bounds; apply pw_bounds; lia). rewrite prev_idx_pw. cbn [bind unwrap].
      change (pw (-128)) with (- 2 ^ 127)%Z. destruct oc; [right; right; repeat split; reflexivity|left; eexists; reflexivity].
    + left. destruct (pretty_ok k oc e Hk ltac:(lia)) as (t & H & _). eauto.
Qed.
Lemma lines_any k oc n vals : 130 <= k -> forall d e, (-128 <= e)%Z -> (e + Z.of_nat d <= 127)%Z ->
  (exists t, hist_lines k oc n (row vals e d) = Ok t /\ (d = 0%nat \/ e + Z.of_nat d < 127)%Z) \/ (hist_lines k oc n (row vals e d) = Fuel /\ (e + Z.of_nat d = 127)%Z) \/
  (hist_lines k oc n (row vals e d) = Panic PArith /\ oc = true /\ e = (-128)%Z).
Proof.
  intros Hk. induction d as [|d IH]; intros e He Hd; [left; exists []; auto|]. rewrite row_S. cbn [hist_lines]. unfold hist_line.
  destruct (pretty_any k oc e Hk ltac:(lia)) as [(la & Ha)|[(Ha & Hx)|(Ha & Ho & Hx)]]; rewrite Ha; cbn [bind]; [|lia|auto].
  destruct (pretty_any k oc (e + 1) Hk ltac:(lia)) as [(lb & Hb)|[(Hb & Hx)|(Hb & Ho & Hx)]]; rewrite Hb; cbn [bind]; [|right; left; split; [reflexivity|lia]|lia].
  destruct (IH (e + 1)%Z ltac:(lia) ltac:(lia)) as [(t & Ht & Hr)|[(Ht & Hx)|(Ht & Ho & Hx)]]; rewrite Ht; cbn [bind]; [|right; left; split; [reflexivity|lia]|lia].
  left. eexists. split; [reflexivity|]. right. destruct Hr as [Hr|Hr]; [|lia]. assert (d = 0) by lia. subst d.
  destruct (Z.eq_dec e 126) as [->|]; [|lia]. destruct (pretty_any k oc (126 + 1) Hk ltac:(lia)) as [(t' & Hp)|[(Hp & _)|(Hp & _)]]; [|congruence|congruence].
  unfold num_bytes_to_pretty in Hp. change (pw (126 + 1)) with (2 ^ 126)%Z in Hp. rewrite prev_hangs in Hp by (split; [apply Z.le_refl|reflexivity]). discriminate.
Qed.
Lemma hist_buckets_hang vals max : (2 ^ 126 < max)%Z -> forall d k e, (-128 <= e)%Z -> (e + Z.of_nat d = 127)%Z -> 131 + d <= k -> hist_buckets k vals max (pw e) = Fuel.
Proof.
  intros Hmax. induction d as [|d IH]; intros k e He Hd Hk; (destruct k as [|k]; [lia|]); cbn [hist_buckets];
  (assert (Hlt : (pw e < max)%Z) by (assert (H : (e <= 127)%Z) by lia; apply pw_le in H; change (pw 127) with (2 ^ 126)%Z in H; lia));
  rewrite (proj2 (Z.ltb_lt _ _)) by exact Hlt.
  - replace e with 127%Z by lia. change (pw 127) with (2 ^ 126)%Z. unfold next_power_2. rewrite (proj2 (Z.eqb_neq _ (-1))), (proj2 (Z.eqb_neq _ 0)) by (cbn; lia).
    change (2 ^ 126 >? 0)%Z with true. cbv iota. rewrite prev_hangs by (split; [apply Z.le_refl|reflexivity]). reflexivity.
  - rewrite next_ok by lia. cbn [bind ok_or]. rewrite IH by lia. reflexivity.
Qed.

(** everything [as_hist] can do on 128-bit integers *)
Lemma as_hist_big k oc vals : 400 <= k -> vals <> [] -> (forall v, In v vals -> - 2 ^ 127 <= v < 2 ^ 127)%Z ->
  ((exists t, as_hist k oc (map VInt vals) = Ok t) /\ (forall v, In v vals -> v <= 2 ^ 125)%Z) \/
  (as_hist k oc (map VInt vals) = Fuel /\ exists v, In v vals /\ (2 ^ 125 < v)%Z) \/
  (as_hist k oc (map VInt vals) = Panic PArith /\ oc = true /\ exists v, In v vals /\ (v < - 2 ^ 126)%Z).
Proof.
  intros Hk Hne Hb. destruct vals as [|v vals]; [congruence|]. unfold as_hist. rewrite hist_vals_map. cbn [bind].
  destruct (zmin_spec v vals) as [Hmi Hmin]. destruct (zmax_spec v vals) as [Hma Hmax]. set (mi := zmin v vals) in *. set (ma := zmax v vals) in *.
  pose proof (Hb mi Hmi) as Bmi. pose proof (Hb ma Hma) as Bma. specialize (Hmin ma Hma) as Hmm.
  assert (P126 : (2 ^ 126 = 2 * 2 ^ 125)%Z) by reflexivity. assert (P127 : (2 ^ 127 = 4 * 2 ^ 125)%Z) by reflexivity. assert (P0 : (0 < 2 ^ 125)%Z) by reflexivity.
  destruct (Z.le_gt_cases (2 ^ 126) mi) as [Hc|Hc].
  { right. left. rewrite prev_hangs by lia. split; [reflexivity|]. exists mi. split; [exact Hmi|lia]. }
  rewrite prev_ok by lia. cbn [bind ok_or].
  set (e := prev_idx mi). assert (He : (-128 <= e)%Z).
  { destruct (Z.le_gt_cases (-128) e) as [H|H]; [exact H|]. assert (H' : (e + 1 <= -128)%Z) by lia. apply pw_le in H'. change (pw (-128)) with (- 2 ^ 127)%Z in H'. pose proof (prev_lt_next mi). fold e in H0. lia. }
  pose proof (prev_le mi) as Hple. fold e in Hple. assert (Hpe : (pw e <= ma)%Z) by lia.
  assert (He127 : (e <= 126)%Z). { destruct (Z.le_gt_cases e 126) as [H|H]; [exact H|]. assert (H' : (127 <= e)%Z) by lia. apply pw_le in H'. change (pw 127) with (2 ^ 126)%Z in H'. lia. }
  destruct (Z.le_gt_cases ma (2 ^ 126)) as [Hm|Hm].
  - destruct (row_length e ma) as (d & Hd & Hdm & Hdl); [exact Hpe|exact Hm|lia|].
    rewrite (hist_buckets_ok (v :: vals) ma d k e); [|lia|lia|lia|exact Hdm|exact Hdl]. cbn [bind].
    destruct (lines_any k oc (zlen (v :: vals)) (v :: vals) ltac:(lia) d e He ltac:(lia)) as [(t & Ht & Hr)|[(Ht & Hx)|(Ht & Ho & Hx)]].
    + left. split; [eauto|]. intros x Hx. specialize (Hmax x Hx). assert (Hle : (e + Z.of_nat d <= 126)%Z) by lia. apply pw_le in Hle. change (pw 126) with (2 ^ 125)%Z in Hle. lia.
    + right. left. split; [exact Ht|]. exists ma. split; [exact Hma|]. assert (d <> 0) by lia. specialize (Hdl H). replace (e + Z.of_nat d - 1)%Z with 126%Z in Hdl by lia. exact Hdl.
    + right. right. split; [exact Ht|]. split; [exact Ho|]. exists mi. split; [exact Hmi|]. pose proof (prev_lt_next mi) as Hn. fold e in Hn. rewrite Hx in Hn. exact Hn.
  - right. left. rewrite (hist_buckets_hang (v :: vals) ma Hm (Z.to_nat (127 - e))) by lia. split; [reflexivity|]. exists ma. split; [exact Hma|lia].
Qed.

(** a label has one reading *)
Lemma digits_suffix ds : forall ds' i i' sfx sfx', Forall decimal ds -> Forall decimal ds' -> nth_error suffixes i = Some sfx -> nth_error suffixes i' = Some sfx' ->
  ds ++ sfx = ds' ++ sfx' -> ds = ds' /\ i = i'.
Proof.
  assert (S : forall i sfx, nth_error suffixes i = Some sfx -> forall c t, sfx = c :: t -> ~ decimal c).
  { intros i sfx H c t ->. unfold decimal. do 5 (destruct i as [|i]; [cbn in H; inversion H; lia|]). destruct i; discriminate. }
  assert (I : forall i i' sfx, nth_error suffixes i = Some sfx -> nth_error suffixes i' = Some sfx -> i = i').
  { intros i i' sfx H H'. do 5 (destruct i as [|i]; [do 5 (destruct i' as [|i']; [first [reflexivity|cbn in *; congruence]|]); cbn in H'; destruct i'; discriminate|]). destruct i; discriminate. }
  induction ds as [|d ds IH]; intros ds' i i' sfx sfx' H H' Hi Hi' E.
  - destruct ds' as [|d' ds']; [cbn in E; subst; eauto|]. cbn in E. inversion_clear H'. elim (S _ _ Hi _ _ E). assumption.
  - inversion_clear H. destruct ds' as [|d' ds']; [cbn in E; symmetry in E; elim (S _ _ Hi' _ _ E); assumption|]. injection E as -> E. inversion_clear H'.
    destruct (IH ds' i i' sfx sfx') as [-> ->]; auto.
Qed.
Lemma label_fun t z z' : label t z -> label t z' -> z = z'.
Proof.
  intros H H'. destruct H as [ds n i sfx Hn Hne Hi|ds n i sfx Hn Hne Hi]; inversion H' as [ds' n' i' sfx' Hn' Hne' Hi' E|ds' n' i' sfx' Hn' Hne' Hi' E]; subst z'.
  - destruct (digits_suffix ds' ds i' i sfx' sfx) as [-> ->]; eauto using numeral_digits. rewrite (numeral_fun _ _ _ Hn Hn'). reflexivity.
  - destruct ds as [|d ds]; [congruence|]. apply numeral_digits in Hn. inversion_clear Hn. change (s_ "-") with [45%N] in E; cbn [app] in E; injection E as E _. subst. unfold decimal in *. lia.
  - destruct ds' as [|d ds']; [congruence|]. apply numeral_digits in Hn'. inversion_clear Hn'. change (s_ "-") with [45%N] in E; cbn [app] in E; injection E as E _. subst. unfold decimal in *. lia.
  - 
    destruct (digits_suffix ds' ds i' i sfx' sfx) as [-> ->]; eauto using numeral_digits. rewrite (numeral_fun _ _ _ Hn Hn'). reflexivity.
Qed.

(** ** Printing *)
Lemma runs_print E inter s e w vec s' r : evals E s e w (Ok (VArr vec true)) ->
  (runs E inter s (SPrint e) s' r <->
   (exists k text, as_hist k (overflow_checks E) vec = Ok text /\ do_write E (with_w s w) (text ++ nl) = (s', r)) \/
   (exists k err, as_hist k (overflow_checks E) vec = Err err /\ s' = with_w s w /\ r = IErr err) \/
   (exists k p, as_hist k (overflow_checks E) vec = Panic p /\ s' = with_w s w /\ r = IPanic p)).
Proof.
  intros (_ & k0 & He). unfold runs. split.
  - intros (Hr & n & Hn). destruct n as [|n]; [cbn in Hn; congruence|]. cbn [eval_stmt] in Hn. unfold with_expr in Hn.
    destruct (eval_expr n E (e_vars s) (e_fs s) e (e_w s)) as [w1 r1] eqn:H1.
    assert (Hf : r1 <> Fuel) by (intros ->; cbn in Hn; congruence).
    pose proof (expr_up _ _ _ _ _ _ (Nat.max k0 n) _ _ H1 Hf ltac:(lia)) as H1'.
    pose proof (expr_up _ _ _ _ _ _ (Nat.max k0 n) _ _ He ltac:(discriminate) ltac:(lia)) as H0'. rewrite H0' in H1'. injection H1' as <- <-.
    cbn [print_text] in Hn. destruct (as_hist n (overflow_checks E) vec) as [t|err|p|] eqn:Ha; cbn [ires_of] in Hn.
    + left. eauto.
    + right. left. injection Hn as <- <-. eauto.
    + right. right. injection Hn as <- <-. eauto.
    + congruence.
  - assert (G : forall k t, as_hist k (overflow_checks E) vec = t -> t <> Fuel -> exists n, eval_expr n E (e_vars s) (e_fs s) e (e_w s) = (w, Ok (VArr vec true)) /\ as_hist n (overflow_checks E) vec = t).
    { intros k t Ht Hf. exists (Nat.max k0 k). split.
      - exact (expr_up _ _ _ _ _ _ (Nat.max k0 k) _ _ He ltac:(discriminate) ltac:(lia)).
      - rewrite (as_hist_mono k (Nat.max k0 k)); [exact Ht|lia|congruence]. }
    intros [(k & t & Ht & Hw)|[(k & err & Ht & -> & ->)|(k & p & Ht & -> & ->)]]; destruct (G k _ Ht ltac:(discriminate)) as (n & Hn1 & Hn2);
    (split; [try discriminate|exists (S n); cbn [eval_stmt]; unfold with_expr; rewrite Hn1; cbn [print_text]; rewrite Hn2; cbn [ires_of]; try reflexivity]).
    + intros ->. unfold do_write in Hw. destruct (sink _ _ _); discriminate.
    + exact Hw.
Qed.
Lemma as_hist_at k oc vs t : as_hist k oc vs = t -> t <> Fuel -> forall k', 400 <= k' -> as_hist (Nat.max k k') oc vs = t.
Proof. intros H Hf k' _. rewrite (as_hist_mono k (Nat.max k k')); [exact H|lia|congruence]. Qed.

Lemma last_bound vals a bs z m : buckets vals a bs z -> (a <= m <= z)%Z -> power_of_two m -> (forall b, In b bs -> fst (fst b) < m)%Z -> z = m.
Proof.
  intros Hb. induction Hb as [a Pz|a b z bs Pa Pb Hab Hnext Hb IH]; intros Hm Pm Hs; [lia|].
  specialize (Hs (a, b, Z.of_nat (number_in vals a b)) (or_introl eq_refl)) as H. cbn in H. apply IH; [split; [auto|lia]|exact Pm|]. intros x Hx. apply Hs. right. exact Hx.
Qed.
Lemma in_one_bucket vals a bs z v : buckets vals a bs z -> (a <= v < z)%Z ->
  exists b, In b bs /\ (fst (fst b) <= v < snd (fst b))%Z /\ forall b', In b' bs -> (fst (fst b') <= v < snd (fst b'))%Z -> b' = b.
Proof.
  assert (Hlow : forall a bs z, buckets vals a bs z -> forall b, In b bs -> (a <= fst (fst b))%Z).
  { clear. intros a bs z Hb. induction Hb as [a Pz|a b z bs _ _ Hab _ Hb IH]; intros x Hx; [destruct Hx|]. destruct Hx as [<-|Hx]; [cbn; lia|]. specialize (IH x Hx). lia. }
  intros Hb. induction Hb as [a Pz|a b z bs _ _ Hab _ Hb IH]; intros Hv; [lia|].
  destruct (Z.lt_ge_cases v b) as [H|H].
  - eexists. split; [left; reflexivity|]. split; [cbn; lia|]. intros b' [<-|Hb'] Hv'; [reflexivity|]. pose proof (Hlow _ _ _ Hb b' Hb'). lia.
  - destruct IH as (x & Hx & Hvx & Hu); [lia|]. exists x. split; [right; exact Hx|]. split; [exact Hvx|]. intros b' [<-|Hb'] Hv'; [cbn in Hv'; lia|]. apply Hu; assumption.
Qed.
Lemma buckets_end vals a bs z : buckets vals a bs z -> power_of_two z.
Proof. induction 1; assumption. Qed.
