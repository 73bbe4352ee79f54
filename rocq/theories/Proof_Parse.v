(** The parser terminates and is sound for the grammar (C46, C47). *)
From Verif Require Import Base Ast Pom Parse Lib Spec_Grammar.
From Verif Require Export Proof_Pom.
Require Import Lia.

(** [sat N k R p]: on inputs shorter than N, p does not run out of budget, and what it
    accepts is a prefix of at least k characters that satisfies R *)
Definition sat {A} (N k : nat) (R : str -> A -> Prop) (p : parser A) : Prop :=
  forall i, length i < N ->
  match p i with
  | POk a r => exists pre, i = pre ++ r /\ k <= length pre /\ R pre a
  | PFail => True
  | PFuel => False
  end.

Lemma sat_mono {A} N N' k k' (R R' : str -> A -> Prop) p :
  sat N k R p -> N' <= N -> k' <= k -> (forall s a, R s a -> R' s a) -> sat N' k' R' p.
Proof.
  intros H Hn Hk HR i Hi. specialize (H i ltac:(lia)). destruct (p i) as [a r| |]; auto.
  destruct H as (pre & -> & H1 & H2). exists pre. repeat split; auto; lia.
Qed.

Lemma sat_weaken {A} N k k' (R R' : str -> A -> Prop) p :
  sat N k R p -> k' <= k -> (forall s a, R s a -> R' s a) -> sat N k' R' p.
Proof. intros H Hk HR. eapply sat_mono; [exact H|apply le_n|exact Hk|exact HR]. Qed.

Lemma sat_map {A B} N k R (f : A -> B) p : sat N k R p -> sat N k (fun s b => exists a, b = f a /\ R s a) (pmap f p).
Proof.
  intros H i Hi. specialize (H i Hi). unfold pmap. destruct (p i) as [a r| |]; auto.
  destruct H as (pre & -> & H1 & H2). exists pre. eauto 6.
Qed.

Lemma sat_convert {A B} N k R (f : A -> option B) p : sat N k R p ->
  sat N k (fun s b => exists a, f a = Some b /\ R s a) (pconvert p f).
Proof.
  intros H i Hi. specialize (H i Hi). unfold pconvert. destruct (p i) as [a r| |]; auto.
  destruct (f a) eqn:Hf; auto. destruct H as (pre & -> & H1 & H2). exists pre. eauto 6.
Qed.

Lemma sat_seq {A B} N k1 k2 R1 R2 (p : parser A) (q : parser B) :
  sat N k1 R1 p -> sat (N - k1) k2 R2 q ->
  sat N (k1 + k2) (fun s ab => exists s1 s2, s = s1 ++ s2 /\ R1 s1 (fst ab) /\ R2 s2 (snd ab)) (pseq p q).
Proof.
  intros H1 H2 i Hi. specialize (H1 i Hi). unfold pseq. destruct (p i) as [a r| |]; auto.
  destruct H1 as (pre & -> & Hk & HR). rewrite app_length in Hi. specialize (H2 r ltac:(lia)).
  destruct (q r) as [b r'| |]; auto. destruct H2 as (pre2 & -> & Hk2 & HR2).
  exists (pre ++ pre2). rewrite app_assoc, app_length. repeat split; [lia|]. cbn. eauto 8.
Qed.

Lemma sat_right {A B} N k1 k2 R1 R2 (p : parser A) (q : parser B) :
  sat N k1 R1 p -> sat (N - k1) k2 R2 q ->
  sat N (k1 + k2) (fun s b => exists s1 s2 a, s = s1 ++ s2 /\ R1 s1 a /\ R2 s2 b) (pright p q).
Proof.
  intros H1 H2. eapply sat_mono; [apply sat_map; eapply sat_seq; eassumption|lia|lia|].
  cbn. intros s a ([a' b'] & -> & s1 & s2 & H); cbn in *. destruct H as (? & ? & ?). eauto 8.
Qed.
Lemma sat_left {A B} N k1 k2 R1 R2 (p : parser A) (q : parser B) :
  sat N k1 R1 p -> sat (N - k1) k2 R2 q ->
  sat N (k1 + k2) (fun s a => exists s1 s2 b, s = s1 ++ s2 /\ R1 s1 a /\ R2 s2 b) (pleft p q).
Proof.
  intros H1 H2. eapply sat_mono; [apply sat_map; eapply sat_seq; eassumption|lia|lia|].
  cbn. intros s a ([a' b'] & -> & s1 & s2 & H); cbn in *. destruct H as (? & ? & ?). eauto 8.
Qed.

Lemma sat_alt {A} N k1 k2 R1 R2 (p q : parser A) :
  sat N k1 R1 p -> sat N k2 R2 q -> sat N (Nat.min k1 k2) (fun s a => R1 s a \/ R2 s a) (palt p q).
Proof.
  intros H1 H2 i Hi. specialize (H1 i Hi). specialize (H2 i Hi). unfold palt. destruct (p i) as [a r| |]; auto.
  - destruct H1 as (pre & -> & Hk & HR). exists pre. repeat split; auto; lia.
  - destruct (q i) as [a r| |]; auto. destruct H2 as (pre & -> & Hk & HR). exists pre. repeat split; auto; lia.
Qed.

Lemma sat_opt {A} N k R (p : parser A) : sat N k R p ->
  sat N 0 (fun s o => match o with Some a => R s a | None => s = [] end) (popt p).
Proof.
  intros H i Hi. specialize (H i Hi). unfold popt. destruct (p i) as [a r| |]; auto.
  - destruct H as (pre & -> & Hk & HR). exists pre. repeat split; auto; lia.
  - exists []. auto.
Qed.

Lemma sat_rep_n {A} N k R (p : parser A) : sat N (S k) R p -> forall n i, length i < N -> length i < n ->
  match prep_n n p i with
  | POk l r => exists pre, i = pre ++ r /\ many R pre l /\ (l <> [] -> S k <= length pre)
  | PFail => True
  | PFuel => False
  end.
Proof.
  intros H. induction n as [|n IH]; intros i Hi Hn; [lia|]. cbn [prep_n].
  pose proof (H i Hi) as H1. destruct (p i) as [a r| |]; auto.
  - destruct H1 as (pre & -> & Hk & HR). rewrite app_length in Hi, Hn. specialize (IH r ltac:(lia) ltac:(lia)).
    destruct (prep_n n p r) as [l r'| |]; auto. destruct IH as (pre2 & -> & HM & _).
    exists (pre ++ pre2). rewrite app_assoc, app_length. split; [reflexivity|]. split; [constructor; auto|lia].
  - exists []. split; [reflexivity|]. split; [constructor|congruence].
Qed.
Lemma sat_rep {A} N k R (p : parser A) : sat N (S k) R p -> sat N 0 (many R) (prep p).
Proof.
  intros H i Hi. pose proof (sat_rep_n N k R p H (S (length i)) i Hi ltac:(lia)) as H1. unfold prep.
  destruct (prep_n (S (length i)) p i); auto. destruct H1 as (pre & -> & HM & _). exists pre. auto with arith.
Qed.
Lemma sat_rep' {A} N k R (p : parser A) : sat N k R p -> 1 <= k -> sat N 0 (many R) (prep p).
Proof. intros H Hk. apply (sat_rep N 0). eapply sat_weaken; [exact H|exact Hk|auto]. Qed.
Lemma sat_rep1 {A} N k R (p : parser A) : sat N (S k) R p -> sat N (S k) (fun s l => many R s l /\ l <> []) (prep1 p).
Proof.
  intros H i Hi. pose proof (sat_rep_n N k R p H (S (length i)) i Hi ltac:(lia)) as H1. unfold prep1, pconvert, prep.
  destruct (prep_n (S (length i)) p i) as [l r| |]; auto. destruct H1 as (pre & -> & HM & Hl).
  destruct l as [|a l]; auto. exists pre. repeat split; auto; try congruence. apply Hl; congruence.
Qed.

Lemma sat_times {A} N k R (p : parser A) n : sat N k R p ->
  sat N (n * k) (fun s l => many R s l /\ length l = n) (ptimes n p).
Proof.
  intros H. induction n as [|n IH].
  - intros i Hi. cbn. exists []. repeat split; auto. constructor.
  - cbn [ptimes]. eapply sat_mono.
    + apply sat_map. eapply sat_seq; [exact H|]. eapply sat_mono; [exact IH|lia|apply le_n|intros s a HH; exact HH].
    + lia.
    + cbn. lia.
    + cbn. intros s l ([a l'] & -> & s1 & s2 & -> & HR & HM & <-). cbn. split; [constructor; auto|reflexivity].
Qed.

Lemma sat_collect {A} N k R (p : parser A) : sat N k R p ->
  sat N k (fun s b => b = s /\ exists a, R s a) (pcollect p).
Proof.
  intros H i Hi. specialize (H i Hi). unfold pcollect. destruct (p i) as [a r| |]; auto.
  destruct H as (pre & -> & Hk & HR). exists pre. repeat split; eauto.
  rewrite app_length. replace (length pre + length r - length r) with (length pre) by lia.
  rewrite firstn_app, Nat.sub_diag, firstn_all, app_nil_r. reflexivity.
Qed.

Lemma sat_is_a N f : sat N 1 (fun s c => s = [c] /\ f c = true) (is_a f).
Proof.
  intros [|c i] Hi; cbn; auto. destruct (f c) eqn:Hf; auto. exists [c]. auto.
Qed.
Lemma sat_sym N c : sat N 1 (fun s a => s = [c] /\ a = c) (sym c).
Proof.
  eapply sat_mono; [apply sat_is_a|apply le_n|apply le_n|]. cbn. intros s a [-> H]. apply N.eqb_eq in H. subst. auto.
Qed.
Lemma sat_tag N t : sat N (length t) (fun s a => s = t /\ a = t) (tag t).
Proof.
  intros i Hi. unfold tag. destruct (strip_prefix t i) as [r|] eqn:H; auto.
  apply strip_prefix_app in H. exists t. auto.
Qed.

Lemma many_app {A} (R : str -> A -> Prop) s1 l1 s2 l2 : many R s1 l1 -> many R s2 l2 -> many R (s1 ++ s2) (l1 ++ l2).
Proof. induction 1; cbn; intros; auto. rewrite <- app_assoc. constructor; auto. Qed.
Lemma many_impl {A} (R R' : str -> A -> Prop) s l : (forall s a, R s a -> R' s a) -> many R s l -> many R' s l.
Proof. intros H. induction 1; constructor; auto. Qed.

Lemma many_single {A} (f : A -> str) (P : A -> Prop) s l :
  many (fun s a => s = f a /\ P a) s l -> s = flat_map f l /\ Forall P l.
Proof. induction 1 as [|s1 a s2 l [-> H] _ [-> IH]]; cbn; auto. Qed.
Lemma flat_map_single {A} (l : list A) : flat_map (fun a => [a]) l = l.
Proof. induction l; cbn; congruence. Qed.


(** ** Tokens *)
Lemma sat_space N : sat N 0 (fun s _ => ws s) space.
Proof.
  eapply sat_mono; [apply sat_map; eapply sat_rep; apply sat_is_a|apply le_n|apply le_n|].
  cbv beta. intros s [] (l & _ & H). apply (many_single (fun c => [c])) in H. destruct H as [-> H].
  rewrite flat_map_single. eapply Forall_impl; [|exact H]. intros c Hc. cbv beta in Hc. apply mem_char_in in Hc. cbn in Hc.
  intuition auto.
Qed.


Lemma sat_ident_name N : sat N 1 (fun s x => x = s /\ identifier s) ident_name.
Proof.
  eapply sat_mono.
  - apply sat_collect. eapply sat_seq; [apply sat_is_a|]. eapply sat_rep. apply sat_is_a.
  - apply le_n.
  - cbn. lia.
  - cbv beta. intros s x (-> & [c l] & s1 & s2 & -> & (-> & Hc) & H). cbn in *. split; [reflexivity|].
    apply (many_single (fun c => [c])) in H. destruct H as [-> H]. rewrite flat_map_single.
    constructor; [apply ident_start_letter; exact Hc|]. eapply Forall_impl; [|exact H]. intros. apply ident_char_spec; assumption.
Qed.
Lemma sat_ident N : sat N 1 (fun s e => e = EIdent s /\ identifier s) ident.
Proof.
  eapply sat_mono; [apply sat_map, sat_ident_name|apply le_n|apply le_n|]. cbn. intros s e (x & -> & -> & H). auto.
Qed.

(** numbers *)
Lemma numeral_dec_val ds : Forall decimal ds -> numeral ds (dec_val ds).
Proof.
  induction ds as [|c ds IH] using rev_ind; intros H; [constructor|].
  apply Forall_app in H. destruct H as [H1 H2]. inversion H2; subst. unfold dec_val. rewrite fold_left_app. cbn [fold_left].
  fold (dec_val ds). unfold digit_val. rewrite (Z.mul_comm (dec_val ds)). constructor; auto.
Qed.
Lemma numeral_nonneg s z : numeral s z -> (0 <= z)%Z.
Proof. induction 1; [lia|]. unfold decimal in *. lia. Qed.
Lemma digits_decimal c : In c digits -> decimal c.
Proof. cbn. unfold decimal. intuition lia. Qed.
Lemma digits19_decimal c : In c digits19 -> decimal c /\ c <> 48%N.
Proof. cbn. unfold decimal. intuition lia. Qed.

Lemma sat_integer N : sat N 1 (fun s _ => Forall decimal s /\ s <> [] /\ forall t, s = 48%N :: t -> t = []) integer.
Proof.
  eapply sat_mono.
  - apply sat_alt; [eapply sat_left; [apply sat_is_a|eapply sat_rep; apply sat_is_a]|apply sat_sym].
  - apply le_n.
  - cbn. lia.
  - cbv beta. intros s a [(s1 & s2 & l & -> & (-> & H1) & H2)|(-> & _)].
    + apply mem_char_in, digits19_decimal in H1. apply (many_single (fun c => [c])) in H2. destruct H2 as [-> H2].
      rewrite flat_map_single. repeat split; cbn; try congruence.
      * constructor; [tauto|]. eapply Forall_impl; [|exact H2]. intros c Hc. apply mem_char_in in Hc. apply digits_decimal; exact Hc.
      * intros t Ht. inversion Ht; subst. tauto.
    + repeat split; [|congruence|congruence]. constructor; [change (c_ "0") with 48%N; unfold decimal; lia|constructor].
Qed.

Lemma in_i128_iff z : in_i128 z = true <-> (I128_MIN <= z <= I128_MAX)%Z.
Proof. unfold in_i128. rewrite andb_true_iff, !Z.leb_le. tauto. Qed.

(** with an input condition *)
Definition satp {A} (P : str -> Prop) (N k : nat) (R : str -> A -> Prop) (p : parser A) : Prop :=
  forall i, length i < N -> P i ->
  match p i with
  | POk a r => exists pre, i = pre ++ r /\ k <= length pre /\ R pre a
  | PFail => True
  | PFuel => False
  end.
Lemma satp_of {A} P N k R (p : parser A) : sat N k R p -> satp P N k R p.
Proof. intros H i Hi _. apply H. exact Hi. Qed.
Lemma satp_mono {A} P N N' k k' (R R' : str -> A -> Prop) p :
  satp P N k R p -> N' <= N -> k' <= k -> (forall s a, R s a -> R' s a) -> satp P N' k' R' p.
Proof.
  intros H Hn Hk HR i Hi HP. specialize (H i ltac:(lia) HP). destruct (p i) as [a r| |]; auto.
  destruct H as (pre & -> & H1 & H2). exists pre. repeat split; auto; lia.
Qed.
Lemma satp_weaken {A} P N k k' (R R' : str -> A -> Prop) p :
  satp P N k R p -> k' <= k -> (forall s a, R s a -> R' s a) -> satp P N k' R' p.
Proof. intros H Hk HR. eapply satp_mono; [exact H|apply le_n|exact Hk|exact HR]. Qed.
Lemma satp_map {A B} P N k R (f : A -> B) p : satp P N k R p -> satp P N k (fun s b => exists a, b = f a /\ R s a) (pmap f p).
Proof.
  intros H i Hi HP. specialize (H i Hi HP). unfold pmap. destruct (p i) as [a r| |]; auto.
  destruct H as (pre & -> & H1 & H2). exists pre. eauto 6.
Qed.
Lemma satp_seq {A B} P N k1 k2 R1 R2 (p : parser A) (q : parser B) :
  satp P N k1 R1 p -> sat (N - k1) k2 R2 q ->
  satp P N (k1 + k2) (fun s ab => exists s1 s2, s = s1 ++ s2 /\ R1 s1 (fst ab) /\ R2 s2 (snd ab)) (pseq p q).
Proof.
  intros H1 H2 i Hi HP. specialize (H1 i Hi HP). unfold pseq. destruct (p i) as [a r| |]; auto.
  destruct H1 as (pre & -> & Hk & HR). rewrite app_length in Hi. specialize (H2 r ltac:(lia)).
  destruct (q r) as [b r'| |]; auto. destruct H2 as (pre2 & -> & Hk2 & HR2).
  exists (pre ++ pre2). rewrite app_assoc, app_length. repeat split; [lia|]. cbn. eauto 8.
Qed.
Lemma satp_left {A B} P N k1 k2 R1 R2 (p : parser A) (q : parser B) :
  satp P N k1 R1 p -> sat (N - k1) k2 R2 q ->
  satp P N (k1 + k2) (fun s a => exists s1 s2 b, s = s1 ++ s2 /\ R1 s1 a /\ R2 s2 b) (pleft p q).
Proof.
  intros H1 H2. eapply satp_mono; [apply satp_map; eapply satp_seq; eassumption|lia|lia|].
  cbn. intros s a ([a' b'] & -> & s1 & s2 & H); cbn in *. destruct H as (? & ? & ?). eauto 8.
Qed.
Lemma satp_alt {A} P N k1 k2 R1 R2 (p q : parser A) :
  satp P N k1 R1 p -> satp P N k2 R2 q -> satp P N (Nat.min k1 k2) (fun s a => R1 s a \/ R2 s a) (palt p q).
Proof.
  intros H1 H2 i Hi HP. specialize (H1 i Hi HP). specialize (H2 i Hi HP). unfold palt. destruct (p i) as [a r| |]; auto.
  - destruct H1 as (pre & -> & Hk & HR). exists pre. repeat split; auto; lia.
  - destruct (q i) as [a r| |]; auto. destruct H2 as (pre & -> & Hk & HR). exists pre. repeat split; auto; lia.
Qed.
(** after spaces, the input does not start with a space *)
Lemma sat_space_seq {A B} N k1 k2 R1 R2 (p : parser A) (q : parser B) :
  sat N k1 R1 p -> satp nows (N - k1) k2 R2 q ->
  sat N (k1 + k2) (fun s ab => exists s1 w s2, s = s1 ++ w ++ s2 /\ ws w /\ R1 s1 (fst ab) /\ R2 s2 (snd ab))
    (pseq (pleft p space) q).
Proof.
  intros H1 H2 i Hi. specialize (H1 i Hi). unfold pseq at 1, pleft, pmap, pseq. destruct (p i) as [a r| |]; auto.
  destruct H1 as (pre & -> & Hk & HR). rewrite app_length in Hi.
  destruct (space_inv r) as (w & r1 & -> & Hw & Hr & ->). cbn [fst snd]. rewrite app_length in Hi.
  specialize (H2 r1 ltac:(lia) Hr). destruct (q r1) as [b r'| |]; auto. destruct H2 as (pre2 & -> & Hk2 & HR2).
  exists (pre ++ w ++ pre2). rewrite <- !app_assoc, !app_length. repeat split; [lia|]. cbn. eauto 8.
Qed.
Lemma sat_space_right {A} N k R (q : parser A) : satp nows N k R q ->
  sat N k (fun s a => exists w s', s = w ++ s' /\ ws w /\ R s' a) (pright space q).
Proof.
  intros H i Hi. unfold pright, pmap, pseq. destruct (space_inv i) as (w & r & -> & Hw & Hr & ->). rewrite app_length in Hi.
  specialize (H r ltac:(lia) Hr). destruct (q r) as [a r'| |]; auto. destruct H as (pre & -> & Hk & HR).
  exists (w ++ pre). rewrite <- app_assoc, app_length. cbn. split; [reflexivity|]. split; [lia|]. eauto 8.
Qed.

Lemma sat_number N : sat N 1 (fun s z => number_text s z \/ exists t, s = 45%N :: t) number.
Proof.
  eapply sat_mono.
  - apply sat_convert, sat_collect. eapply sat_seq; [eapply sat_opt, sat_sym|apply sat_integer].
  - apply le_n.
  - cbn. lia.
  - cbv beta. intros s z (x & Hz & -> & [o c] & s1 & s2 & -> & H1 & H2 & H3 & H4). cbn in *.
    destruct o as [o|].
    + destruct H1 as [-> ->]. right. cbn. eauto.
    + left. subst s1. cbn in *. unfold i128_from_str in Hz.
      assert (Hd : match s2 with 45%N :: ds => (- dec_val ds)%Z | ds => dec_val ds end = dec_val s2).
      { destruct s2 as [|d s2]; [reflexivity|]. inversion H2; subst. unfold decimal in *.
        assert (d <> 45%N) by lia. destruct d as [|p]; [reflexivity|].
        do 6 (destruct p as [p|p|]; try reflexivity); congruence. }
      assert (Hz' : (if in_i128 (dec_val s2) then Some (dec_val s2) else None) = Some z).
      { rewrite <- Hd. exact Hz. }
      clear Hz. destruct (in_i128 (dec_val s2)) eqn:Hi; [|discriminate].
      apply in_i128_iff in Hi. inversion Hz'; subst. constructor 1; auto; [apply numeral_dec_val; auto|tauto].
Qed.

(** the input of an operand: no space and no unary operator *)
Definition operand (i : str) : Prop := nows i /\ unary_ops i = PFail.
Lemma operand_minus i t : operand i -> i <> 45%N :: t.
Proof. intros [_ H] ->. discriminate H. Qed.

Lemma sat_constant N : satp operand N 1 (fun s e => g_expr primary_level s e) constant.
Proof.
  intros i Hi HP.
  assert (H : sat N 1 (fun s e => (exists z, e = EInt z /\ number_text s z) \/ (exists t, s = 45%N :: t) \/ g_expr primary_level s e) constant).
  { eapply sat_mono.
    - apply sat_alt; [apply sat_map, sat_number|]. apply sat_alt; apply sat_map, sat_tag.
    - apply le_n.
    - cbn. lia.
    - cbv beta. intros s e [(z & -> & [H|H])|[(t & -> & -> & _)|(t & -> & -> & _)]]; [left; eauto|right; left; exact H| |];
        right; right; constructor. }
  specialize (H i Hi). destruct (constant i) as [e r| |]; auto. destruct H as (pre & -> & Hk & [(z & -> & HR)|[(t & ->)|HR]]).
  - exists pre. repeat split; auto. constructor. exact HR.
  - elim (operand_minus _ (t ++ r) HP). reflexivity.
  - exists pre. auto.
Qed.

(** ** String literals *)

Lemma sat_special N : sat N 1 (fun s c => str_char (92%N :: s) c) special_char.
Proof.
  eapply sat_weaken.
  - unfold special_char. repeat first [apply sat_alt | apply sat_sym | apply sat_map].
  - cbn. lia.
  - cbv beta. intros s c H.
    repeat match goal with
    | H : _ \/ _ |- _ => destruct H
    | H : exists _, _ |- _ => destruct H
    | H : _ /\ _ |- _ => destruct H
    end; subst; constructor.
Qed.
Lemma sat_str_char N : sat N 1 str_char (palt (none_of [92; 34]%N) escape_sequence).
Proof.
  eapply sat_weaken.
  - apply sat_alt; [apply sat_is_a|]. eapply sat_right; [apply sat_sym|apply sat_special].
  - cbn. lia.
  - cbv beta. intros s c [[-> H]|(s1 & s2 & a & -> & [-> ->] & H)]; [|exact H].
    cbn in H. constructor; intros ->; discriminate H.
Qed.
Lemma sat_char_string N : sat N 1 (fun s l => many str_char s l /\ l <> []) char_string.
Proof. apply sat_rep1, sat_str_char. Qed.

Lemma hex_val_spec c v : hex_val c = Some v -> hexdigit c v.
Proof.
  unfold hex_val. intros H.
  destruct (_ && _)%bool eqn:H1 in H; [rewrite andb_true_iff, !N.leb_le in H1; inversion H; subst|].
  { replace c with (48 + (c - 48))%N at 1 by lia. constructor; lia. }
  destruct (_ && _)%bool eqn:H2 in H; [rewrite andb_true_iff, !N.leb_le in H2; inversion H; subst|].
  { replace c with (87 + (c - 87))%N at 1 by lia. constructor 2; lia. }
  destruct (_ && _)%bool eqn:H3 in H; [rewrite andb_true_iff, !N.leb_le in H3; inversion H; subst|discriminate].
  replace c with (55 + (c - 55))%N at 1 by lia. constructor 3; lia.
Qed.

Lemma sat_utf16_char N : sat N 1 utf16_unit utf16_char.
Proof.
  eapply sat_weaken.
  - eapply sat_right; [apply sat_tag|]. apply sat_map, sat_times, sat_is_a.
  - cbn. lia.
  - cbv beta. intros s u (s1 & s2 & a & -> & [-> ->] & l & -> & H & Hl).
    apply (many_single (fun c => [c])) in H. destruct H as [-> H]. rewrite flat_map_single.
    destruct l as [|a [|b [|c [|d [|]]]]]; try discriminate Hl.
    inversion H as [|? ? Ha H1]; subst. inversion H1 as [|? ? Hb H2]; subst. inversion H2 as [|? ? Hc H3]; subst. inversion H3 as [|? ? Hd H4]; subst.
    clear H H1 H2 H3 H4 Hl. unfold is_hex in *. unfold from_hex. cbn [fold_left].
    destruct (hex_val a) as [x|] eqn:Ea; [|discriminate]. destruct (hex_val b) as [y|] eqn:Eb; [|discriminate].
    destruct (hex_val c) as [z|] eqn:Ec; [|discriminate]. destruct (hex_val d) as [w|] eqn:Ed; [|discriminate].
    cbn [app]. replace (0 * 16 + x)%N with x by lia. constructor; apply hex_val_spec; assumption.
Qed.

Lemma decode_denotes toks s : (forall u l, toks <> inr u :: l) -> denotes toks s ->
  forall us, denotes (map inr us ++ toks) (decode_utf16 us ++ s).
Proof.
  intros Ht Hs us. remember (length us) as n eqn:Hn. assert (Hle : length us <= n) by lia. clear Hn.
  revert us Hle. induction n as [|n IH]; intros us Hn.
  - destruct us; [exact Hs|cbn in Hn; lia].
  - destruct us as [|u us]; [exact Hs|]. cbn in Hn. cbn [decode_utf16].
    destruct ((u <? 55296)%N || (57343 <? u)%N) eqn:E1.
    { rewrite orb_true_iff, !N.ltb_lt in E1. cbn. apply den_bmp; unfold high_surrogate, low_surrogate; try lia. apply IH; lia. }
    rewrite orb_false_iff, !N.ltb_ge in E1. destruct (56320 <=? u)%N eqn:E2.
    { rewrite N.leb_le in E2. cbn. apply den_low; [unfold low_surrogate; lia|]. apply IH; lia. }
    rewrite N.leb_gt in E2. destruct us as [|u2 us].
    { cbn. apply den_high; [unfold high_surrogate; lia| |exact Hs]. intros v l ->. elim (Ht v l eq_refl). }
    destruct ((56320 <=? u2)%N && (u2 <=? 57343)%N) eqn:E3.
    + rewrite andb_true_iff, !N.leb_le in E3. cbn [map app]. apply den_pair; [unfold high_surrogate; lia|unfold low_surrogate; lia|].
      apply IH. cbn in Hn; lia.
    + rewrite andb_false_iff, !N.leb_gt in E3. change (map inr (u :: u2 :: us) ++ toks) with (inr u :: (map inr (u2 :: us) ++ toks) : list (N + N)).
      cbn [app]. apply den_high; [unfold high_surrogate; lia| |apply IH; lia].
      intros v l Hv. inversion Hv; subst. unfold low_surrogate. lia.
Qed.

Lemma denotes_chars l toks s : denotes toks s -> denotes (map inl l ++ toks) (l ++ s).
Proof. intros H. induction l; cbn; [exact H|constructor; assumption]. Qed.
Lemma many_map {A B} (f : A -> B) (R : str -> A -> Prop) (R' : str -> B -> Prop) s l :
  (forall s a, R s a -> R' s (f a)) -> many R s l -> many R' s (map f l).
Proof. intros H. induction 1; cbn; constructor; auto. Qed.

Lemma string_body n : forall i, length i < n ->
  match prep_n n (palt char_string utf16_string) i with
  | POk ss r => exists pre toks, i = pre ++ r /\ many str_token pre toks /\ denotes toks (concat ss) /\
                 (utf16_char i = PFail -> forall u l, toks <> inr u :: l)
  | PFail => True
  | PFuel => False
  end.
Proof.
  induction n as [|n IH]; intros i Hi; [lia|]. cbn [prep_n]. set (Q := prep_n n (palt char_string utf16_string)) in *. unfold palt.
  pose proof (sat_char_string (S (length i)) i ltac:(lia)) as Hc. destruct (char_string i) as [cs r| |]; [|clear Hc|contradiction].
  - destruct Hc as (pre & -> & Hk & Hm & Hne). rewrite app_length in Hi. specialize (IH r ltac:(lia)).
    destruct (Q r) as [ss r'| |]; auto.
    destruct IH as (pre' & toks & -> & Hm' & Hd & _). exists (pre ++ pre'), (map inl cs ++ toks).
    rewrite app_assoc. split; [reflexivity|]. split; [|split].
    + apply many_app; [|exact Hm']. eapply many_map; [|exact Hm]. intros; constructor; assumption.
    + cbn. apply denotes_chars; exact Hd.
    + intros _ u l. destruct cs; [congruence|]. discriminate.
  - unfold utf16_string, pmap, prep1, pconvert, prep. cbv beta.
    pose proof (sat_rep_n (S (length i)) 0 utf16_unit utf16_char (sat_utf16_char _) (S (length i)) i ltac:(lia) ltac:(lia)) as Hu.
    destruct (prep_n (S (length i)) utf16_char i) as [us r| |] eqn:Hp; [|exists [], []; repeat split; [constructor|constructor|congruence]|contradiction].
    pose proof (prep_n_stop _ _ _ _ _ Hp) as Hstop. destruct Hu as (pre & -> & Hm & Hk).
    destruct us as [|u us].
    { exists [], []. repeat split; [constructor|constructor|congruence]. }
    specialize (Hk ltac:(congruence)). rewrite app_length in Hi. specialize (IH r ltac:(lia)).
    destruct (Q r) as [ss r'| |]; auto.
    destruct IH as (pre' & toks & -> & Hm' & Hd & Hfl). exists (pre ++ pre'), (map inr (u :: us) ++ toks).
    rewrite app_assoc. split; [reflexivity|]. split; [|split].
    + apply many_app; [|exact Hm']. eapply many_map; [|exact Hm]. intros; constructor; assumption.
    + cbn [concat]. apply decode_denotes; [apply Hfl; exact Hstop|exact Hd].
    + intros Hf. exfalso. cbn [prep_n] in Hp. rewrite app_assoc, Hf in Hp. inversion Hp; subst.
Qed.

Lemma sat_p_string N : sat N 1 (fun s e => exists v, e = EStr v /\ string_lit s v) p_string.
Proof.
  eapply sat_weaken.
  - apply sat_map. eapply sat_left; [eapply sat_right; [apply sat_sym|]|apply sat_sym].
    assert (Hb : forall N, sat N 0 (fun s ss => exists toks, many str_token s toks /\ denotes toks (concat ss))
                             (prep (palt char_string utf16_string))).
    { clear. intros N i _. unfold prep. pose proof (string_body (S (length i)) i ltac:(lia)) as H.
      destruct (prep_n _ _ _); auto. destruct H as (pre & toks & -> & Hm & Hd & _). exists pre. eauto 6 with arith. }
    apply Hb.
  - cbn. lia.
  - cbv beta. intros s e (ss & -> & s1 & s2 & b & -> & (s3 & s4 & c & -> & (-> & ->) & toks & Hm & Hd) & -> & ->).
    exists (concat ss). split; [reflexivity|]. cbn [app]. econstructor; eassumption.
Qed.

(** ** Expressions *)
Ltac dx := repeat match goal with
  | H : _ \/ _ |- _ => destruct H
  | H : exists _, _ |- _ => destruct H
  | H : _ /\ _ |- _ => destruct H
  | x : (_ * _)%type |- _ => destruct x
  | x : unit |- _ => destruct x
  end; cbn [fst snd] in *; subst.
Ltac norm := repeat rewrite <- app_assoc.

Lemma g_weaken_le k k' s e : k' <= k -> g_expr k s e -> g_expr k' s e.
Proof. induction 1; auto. intros H1. apply IHle. apply g_weaken. exact H1. Qed.

Section SatExpr.
Variable f : nat.
Variable pe : parser expr.
Hypothesis Hpe : sat f 1 g_full pe.

Lemma sat_pe N : N <= f -> sat N 1 g_full pe.
Proof. intros H. eapply sat_mono; [exact Hpe|exact H|apply le_n|auto]. Qed.

Lemma g_ident_text : forall k s e, g_expr k s e -> forall x, e = EIdent x -> s = x.
Proof. induction 1; intros x0 Hx; try discriminate; [congruence|auto]. Qed.

Lemma sat_paren : satp operand (S f) 1 (g_expr primary_level) (paren pe).
Proof.
  intros i Hi [Hn Hu].
  assert (H : sat (S f) 1 (fun s e => exists s' e' w, s = s_ "(" ++ s' ++ w ++ s_ ")" /\ e = EParen e' /\ ws w /\ g_full s' e') (paren pe)).
  { eapply sat_weaken.
    - apply sat_map. eapply sat_left; [eapply sat_left; [eapply sat_right; [apply sat_sym|apply sat_pe; lia]|apply sat_space]|apply sat_sym].
    - cbn; lia.
    - cbv beta. intros s e H. dx. norm. eauto 8. }
  specialize (H i Hi). destruct (paren pe i) as [e r| |]; auto.
  destruct H as (pre & -> & Hk & s' & e' & w & -> & -> & Hw & HR). exists (s_ "(" ++ s' ++ w ++ s_ ")").
  split; [reflexivity|]. split; [exact Hk|]. apply g_paren; auto.
  intros t -> Ht. inversion HR as [w0 s0 e0 Hw0 H0]; subst. pose proof (g_ident_text _ _ _ H0 _ eq_refl) as ->.
  assert (Hc : cast ((s_ "(" ++ (w0 ++ s_ "struct" ++ t) ++ w ++ s_ ")") ++ r) = POk (UCast (EIdent t)) r).
  { repeat rewrite <- app_assoc. apply (cast_ok w0 [] t w r); auto. constructor. }
  unfold unary_ops in Hu. set (i := (s_ "(" ++ _) ++ r) in *.
  rewrite (palt_r _ _ i) in Hu by reflexivity. rewrite (palt_r _ _ i) in Hu by reflexivity. rewrite (palt_r _ _ i) in Hu by reflexivity.
  rewrite Hc in Hu. discriminate.
Qed.

Lemma sat_primary : satp operand (S f) 1 (g_expr primary_level) (primary_expr pe).
Proof.
  intros i Hi HP. unfold primary_expr. pose proof (sat_constant (S f) i Hi HP) as H1.
  destruct (constant i) as [e r| |] eqn:Ec; [rewrite (palt_l _ _ i e r Ec); exact H1| |contradiction].
  rewrite palt_r by exact Ec. unfold constant in Ec.
  pose proof (sat_ident (S f) i Hi) as H2. destruct (ident i) as [e r| |] eqn:Ei; [rewrite (palt_l _ _ i e r Ei)| |contradiction].
  { destruct H2 as (pre & -> & Hk & -> & Hp). exists pre. repeat split; auto.
    unfold palt at 1 in Ec. destruct (pmap EInt number (pre ++ r)) as [|  |]; try discriminate.
    unfold palt in Ec. destruct (pmap _ (tag (s_ "true")) (pre ++ r)) as [| |] eqn:Et; try discriminate.
    assert (Ht : tag (s_ "true") (pre ++ r) = PFail) by (unfold pmap in Et; destruct (tag _ _); [discriminate|reflexivity|discriminate]).
    assert (Hf : tag (s_ "false") (pre ++ r) = PFail) by (unfold pmap in Ec; destruct (tag _ _); [discriminate|reflexivity|discriminate]).
    apply tag_fail_iff in Ht, Hf. constructor; auto; intros [u ->]; [apply Ht|apply Hf]; rewrite <- app_assoc; apply begins_refl. }
  rewrite palt_r by exact Ei. pose proof (sat_p_string (S f) i Hi) as H3.
  destruct (p_string i) as [e r| |] eqn:Es; [rewrite (palt_l _ _ i e r Es)| |contradiction].
  { destruct H3 as (pre & -> & Hk & v & -> & Hv). exists pre. repeat split; auto. constructor. exact Hv. }
  rewrite palt_r by exact Es. apply sat_paren; assumption.
Qed.

Lemma sat_arg_list N : N <= f -> sat N 0 g_args (arg_list pe).
Proof.
  intros HN i Hi. unfold arg_list, plist. pose proof (sat_pe N HN i Hi) as H1. destruct (pe i) as [e r| |]; auto.
  - destruct H1 as (pre & -> & Hk & HR). rewrite app_length in Hi.
    assert (Hs : sat N 1 (fun s e => exists w s', s = w ++ s_ "," ++ s' /\ ws w /\ g_full s' e)
                   (pright (pright space (sym (c_ ","))) pe)).
    { eapply sat_weaken; [eapply sat_right; [eapply sat_right; [apply sat_space|apply sat_sym]|apply sat_pe; lia]|cbn; lia|].
      cbv beta. intros s a H. dx. norm. eauto 8. }
    pose proof (sat_rep N 0 _ _ Hs r ltac:(lia)) as H2.
    destruct (prep _ r) as [l r'| |]; auto. destruct H2 as (pre2 & -> & _ & HM). exists (pre ++ pre2).
    rewrite app_assoc. repeat split; [lia|]. constructor; [exact HR|].
    clear -HM. induction HM as [|s1 a s2 l (w & s' & -> & H1 & H2) HM IH]; [constructor|]. norm. constructor; auto.
  - exists []. repeat split; auto. constructor.
Qed.

(** postfix operators *)
Definition g_post (s : str) (op : postfix_op) : Prop :=
  forall s0 e, g_expr postfix_level s0 e -> g_expr postfix_level (s0 ++ s) (apply_postfix e op).

Lemma sat_post : sat (S f) 1 g_post (pright space (palt (function_call pe) (palt (array_index pe) field_access))).
Proof.
  eapply sat_weaken.
  - eapply sat_right; [apply sat_space|]. apply sat_alt; [|apply sat_alt].
    + apply sat_map. eapply sat_left; [eapply sat_left; [eapply sat_right; [apply sat_sym|apply sat_arg_list; lia]|apply sat_space]|apply sat_sym].
    + apply sat_map. eapply sat_left; [eapply sat_left; [eapply sat_right; [apply sat_sym|apply sat_pe; lia]|apply sat_space]|apply sat_sym].
    + apply sat_map. eapply sat_right; [apply sat_sym|apply sat_ident].
  - cbn; lia.
  - cbv beta. intros s op H. unfold g_post. intros s0 e0 H0. dx; cbn [apply_postfix]; norm.
    + apply g_call; assumption.
    + apply g_index; assumption.
    + apply g_field; assumption.
Qed.

Lemma post_fold s l : many g_post s l -> forall s0 e, g_expr postfix_level s0 e ->
  g_expr postfix_level (s0 ++ s) (fold_left apply_postfix l e).
Proof.
  induction 1 as [|s1 op s2 l H HM IH]; intros s0 e H0; cbn [fold_left]; [rewrite app_nil_r; exact H0|].
  rewrite app_assoc. apply IH, H, H0.
Qed.

Lemma sat_postfix : satp operand (S f) 1 (g_expr postfix_level) (postfix_expr pe).
Proof.
  eapply satp_weaken.
  - apply satp_map. eapply satp_seq; [apply sat_primary|]. eapply sat_rep. eapply sat_mono; [apply sat_post|lia|apply le_n|]. intros s a H; exact H.
  - cbn; lia.
  - cbv beta. intros s e H. dx. apply post_fold; [assumption|]. apply g_weaken; assumption.
Qed.

(** unary operators *)
Definition g_un (s : str) (op : unary_op) : Prop :=
  forall s0 e, g_expr unary_level s0 e -> g_expr unary_level (s ++ s0) (apply_unary op e).

Lemma sat_un N : sat N 1 g_un (pleft unary_ops space).
Proof.
  eapply sat_weaken.
  - eapply sat_left; [|apply sat_space]. unfold unary_ops. apply sat_alt; [apply sat_map, sat_tag|].
    apply sat_alt; [apply sat_map, sat_tag|]. apply sat_alt; [apply sat_map, sat_tag|].
    apply sat_map. eapply sat_left; [eapply sat_left; [eapply sat_right; [eapply sat_right; [apply sat_tag|apply sat_space]|]|apply sat_space]|apply sat_tag].
    apply sat_map. eapply sat_seq; [eapply sat_left; [apply sat_tag|apply sat_space]|apply sat_ident].
  - cbn; lia.
  - cbv beta. intros s op H. unfold g_un. intros s0 e0 H0. dx; cbn [apply_unary]; norm.
    + apply (g_unop UBitNot); assumption.
    + apply (g_unop UNot); assumption.
    + apply (g_unop UMinus); assumption.
    + apply g_cast; assumption.
Qed.

Lemma un_fold s l : many g_un s l -> forall s0 e, g_expr unary_level s0 e ->
  g_expr unary_level (s ++ s0) (fold_right apply_unary e l).
Proof.
  induction 1 as [|s1 op s2 l H HM IH]; intros s0 e H0; cbn [fold_right]; [exact H0|].
  rewrite <- app_assoc. apply H, IH, H0.
Qed.

Lemma pleft_space_fail {A} (p : parser A) r : pleft p space r = PFail -> p r = PFail.
Proof.
  unfold pleft, pmap, pseq. destruct (p r) as [a r1| |]; [|reflexivity|discriminate].
  destruct (space_inv r1) as (w & r2 & _ & _ & _ & ->). discriminate.
Qed.
Lemma prep_n_nows {A} (p : parser A) n : forall i l r, nows i -> prep_n n (pleft p space) i = POk l r -> nows r.
Proof.
  induction n as [|n IH]; intros i l r Hi H; [discriminate|]. cbn [prep_n] in H.
  destruct (pleft p space i) as [a r1| |] eqn:E; try discriminate; [|inversion H; subst; exact Hi].
  assert (Hr1 : nows r1).
  { unfold pleft, pmap, pseq in E. destruct (p i) as [b r2| |]; try discriminate.
    destruct (space_inv r2) as (w & r3 & _ & _ & Hn & Es). rewrite Es in E. inversion E; subst. exact Hn. }
  destruct (prep_n n (pleft p space) r1) as [l1 r2| |] eqn:E1; try discriminate. inversion H; subst. eapply IH; eassumption.
Qed.

Lemma sat_unary : satp nows (S f) 1 (g_expr unary_level) (unary_expr pe).
Proof.
  intros i Hi Hn. unfold unary_expr, pmap. unfold pseq at 1. unfold pleft at 1. unfold pmap at 1, pseq at 1.
  pose proof (sat_rep (S f) 0 _ _ (sat_un (S f)) i Hi) as H1.
  destruct (prep (pleft unary_ops space) i) as [l r| |] eqn:E; auto.
  destruct H1 as (pre & -> & _ & HM). rewrite app_length in Hi.
  pose proof (prep_n_nows _ _ _ _ _ Hn E) as Hr. pose proof (pleft_space_fail _ _ (prep_stop _ _ _ _ E)) as Hu.
  rewrite (space_id r Hr). cbn [fst snd].
  pose proof (sat_postfix r ltac:(lia) (conj Hr Hu)) as H2. destruct (postfix_expr pe r) as [e r'| |]; auto.
  destruct H2 as (pre2 & -> & Hk & HR). cbn [fst snd]. exists (pre ++ pre2). rewrite <- app_assoc, app_length.
  split; [reflexivity|]. split; [lia|]. apply un_fold; [assumption|]. apply g_weaken. exact HR.
Qed.

(** binary operators *)
Lemma sat_level k ops next : k <> 5 ->
  (forall N, sat N 1 (fun s o => s = op_text o /\ op_level o = k) ops) ->
  satp nows (S f) 1 (g_expr (S k)) next ->
  satp nows (S f) 1 (g_expr k) (binary_level ops next).
Proof.
  intros Hk Hops Hn. eapply satp_weaken.
  - apply satp_map. eapply satp_seq; [exact Hn|]. eapply sat_rep'.
    + eapply sat_space_seq; [eapply sat_right; [apply sat_space|apply Hops]|].
      eapply satp_mono; [exact Hn|cbn; lia|apply le_n|]. intros s a H; exact H.
    + cbn; lia.
  - cbn; lia.
  - cbv beta. intros s e H. dx.
    match goal with H : many _ _ ?l |- _ => rename H into HM; rename l into ll end.
    match goal with H : g_expr _ ?x ?y |- context [left_fold ?z] => unify y z; rename H into H0 end.
    apply g_weaken in H0. revert H0. match goal with |- _ -> g_expr _ (?x ++ _) (left_fold ?z _) => generalize x z end.
    induction HM as [|s1 [o e1] s2 l HR HM IH]; intros t0 d0 H0; [rewrite app_nil_r; exact H0|].
    rewrite app_assoc. apply IH. dx. norm. apply g_binop; assumption.
Qed.

Lemma sat_op N s o : sat N (length s) (fun t o' => t = s /\ o' = o) (op_tag s o).
Proof. eapply sat_weaken; [apply sat_map, sat_tag|apply le_n|]. cbv beta. intros t a H. dx. auto. Qed.

Ltac ops := intros N; eapply sat_weaken;
  [repeat apply sat_alt; first [apply sat_op | apply sat_map, sat_sym]|cbn; lia|cbv beta; intros s o H; dx; split; reflexivity].

Lemma sat_eq_ops N : sat N 1 (fun s o => s = op_text o /\ op_level o = 5) eq_ops.
Proof. revert N. unfold eq_ops. ops. Qed.

Lemma sat_eq : satp nows (S f) 1 (g_expr 6) (relation_expr pe) -> satp nows (S f) 1 (g_expr 5) (eq_expr pe).
Proof.
  intros Hn. eapply satp_weaken.
  - apply satp_map. eapply satp_seq; [exact Hn|]. eapply sat_opt.
    eapply sat_space_seq; [eapply sat_right; [apply sat_space|apply sat_eq_ops]|].
    eapply satp_mono; [exact Hn|lia|apply le_n|]. intros s a H; exact H.
  - cbn; lia.
  - cbv beta. intros s e ([e1 o] & He & H). subst. destruct o as [[o e2]|]; dx.
    + dx. norm. apply g_eqop; assumption.
    + rewrite app_nil_r. apply g_weaken; assumption.
Qed.

Lemma sat_or : satp nows (S f) 1 (g_expr 0) (or_expr pe).
Proof.
  apply (sat_level 0); [lia|unfold op_tag; ops|]. apply (sat_level 1); [lia|ops|]. apply (sat_level 2); [lia|ops|].
  apply (sat_level 3); [lia|ops|]. apply (sat_level 4); [lia|ops|]. apply sat_eq.
  apply (sat_level 6); [lia|unfold relation_ops; ops|]. apply (sat_level 7); [lia|unfold shift_ops; ops|].
  apply (sat_level 8); [lia|unfold add_ops; ops|]. apply (sat_level 9); [lia|unfold mult_ops; ops|].
  apply sat_unary.
Qed.
End SatExpr.

Lemma sat_p_expr_f f : sat f 1 g_full (p_expr_f f).
Proof.
  induction f as [|f IH]; [intros i Hi; lia|]. cbn [p_expr_f]. eapply sat_weaken.
  - apply sat_space_right. apply sat_or; exact IH.
  - cbn; lia.
  - cbv beta. intros s e H. dx. constructor; assumption.
Qed.
Lemma sat_p_expr N : sat N 1 g_full p_expr.
Proof. intros i Hi. unfold p_expr. apply (sat_p_expr_f (S (length i)) i). lia. Qed.
Lemma satp_p_expr N : satp nows N 1 (g_expr 0) p_expr.
Proof.
  intros i Hi Hn. unfold p_expr. cbn [p_expr_f]. unfold pright, pmap, pseq. rewrite (space_id i Hn).
  pose proof (sat_or (length i) (p_expr_f (length i)) (sat_p_expr_f _) i ltac:(lia) Hn) as H.
  destruct (or_expr _ i) as [e r| |]; auto.
Qed.

(** ** Statements *)
Lemma unreserved_prefix a b : unreserved (a ++ b) -> unreserved a.
Proof.
  unfold unreserved. intros (H1 & H2 & H3 & H4).
  repeat split; intros [u ->]; [apply H1|apply H2|apply H3|apply H4]; rewrite <- app_assoc; apply begins_refl.
Qed.

Lemma sat_assign N : satp nows N 1 (fun s st => unreserved s -> g_simple unreserved s st) assign_stmt.
Proof.
  assert (H : forall {A} (t : parser A) R (mk : expr * expr -> stmt), (forall M, sat M 1 R t) ->
    satp nows N 1 (fun s st => exists s1 w s2 s3 e1 e2 a, s = s1 ++ w ++ s2 ++ s3 /\ ws w /\ R s2 a /\ g_expr 0 s1 e1 /\ g_full s3 e2 /\ st = mk (e1, e2))
      (pmap mk (pseq (pleft (pleft p_expr space) t) p_expr))).
  { intros A t R mk Ht. eapply satp_weaken.
    - apply satp_map. eapply satp_seq; [eapply satp_left; [eapply satp_left; [apply satp_p_expr|apply sat_space]|apply Ht]|apply sat_p_expr].
    - cbn; lia.
    - cbv beta. intros s st Hs. dx. norm. repeat eexists; eauto. }
  assert (Hplus : forall t M, 1 <= length t -> sat M 1 (fun s (a : str) => s = t /\ a = t) (tag t)).
  { intros t M Ht. eapply sat_weaken; [apply sat_tag|exact Ht|auto]. }
  intros i Hi Hn. unfold assign_stmt.
  pose proof (H _ (tag (s_ "+=")) _ (fun x => SAssign (fst x) (EBin OPlus (fst x) (snd x))) (fun M => Hplus (s_ "+=") M (le_S 1 1 (le_n 1))) i Hi Hn) as H1.
  pose proof (H _ (tag (s_ "-=")) _ (fun x => SAssign (fst x) (EBin OMinus (fst x) (snd x))) (fun M => Hplus (s_ "-=") M (le_S 1 1 (le_n 1))) i Hi Hn) as H2.
  pose proof (H _ (sym (c_ "=")) _ (fun x => SAssign (fst x) (snd x)) (fun M => sat_sym M _) i Hi Hn) as H3.
  fold plus_equals in H1. fold minus_equals in H2. fold regular_assign in H3. unfold palt.
  destruct (plus_equals i) as [st r| |]; [| |contradiction].
  { destruct H1 as (pre & -> & Hk & HR). exists pre. split; [reflexivity|]. split; [exact Hk|]. intros Hu. dx.
    apply g_plus_assign; auto. eapply unreserved_prefix; exact Hu. }
  destruct (minus_equals i) as [st r| |]; [| |contradiction].
  { destruct H2 as (pre & -> & Hk & HR). exists pre. split; [reflexivity|]. split; [exact Hk|]. intros Hu. dx.
    apply g_minus_assign; auto. eapply unreserved_prefix; exact Hu. }
  destruct (regular_assign i) as [st r| |]; [|auto|contradiction].
  destruct H3 as (pre & -> & Hk & HR). exists pre. split; [reflexivity|]. split; [exact Hk|]. intros Hu. dx.
  apply g_assign; auto. eapply unreserved_prefix; exact Hu.
Qed.

Lemma pmap_tag_fail {A} (x : A) t i : pmap (fun _ => x) (tag t) i = PFail -> ~ begins t i.
Proof. unfold pmap. intros H. apply tag_fail_iff. destruct (tag t i); [discriminate|reflexivity|discriminate]. Qed.
Lemma palt_fail_inv {A} (p q : parser A) i : palt p q i = PFail -> p i = PFail /\ q i = PFail.
Proof. unfold palt. destruct (p i); try discriminate. auto. Qed.

Lemma sat_simple N : satp nows N 0 (g_simple unreserved) (palt builtin_stmt (palt jump_stmt (palt assign_stmt expr_stmt))).
Proof.
  assert (Hb : sat N 0 (g_simple unreserved) builtin_stmt).
  { eapply sat_weaken.
    - unfold builtin_stmt. apply sat_alt; [|apply sat_alt; [|apply sat_alt]].
      + apply sat_map. eapply sat_right; [eapply sat_right; [apply sat_tag|apply sat_space]|apply sat_p_string].
      + eapply sat_right; [apply sat_tag|apply sat_map, sat_p_expr].
      + apply sat_map, sat_tag.
      + apply sat_map, sat_tag.
    - lia.
    - cbv beta. intros s e H. dx; norm; try assumption; try (constructor; assumption). }
  assert (Hj : sat N 0 (g_simple unreserved) jump_stmt).
  { eapply sat_weaken; [apply sat_alt; apply sat_map, sat_tag|lia|]. cbv beta. intros s e H. dx; constructor. }
  intros i Hi Hn. specialize (Hb i Hi). specialize (Hj i Hi).
  pose proof (sat_assign N i Hi Hn) as Ha. pose proof (satp_p_expr N i Hi Hn) as He.
  unfold palt at 1. destruct (builtin_stmt i) as [st r| |] eqn:Eb; [exact Hb| |contradiction].
  unfold palt at 1. destruct (jump_stmt i) as [st r| |] eqn:Ej; [exact Hj| |contradiction].
  assert (Hu : unreserved i).
  { apply palt_fail_inv in Ej. destruct Ej as [E3 E4]. unfold builtin_stmt in Eb.
    apply palt_fail_inv in Eb. destruct Eb as [_ Eb]. apply palt_fail_inv in Eb. destruct Eb as [_ Eb].
    apply palt_fail_inv in Eb. destruct Eb as [E1 E2].
    repeat split; eapply pmap_tag_fail; eassumption. }
  unfold palt. destruct (assign_stmt i) as [st r| |]; [| |contradiction].
  { destruct Ha as (pre & -> & Hk & HR). exists pre. repeat split; [lia|]. apply HR. eapply unreserved_prefix; exact Hu. }
  unfold expr_stmt, pmap. destruct (p_expr i) as [e r| |]; auto. destruct He as (pre & -> & Hk & HR). exists pre.
  repeat split; [lia|]. apply g_expr_stmt; [eapply unreserved_prefix; exact Hu|exact HR].
Qed.

Lemma many_semis s l : many (fun s (_ : N) => exists w, s = w ++ s_ ";" /\ ws w) s l -> g_semis s.
Proof. induction 1 as [|s1 a s2 l (w & -> & H) HM IH]; [constructor|]. norm. constructor; assumption. Qed.
Lemma sat_semis N : sat N 0 (fun s _ => g_semis s) (prep (pright space (sym (c_ ";")))).
Proof.
  eapply sat_weaken.
  - eapply sat_rep'; [eapply sat_right; [apply sat_space|apply sat_sym]|cbn; apply le_n].
  - lia.
  - intros s a H. eapply many_semis. eapply many_impl; [|exact H]. cbv beta. intros. dx. eauto.
Qed.

Section SatStmt.
Variable f : nat.
Variable pss : parser (list stmt).
Hypothesis Hpss : sat f 0 (g_stmts unreserved) pss.
Lemma sat_pss N : N <= f -> sat N 0 (g_stmts unreserved) pss.
Proof. intros H. eapply sat_mono; [exact Hpss|exact H|apply le_n|auto]. Qed.

Lemma sat_if : sat (S f) 1 (g_block unreserved) (if_else_stmt pss).
Proof.
  eapply sat_weaken.
  - apply sat_map. eapply sat_seq.
    + eapply sat_left; [eapply sat_left; [|apply sat_space]|apply sat_sym].
      eapply sat_seq; [eapply sat_left; [eapply sat_left; [eapply sat_right; [apply sat_tag|apply sat_p_expr]|apply sat_space]|apply sat_sym]|apply sat_pss; cbn; lia].
    + eapply sat_opt. eapply sat_left; [eapply sat_left; [|apply sat_space]|apply sat_sym].
      eapply sat_right; [eapply sat_right; [eapply sat_right; [eapply sat_right; [apply sat_space|apply sat_tag]|apply sat_space]|apply sat_sym]|apply sat_pss; cbn; lia].
  - cbn; lia.
  - cbv beta. intros s st ([[c b] o] & Hst & s1 & s2 & Hs & H1 & H2). subst. cbn [fst snd] in *. destruct o as [eb|]; dx; norm.
    + apply g_if_else; assumption.
    + rewrite ?app_nil_r. apply g_if; assumption.
Qed.

Lemma sat_while : sat (S f) 1 (g_block unreserved) (while_stmt pss).
Proof.
  eapply sat_weaken.
  - apply sat_map. eapply sat_left; [eapply sat_left; [|apply sat_space]|apply sat_sym].
    eapply sat_seq; [eapply sat_left; [eapply sat_left; [eapply sat_right; [apply sat_tag|apply sat_p_expr]|apply sat_space]|apply sat_sym]|apply sat_pss; cbn; lia].
  - cbn; lia.
  - cbv beta. intros s st H. dx; norm. apply g_while; assumption.
Qed.

Lemma ident_stop i e r : ident i = POk e r -> heads (fun c => ident_char c = false) r.
Proof.
  unfold ident, ident_name, pmap, pcollect, pseq. destruct (is_a ident_start i) as [c r1| |]; try discriminate.
  destruct (prep (is_a ident_char) r1) as [l r2| |] eqn:E; try discriminate. intros H. inversion H; subst.
  apply is_a_fail_inv. eapply prep_stop. exact E.
Qed.
Lemma sat_for_head N : sat N 1 (fun s e => exists w1 x w2, s = s_ "for" ++ w1 ++ x ++ w2 ++ s_ "in" /\ e = EIdent x /\ ws w1 /\ identifier x /\ ws w2 /\ w2 <> [])
  (pleft (pleft (pright (pright (tag (s_ "for")) space) ident) space) (tag (s_ "in"))).
Proof.
  intros i Hi.
  assert (H : sat N 1 (fun s e => exists w1 x, s = s_ "for" ++ w1 ++ x /\ e = EIdent x /\ ws w1 /\ identifier x) (pright (pright (tag (s_ "for")) space) ident)).
  { eapply sat_weaken; [eapply sat_right; [eapply sat_right; [apply sat_tag|apply sat_space]|apply sat_ident]|cbn; lia|].
    cbv beta. intros. dx. norm. eauto 8. }
  specialize (H i Hi). set (q := pright (pright (tag (s_ "for")) space) ident) in *. unfold pleft, pmap, pseq.
  destruct (q i) as [e r| |] eqn:E; auto. destruct H as (pre & -> & Hk & w1 & x & -> & -> & Hw & Hx).
  destruct (space_inv r) as (w & r' & -> & Hw2 & _ & ->). cbn [fst snd].
  destruct (tag (s_ "in") r') as [a r2| |] eqn:Et; auto.
  - assert (Hr : r' = s_ "in" ++ r2).
    { unfold tag in Et. destruct (strip_prefix (s_ "in") r') as [r3|] eqn:Es; [|discriminate]. apply strip_prefix_app in Es. inversion Et. congruence. }
    subst r'. exists (s_ "for" ++ w1 ++ x ++ w ++ s_ "in"). norm. split; [reflexivity|]. split; [cbn; lia|].
    exists w1, x, w. repeat split; auto. intros ->. cbn [app] in E.
    assert (Hs : heads (fun c => ident_char c = false) (s_ "in" ++ r2)).
    { unfold q, pright, pmap, pseq in E. destruct (tag (s_ "for") _) as [? ?| |]; try discriminate.
      destruct (space _) as [? ?| |]; try discriminate. cbn [fst snd] in E.
      match type of E with context [ident ?z] => destruct (ident z) as [? ?| |] eqn:Ei; try discriminate end.
      inversion E; subst. eapply ident_stop. exact Ei. }
    discriminate Hs.
  - unfold tag in Et. destruct (strip_prefix _ _); discriminate.
Qed.
Lemma sat_for : sat (S f) 1 (g_block unreserved) (for_stmt pss).
Proof.
  eapply sat_weaken.
  - apply sat_map. eapply sat_left; [eapply sat_left; [|apply sat_space]|apply sat_sym].
    eapply sat_seq; [eapply sat_left; [eapply sat_left; [eapply sat_seq; [apply sat_for_head|apply sat_p_expr]|apply sat_space]|apply sat_sym]|apply sat_pss; cbn; lia].
  - cbn; lia.
  - cbv beta. intros s st H. dx; norm. apply g_for; assumption.
Qed.

Lemma sat_stmt : sat (S f) 1 (g_stmt unreserved) (p_stmt pss).
Proof.
  eapply sat_weaken.
  - eapply sat_left; [|apply sat_semis]. apply sat_space_right.
    apply satp_alt.
    + eapply satp_left; [eapply satp_left; [apply sat_simple|apply sat_space]|apply sat_sym].
    + apply satp_of. unfold block_stmt. eapply sat_mono; [apply sat_alt; [apply sat_if|apply sat_alt; [apply sat_while|apply sat_for]]|lia|apply le_n|].
      intros s a H; exact H.
  - cbn; lia.
  - cbv beta. intros s st H. dx; norm; first [apply g_simple_stmt; assumption|apply g_block_stmt; assumption].
Qed.
End SatStmt.

Lemma many_stmts s l : many (g_stmt unreserved) s l -> g_stmts unreserved s l.
Proof. induction 1; constructor; assumption. Qed.
Lemma sat_p_stmts_f f : sat f 0 (g_stmts unreserved) (p_stmts_f f).
Proof.
  induction f as [|f IH]; [intros i Hi; lia|]. cbn [p_stmts_f]. eapply sat_weaken.
  - eapply sat_rep. apply sat_stmt. exact IH.
  - lia.
  - intros s l. apply many_stmts.
Qed.

Lemma sat_program i :
  match program i with POk l r => r = [] /\ g_program unreserved i l | PFail => True | PFuel => False end.
Proof.
  assert (H : sat (S (length i)) 0 (fun s l => g_program unreserved s l) (pleft p_stmts space)).
  { eapply sat_weaken; [eapply sat_left; [|apply sat_space]|lia|].
    - intros j Hj. apply (sat_p_stmts_f (S (length j)) j). lia.
    - cbv beta. intros s l H. dx. constructor; assumption. }
  specialize (H i ltac:(lia)). unfold program. unfold pleft in *. unfold pmap at 1. unfold pseq at 1.
  set (q := pmap fst (pseq p_stmts space)) in *. destruct (q i) as [l r| |]; auto.
  destruct H as (pre & -> & _ & HR). unfold pend. destruct r; cbn; auto. rewrite app_nil_r. auto.
Qed.

Lemma parse_total i : (exists l, parse i = Ok l) \/ parse i = Err EParse.
Proof. pose proof (sat_program i) as H. unfold parse. destruct (program i); [left; eauto|auto|contradiction]. Qed.
Lemma parse_sound i l : parse i = Ok l -> g_program unreserved i l.
Proof.
  pose proof (sat_program i) as H. unfold parse. destruct (program i); intros He; inversion He; subst. apply H.
Qed.

(** induction over derivations *)
Scheme g_expr_mi := Minimality for g_expr Sort Prop
with g_full_mi := Minimality for g_full Sort Prop
with g_args_mi := Minimality for g_args Sort Prop
with g_more_mi := Minimality for g_more Sort Prop.
Combined Scheme g_all_mi from g_expr_mi, g_full_mi, g_args_mi, g_more_mi.
Scheme g_stmt_mi := Minimality for g_stmt Sort Prop
with g_block_mi := Minimality for g_block Sort Prop
with g_stmts_mi := Minimality for g_stmts Sort Prop.
Combined Scheme g_stmt_all_mi from g_stmt_mi, g_block_mi, g_stmts_mi.

