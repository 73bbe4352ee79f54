(** C31-C33: printing histograms. *)
From Verif Require Import Base Ast Value Variables Fs Eval Runtime Lib Demo Spec_Run Proof_Run Spec_Grammar Spec_Hist Proof_Text Proof_Hist.
From Coq Require Import Lia.
Arguments s_ s%string_scope.

(** ** C31.  Missing: (1) values equal to the end of the last bucket are not counted, see
    [C31_values_equal_to_the_last_bound_are_lost_refuted]; (2) values outside [-2^126, 2^125]. *)
Theorem C31_histogram_buckets_partial :
  forall E inter s e w vals s' r,
  evals E s e w (Ok (VArr (map VInt vals) true)) -> vals <> [] ->
  (forall v, In v vals -> - 2 ^ 126 <= v <= 2 ^ 125)%Z ->
  runs E inter s (SPrint e) s' r ->
  exists bs a z text,
    do_write E (with_w s w) (text ++ nl) = (s', r) /\
    diagram (zlen vals) bs text /\ buckets vals a bs z /\
    (forall v, In v vals -> a <= v <= z)%Z /\
    (* every value but those equal to z lies in exactly one bucket *)
    (forall v, In v vals -> v <> z ->
       exists b, In b bs /\ (fst (fst b) <= v < snd (fst b))%Z /\
         forall b', In b' bs -> (fst (fst b') <= v < snd (fst b'))%Z -> b' = b) /\
    total bs = zlen (filter (fun v => negb (v =? z)%Z) vals) /\
    (* and z is the largest value or larger; larger if the largest is no power of two *)
    (exists m, In m vals /\ (forall v, In v vals -> v <= m)%Z /\ (z = m <-> power_of_two m)).
Proof.
  intros E inter s e w vals s' r He Hne Hv Hr. apply (runs_print _ _ _ _ _ _ _ _ He) in Hr.
  destruct (as_hist_ok 400 (overflow_checks E) vals ltac:(lia) Hne Hv) as (bs & a & z & text & Ht & Hb & Haz & Hd & m & Hm & Hs).
  assert (U : forall k r0, as_hist k (overflow_checks E) (map VInt vals) = r0 -> r0 <> Fuel -> r0 = Ok text).
  { intros k r0 H Hf. pose proof (as_hist_mono k (Nat.max k 400) (overflow_checks E) (map VInt vals) ltac:(lia)) as M1.
    pose proof (as_hist_mono 400 (Nat.max k 400) (overflow_checks E) (map VInt vals) ltac:(lia)) as M2. rewrite Ht in M2. specialize (M2 ltac:(discriminate)).
    rewrite M1, H in M2 by congruence. exact M2. }
  assert (Hw : do_write E (with_w s w) (text ++ nl) = (s', r)).
  { destruct Hr as [(k & t & H & Hw)|[(k & err & H & _)|(k & p & H & _)]]; specialize (U k _ H ltac:(discriminate)); try discriminate. injection U as ->. exact Hw. }
  exists bs, a, z, text. split; [exact Hw|]. split; [exact Hd|]. split; [exact Hb|]. split; [exact Haz|].
  split; [intros v Hin Hz; apply (in_one_bucket _ _ _ _ _ Hb); specialize (Haz v Hin); lia|].
  split; [rewrite (buckets_total _ _ _ _ Hb), (number_all _ _ _ Haz); reflexivity|].
  assert (Hmax : exists M, In M vals /\ forall v, In v vals -> (v <= M)%Z).
  { destruct vals as [|x l]; [congruence|]. exists (zmax x l). apply zmax_spec. }
  destruct Hmax as (M & HM & Hge). exists M. split; [exact HM|]. split; [exact Hge|]. split; [intros <-; exact (buckets_end _ _ _ _ Hb)|].
  intros HP. apply (last_bound _ _ _ _ M Hb (Haz M HM) HP). intros b Hbin. specialize (Hs b Hbin). specialize (Hge m Hm). lia.
Qed.
Print Assumptions C31_histogram_buckets_partial.

(** samples whose largest value is not a power of two (or 0) are all counted *)
Theorem C31_histogram_counts_every_sample_partial :
  forall E inter s e w vals s' r m,
  evals E s e w (Ok (VArr (map VInt vals) true)) ->
  (forall v, In v vals -> - 2 ^ 126 <= v <= 2 ^ 125)%Z ->
  In m vals -> (forall v, In v vals -> v <= m)%Z -> ~ power_of_two m ->
  runs E inter s (SPrint e) s' r ->
  exists bs a z text,
    do_write E (with_w s w) (text ++ nl) = (s', r) /\
    diagram (zlen vals) bs text /\ buckets vals a bs z /\ (forall v, In v vals -> a <= v < z)%Z /\
    total bs = zlen vals.
Proof.
  intros E inter s e w vals s' r m He Hv Hm Hge Hp Hr. assert (Hne : vals <> []) by (intros ->; destruct Hm).
  destruct (C31_histogram_buckets_partial _ _ _ _ _ _ _ _ He Hne Hv Hr) as (bs & a & z & text & Hw & Hd & Hb & Haz & _ & Ht & m' & Hm' & Hge' & Hz).
  assert (m' = m) by (specialize (Hge m' Hm'); specialize (Hge' m Hm); lia). subst m'.
  assert (Hlt : (m < z)%Z) by (destruct (Z.eq_dec z m) as [H|H]; [tauto|specialize (Haz m Hm); lia]).
  exists bs, a, z, text. split; [exact Hw|]. split; [exact Hd|]. split; [exact Hb|]. split; [intros v Hin; specialize (Haz v Hin); specialize (Hge v Hin); lia|].
  rewrite Ht. f_equal. clear -Hge Hlt. induction vals as [|v vals IH]; [reflexivity|]. cbn [filter]. specialize (Hge v (or_introl eq_refl)) as H.
  rewrite (proj2 (Z.eqb_neq v z)) by lia. cbn [negb]. f_equal. apply IH. intros x Hx. apply Hge. right. exact Hx.
Qed.
Print Assumptions C31_histogram_counts_every_sample_partial.

(** if the largest value is a power of two (or 0), it is in no bucket *)
Theorem C31_values_equal_to_the_last_bound_are_lost_refuted :
  forall E inter s e w vals s' r m,
  evals E s e w (Ok (VArr (map VInt vals) true)) ->
  (forall v, In v vals -> - 2 ^ 126 <= v <= 2 ^ 125)%Z ->
  In m vals -> (forall v, In v vals -> v <= m)%Z -> power_of_two m ->
  runs E inter s (SPrint e) s' r ->
  exists bs a text,
    do_write E (with_w s w) (text ++ nl) = (s', r) /\
    diagram (zlen vals) bs text /\ buckets vals a bs m /\ (total bs < zlen vals)%Z.
Proof.
  intros E inter s e w vals s' r m He Hv Hm Hge Hp Hr. assert (Hne : vals <> []) by (intros ->; destruct Hm).
  destruct (C31_histogram_buckets_partial _ _ _ _ _ _ _ _ He Hne Hv Hr) as (bs & a & z & text & Hw & Hd & Hb & Haz & _ & Ht & m' & Hm' & Hge' & Hz).
  assert (m' = m) by (specialize (Hge m' Hm'); specialize (Hge' m Hm); lia). subst m'. apply Hz in Hp. subst z.
  exists bs, a, text. split; [exact Hw|]. split; [exact Hd|]. split; [exact Hb|]. rewrite Ht. clear -Hm.
  unfold zlen. apply Nat2Z.inj_lt. induction vals as [|v vals IH]; [destruct Hm|]. cbn [filter length].
  assert (L : forall l, length (filter (fun v => negb (v =? m)%Z) l) <= length l) by (intros l; induction l as [|x l IHl]; cbn [filter length]; [lia|destruct (negb _); cbn [length]; lia]).
  destruct Hm as [->|Hm]; [rewrite Z.eqb_refl; cbn [negb]; specialize (L vals); lia|]. specialize (IH Hm). destruct (negb _); cbn [length]; lia.
Qed.
Print Assumptions C31_values_equal_to_the_last_bound_are_lost_refuted.


(** a state in which h is the histogram of the given values *)
Definition hist_state (vals : list Z) : est := mk_est [[(s_ "h", VArr (map VInt vals) true)]] None w0.
Lemma hist_evals E vals : evals E (hist_state vals) (EIdent (s_ "h")) w0 (Ok (VArr (map VInt vals) true)).
Proof. split; [discriminate|]. exists 1. reflexivity. Qed.
Example C31_example_counted : exists s', evals (demo_env true) (hist_state [1; 2; 3; -5; 1000]%Z) (EIdent (s_ "h")) w0 (Ok (VArr (map VInt [1; 2; 3; -5; 1000]%Z) true)) /\
  In 1000%Z [1; 2; 3; -5; 1000]%Z /\ ~ power_of_two 1000 /\ runs (demo_env true) true (hist_state [1; 2; 3; -5; 1000]%Z) (SPrint (EIdent (s_ "h"))) s' IOk.
Proof.
  eexists. split; [apply hist_evals|]. split; [cbn; tauto|]. split; [|split; [discriminate|exists 300; vm_compute; reflexivity]].
  intros H. destruct (power_pw _ H) as (e & He). change (pw e) with (pw e) in He.
  assert (L : (pw 10 < pw e)%Z) by (rewrite <- He; reflexivity). assert (R : (pw e < pw 11)%Z) by (rewrite <- He; reflexivity). apply pw_lt_inv in L. apply pw_lt_inv in R. lia.
Qed.
(** [8] prints an empty line; of [5; 8] only 5 is shown *)
Example C31_example_lost : exists s1 s2,
  runs (demo_env true) true (hist_state [8]%Z) (SPrint (EIdent (s_ "h"))) s1 IOk /\ w_out (e_w s1) = nl /\
  runs (demo_env true) true (hist_state [5; 8]%Z) (SPrint (EIdent (s_ "h"))) s2 IOk /\
  w_out (e_w s2) = s_ "[4, 8)                1 |@@@@@@@@@@@@@@@@@@@@@@@@@                         |" ++ nl ++ nl.
Proof.
  eexists _, _. split; [split; [discriminate|exists 300; vm_compute; reflexivity]|]. split; [reflexivity|].
  split; [split; [discriminate|exists 300; vm_compute; reflexivity]|]. vm_compute. reflexivity.
Qed.

(** ** C32.  Missing: values above 2^125, see the refuted theorem. *)
Theorem C32_printing_a_histogram_terminates_partial :
  forall E inter s e w vec,
  evals E s e w (Ok (VArr vec true)) ->
  (exists v, In v vec /\ forall z, v <> VInt z) \/
  (exists vals, vec = map VInt vals /\ forall v, In v vals -> - 2 ^ 127 <= v <= 2 ^ 125)%Z ->
  exists s' r, runs E inter s (SPrint e) s' r.
Proof.
  intros E inter s e w vec He [Hn|(vals & -> & Hv)].
  - destruct (hist_vals_other _ Hn) as (u & _ & _ & Hu). eexists _, _. apply (runs_print _ _ _ _ _ _ _ _ He). right. left. exists 0. eexists. split; [|eauto]. unfold as_hist. rewrite Hu. reflexivity.
  - destruct vals as [|v0 vals]; [eexists _, _; apply (runs_print _ _ _ _ _ _ _ _ He); left; exists 0; eexists; split; [reflexivity|apply surjective_pairing]|].
    destruct (as_hist_big 400 (overflow_checks E) (v0 :: vals) ltac:(lia) ltac:(discriminate)) as [((t & Ht) & _)|[(_ & v & Hin & Hb)|(Hp & _)]].
    + intros v Hin. specialize (Hv v Hin). change (2 ^ 127)%Z with (4 * 2 ^ 125)%Z in *. assert (0 < 2 ^ 125)%Z by reflexivity. lia.
    + eexists _, _. apply (runs_print _ _ _ _ _ _ _ _ He). left. exists 400, t. split; [exact Ht|apply surjective_pairing].
    + specialize (Hv v Hin). lia.
    + eexists _, _. apply (runs_print _ _ _ _ _ _ _ _ He). right. right. eauto.
Qed.
Print Assumptions C32_printing_a_histogram_terminates_partial.

(** with a value above 2^125 printing never ends: always in a release build, and in a debug
    build unless a value below -2^126 makes it panic first *)
Theorem C32_printing_large_values_never_ends_refuted :
  forall E inter s e w vals,
  evals E s e w (Ok (VArr (map VInt vals) true)) ->
  (forall v, In v vals -> - 2 ^ 127 <= v < 2 ^ 127)%Z ->
  (exists v, In v vals /\ 2 ^ 125 < v)%Z ->
  overflow_checks E = false \/ (forall v, In v vals -> - 2 ^ 126 <= v)%Z ->
  forall s' r, ~ runs E inter s (SPrint e) s' r.
Proof.
  intros E inter s e w vals He Hv (v & Hin & Hb) Hoc s' r Hr. apply (runs_print _ _ _ _ _ _ _ _ He) in Hr.
  assert (F : forall k, as_hist k (overflow_checks E) (map VInt vals) = Fuel).
  { intros k. pose proof (as_hist_mono k (Nat.max k 400) (overflow_checks E) (map VInt vals) ltac:(lia)) as M. unfold rmono in M.
    destruct (as_hist_big (Nat.max k 400) (overflow_checks E) vals ltac:(lia) ltac:(intros ->; destruct Hin) Hv) as [(_ & H)|[(H & _)|(H & Ho & x & Hx & Hl)]].
    - specialize (H v Hin). lia.
    - destruct (as_hist k (overflow_checks E) (map VInt vals)); try reflexivity; rewrite M in H by discriminate; discriminate.
    - destruct Hoc as [Hoc|Hoc]; [congruence|]. specialize (Hoc x Hx). lia. }
  destruct Hr as [(k & t & H & _)|[(k & t & H & _)|(k & t & H & _)]]; rewrite F in H; discriminate.
Qed.
Print Assumptions C32_printing_large_values_never_ends_refuted.
Example C32_example_hangs : evals (demo_env true) (hist_state [1; 2 ^ 126]%Z) (EIdent (s_ "h")) w0 (Ok (VArr (map VInt [1; 2 ^ 126]%Z) true)) /\
  (forall v, In v [1; 2 ^ 126]%Z -> - 2 ^ 126 <= v < 2 ^ 127)%Z /\ (exists v, In v [1; 2 ^ 126]%Z /\ 2 ^ 125 < v)%Z.
Proof. split; [apply hist_evals|]. split; [intros v [<-|[<-|[]]]; cbn; lia|]. exists (2 ^ 126)%Z. split; [cbn; tauto|reflexivity]. Qed.
Example C32_example_ends : exists s' r, evals (demo_env true) (hist_state [2 ^ 125; -7]%Z) (EIdent (s_ "h")) w0 (Ok (VArr (map VInt [2 ^ 125; -7]%Z) true)) /\
  runs (demo_env true) false (hist_state [2 ^ 125; -7]%Z) (SPrint (EIdent (s_ "h"))) s' r.
Proof. eexists _, _. split; [apply hist_evals|]. split; [|exists 400; vm_compute; reflexivity]. discriminate. Qed.
(** one can type it: `h = hist(); h += 1 << 126; print h;` *)
Example C32_example_session : snd (demo_run true true "h = hist(); h += 1 << 126; print h;") = RFuel.
Proof. vm_compute. reflexivity. Qed.

(** ** C33.  Every label of a printed histogram denotes exactly the bound of its bucket
    ([label] has a single reading).  Missing: the bucket that starts at -2^127, see below. *)
Theorem C33_labels_are_exact_partial :
  forall E inter s e w vals s' r,
  evals E s e w (Ok (VArr (map VInt vals) true)) -> vals <> [] ->
  (forall v, In v vals -> - 2 ^ 126 <= v <= 2 ^ 125)%Z ->
  runs E inter s (SPrint e) s' r ->
  exists bs a z text,
    do_write E (with_w s w) (text ++ nl) = (s', r) /\ buckets vals a bs z /\ diagram (zlen vals) bs text.
Proof.
  intros E inter s e w vals s' r He Hne Hv Hr. destruct (C31_histogram_buckets_partial _ _ _ _ _ _ _ _ He Hne Hv Hr) as (bs & a & z & text & Hw & Hd & Hb & _). eauto 8.
Qed.
Print Assumptions C33_labels_are_exact_partial.
Theorem C33_labels_have_one_reading : forall t z z', label t z -> label t z' -> z = z'.
Proof. exact label_fun. Qed.
Print Assumptions C33_labels_have_one_reading.

(** with a value below -2^126: panic in a debug build, and a bound that is no number in a
    release build *)
Theorem C33_least_bound_has_no_label_refuted :
  forall E inter s e w,
  evals E s e w (Ok (VArr [VInt (- 2 ^ 126 - 1)] true)) ->
  (overflow_checks E = true -> runs E inter s (SPrint e) (with_w s w) (IPanic PArith)) /\
  (overflow_checks E = false -> forall s' r, runs E inter s (SPrint e) s' r ->
     do_write E (with_w s w) (s_ "[--154742504910672534362390528T, -77371252455336267181195264T)     1 |@@@@@@@@@@@@@@@@@@@@@@@@@@@@@@@@@@@@@@@@@@@@@@@@@@|" ++ nl ++ nl) = (s', r)) /\
  forall z, ~ label (s_ "--154742504910672534362390528T") z.
Proof.
  intros E inter s e w He. split; [|split].
  - intros Ho. apply (runs_print _ _ _ _ _ _ _ _ He). right. right. exists 400, PArith. rewrite Ho. split; [vm_compute; reflexivity|auto].
  - intros Ho s' r Hr. apply (runs_print _ _ _ _ _ _ _ _ He) in Hr. rewrite Ho in Hr.
    set (text := s_ "[--154742504910672534362390528T, -77371252455336267181195264T)     1 |@@@@@@@@@@@@@@@@@@@@@@@@@@@@@@@@@@@@@@@@@@@@@@@@@@|" ++ nl).
    assert (Ht : as_hist 400 false [VInt (- 2 ^ 126 - 1)] = Ok text) by (vm_compute; reflexivity).
    assert (U : forall k r0, as_hist k false [VInt (- 2 ^ 126 - 1)] = r0 -> r0 <> Fuel -> r0 = Ok text).
    { intros k r0 H Hf. pose proof (as_hist_mono k (Nat.max k 400) false [VInt (- 2 ^ 126 - 1)] ltac:(lia)) as M1.
      pose proof (as_hist_mono 400 (Nat.max k 400) false [VInt (- 2 ^ 126 - 1)] ltac:(lia)) as M2. unfold rmono in *. rewrite Ht in M2. specialize (M2 ltac:(discriminate)).
      rewrite M1, H in M2 by congruence. exact M2. }
    assert (Hw : do_write E (with_w s w) (text ++ nl) = (s', r)).
    { clear Ht. clearbody text. destruct Hr as [(k & t & H & Hw)|[(k & err & H & _)|(k & p & H & _)]]; specialize (U k _ H ltac:(discriminate)); try discriminate. injection U as ->. exact Hw. }
    unfold text in Hw. rewrite <- app_assoc in Hw. exact Hw.
  - intros z H. inversion H as [ds n i sfx Hn Hne Hi E1|ds n i sfx Hn Hne Hi E1].
    + apply numeral_digits in Hn. destruct Hn as [|c ds Hc _]; [congruence|]. injection E1 as E1 _. unfold decimal in Hc. subst c. lia.
    + apply numeral_digits in Hn. destruct Hn as [|c ds Hc _]; [congruence|]. injection E1 as E1 _. unfold decimal in Hc. subst c. lia.
Qed.
Print Assumptions C33_least_bound_has_no_label_refuted.
Example C33_example : exists s', runs (demo_env true) true (hist_state [5; -3000; 70000]%Z) (SPrint (EIdent (s_ "h"))) s' IOk /\
  label (s_ "64K") 65536 /\ label (s_ "-4K") (-4096).
Proof.
  eexists. split; [split; [discriminate|exists 300; vm_compute; reflexivity]|]. split.
  - apply (label_pos (s_ "64") 64 1 (s_ "K")); [apply (dec_N_numeral 64)|discriminate|reflexivity].
  - apply (label_neg (s_ "4") 4 1 (s_ "K")); [apply (dec_N_numeral 4)|discriminate|reflexivity].
Qed.
