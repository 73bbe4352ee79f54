(** Counting the steps inside tokens as well: a token takes linearly many. *)
From Verif Require Import Base Ast Pom Parse PomSteps ParseSteps Lib Proof_Parse Proof_Steps Proof_StepsExpr Proof_StepsOps Proof_StepsStmt.
Require Import Lia.
Arguments s_ s%string_scope.
Arguments c_ a%char_scope.
Open Scope Z_scope.
(** ** Repetition *)
Lemma rep_lin {A} (p : cparser A) a b F : 0 <= a -> 0 <= b -> 0 <= F ->
  (forall i, wp p i (fun r c => zlen r < zlen i /\ c + a * zlen r <= a * zlen i + b) (fun c => c <= F)) ->
  forall n i, wp (crep_n n p) i (fun r c => zlen r <= zlen i /\ c + (a + b + 1) * zlen r <= (a + b + 1) * zlen i + F + 1) (fun c => c <= (a + b + 1) * zlen i + F + 1).
Proof.
  intros Ha Hb HF H. induction n as [|n IH]; intros i; pose proof (zlen_nonneg i) as Pi.
  - apply wp_rep_0. nia.
  - apply wp_rep_S. eapply wp_imp; [apply H| |]; cbv beta.
    + intros r c [H1 H2]. assert ((b + 1) * (zlen r + 1) <= (b + 1) * zlen i) as ?Pz by nia. pose proof (zlen_nonneg r) as ?Pz. eapply wp_imp; [apply IH| |]; cbv beta.
      * intros r' c' [H3 H4]. split; [lia|]. nia.
      * intros c' H3. nia.
    + intros c H1. split; [nia|]. split; [lia|]. nia.
Qed.
Lemma rep_n_nofail {A} (p : cparser A) n : forall i, fst (crep_n n p i) <> PFail.
Proof.
  induction n as [|n IH]; intros i; [discriminate|]. cbn [crep_n]. destruct (p i) as [[a r| |] c]; try discriminate. specialize (IH r). destruct (crep_n n p r) as [[| |] c']; try discriminate. exact IH.
Qed.
Lemma rep1_lin {A} (p : cparser A) a b F i : 0 <= a -> 0 <= b -> 0 <= F ->
  (forall i, wp p i (fun r c => zlen r < zlen i /\ c + a * zlen r <= a * zlen i + b) (fun c => c <= F)) -> fst (crep1 p i) <> PFuel ->
  wp (crep1 p) i (fun r c => zlen r < zlen i /\ c + (a + b + 1) * zlen r <= (a + b + 1) * zlen i + F + 2) (fun c => c <= F + 2).
Proof.
  intros Ha Hb HF H NF. pose proof (H i) as Hi. unfold wp, crep1, cconvert, crep in *. cbn [crep_n] in *.
  destruct (p i) as [[x r| |] c]; cbn [fst] in *; [|lia|lia].
  pose proof (rep_lin p a b F Ha Hb HF H (length i) r) as R. pose proof (rep_n_nofail p (length i) r) as NF'. unfold wp in R.
  destruct (crep_n (length i) p r) as [[l r'| |] c']; cbn [fst] in *; [|congruence|congruence].
  destruct Hi as [H1 H2], R as [R1 R2]. split; [lia|]. pose proof (zlen_nonneg r') as ?Pz. nia.
Qed.
Lemma rep1_nofuel {A} (p : cparser A) q R k i : er p q -> (forall N, sat N k R (prep1 q)) -> fst (crep1 p i) <> PFuel.
Proof.
  intros E S. rewrite (er_rep1 _ _ E i). specialize (S (1 + length i)%nat i ltac:(lia)). destruct (prep1 q i); [discriminate|discriminate|contradiction].
Qed.
(** ** Tokens *)
Lemma wp_is_a f i (ok : str -> Z -> Prop) (no : Z -> Prop) : (forall x r, i = x :: r -> ok r 1) -> no 1 -> wp (cprim (is_a f)) i ok no.
Proof. intros H H'. apply wp_prim. unfold is_a. destruct i as [|x r]; [exact H'|]. destruct (f x); [apply (H x r); reflexivity|exact H']. Qed.
(** one character, at bounded cost *)
Definition one {A} (K : Z) (p : cparser A) : Prop := forall i, wp p i (fun r c => zlen r < zlen i /\ c <= K) (fun c => c <= K).
Lemma one_is_a f : one 1 (cprim (is_a f)).
Proof. intros i. apply wp_is_a; [intros x r ->; rewrite zlen_cons; lia|lia]. Qed.
Lemma one_tag t : (0 < length t)%nat -> one 1 (cprim (tag t)).
Proof. intros H i. apply wp_tag; [intros r ->; rewrite zlen_app; unfold zlen; lia|lia]. Qed.
Lemma one_map {A B} (f : A -> B) p K : one K p -> one (K + 1) (cmap f p).
Proof. intros H i. apply wp_map. eapply wp_imp; [apply H| |]; cbv beta; intros; lia. Qed.
Lemma one_seq {A B} (p : cparser A) (p' : cparser B) K K' : one K p -> one K' p' -> one (K + Z.max 0 K' + 1) (cseq p p').
Proof.
  intros H H' i. apply wp_seq. eapply wp_imp; [apply H| |]; cbv beta.
  - intros r c [H1 H2]. eapply wp_imp; [apply H'| |]; cbv beta; intros; lia.
  - intros c H1. lia.
Qed.
Lemma one_right {A B} (p : cparser A) (p' : cparser B) K K' : one K p -> one K' p' -> one (K + Z.max 0 K' + 1 + 1) (cright p p').
Proof. intros. apply one_map, one_seq; assumption. Qed.
Lemma one_alt {A} (p p' : cparser A) K K' : one K p -> one K' p' -> one (K + Z.max 0 K' + 1) (calt p p').
Proof.
  intros H H' i. apply wp_alt. eapply wp_imp; [apply H| |]; cbv beta.
  - intros r c [H1 H2]. lia.
  - intros c H1. split; [lia|]. eapply wp_imp; [apply H'| |]; cbv beta; intros; lia.
Qed.
Lemma one_weaken {A} (p : cparser A) K K' : one K p -> K <= K' -> one K' p.
Proof. intros H HK i. eapply wp_imp; [apply H| |]; cbv beta; intros; lia. Qed.
Lemma one_lin {A} (p : cparser A) K i : 0 <= K -> one K p -> wp p i (fun r c => zlen r < zlen i /\ c + 0 * zlen r <= 0 * zlen i + K) (fun c => c <= K).
Proof. intros HK H. eapply wp_imp; [apply H| |]; cbv beta; intros; lia. Qed.
Ltac one1 := match goal with
  | |- one _ (cprim (tag _)) => apply one_tag; cbn; lia
  | |- one _ (cprim (sym _)) => apply one_is_a
  | |- one _ (cprim (one_of _)) => apply one_is_a
  | |- one _ (cprim (none_of _)) => apply one_is_a
  | |- one _ (cprim (is_a _)) => apply one_is_a
  | |- one _ (calt _ _) => eapply one_alt
  | |- one _ (cright _ _) => eapply one_right
  | |- one _ (cmap _ _) => eapply one_map
  | |- one _ (cseq _ _) => eapply one_seq
  end.
Lemma one_char : one 45 (calt (cprim (none_of [92; 34]%N)) k_escape_sequence).
Proof. eapply one_weaken; [unfold k_escape_sequence, k_special_char; repeat one1|lia]. Qed.
Lemma one_utf16 : one 45 k_utf16_char.
Proof.
  intros i. unfold k_utf16_char. apply wp_right, wp_tag; [|lia]. intros r ->. rewrite zlen_app. change (zlen [92%N; 117%N]) with 2. cbn [ctimes]. apply wp_map.
  assert (St : forall (p : cparser (list N)) K, 0 <= K -> (forall j, wp p j (fun r c => zlen r <= zlen j /\ c <= K) (fun c => c <= K)) ->
    forall j, wp (cmap (fun x : N * list N => fst x :: snd x) (cseq (cprim (is_a is_hex)) p)) j (fun r c => zlen r <= zlen j /\ c <= K + 3) (fun c => c <= K + 3)).
  { intros p K HK H j. apply wp_map, wp_seq, wp_is_a; [|lia]. intros x r0 ->. rewrite zlen_cons. eapply wp_imp; [apply H| |]; cbv beta; intros; lia. }
  eapply wp_imp; [apply (St _ 10); [lia|]; apply (St _ 7); [lia|]; apply (St _ 4); [lia|]; apply (St _ 1); [lia|]| |]; cbv beta.
  - intros j. unfold wp. lia.
  - intros r' c. lia.
  - intros c. lia.
Qed.
Lemma part_ok i : wp (calt k_char_string k_utf16_string) i (fun r c => zlen r < zlen i /\ c + 46 * zlen r <= 46 * zlen i + 100) (fun c => c <= 100).
Proof.
  apply wp_alt. unfold k_char_string, k_utf16_string.
  eapply wp_imp; [apply (rep1_lin _ 0 45 45); try lia|..]; cbv beta.
  - intros j. apply (one_lin _ 45); [lia|apply one_char].
  - eapply rep1_nofuel; [|exact sat_char_string]. unfold k_escape_sequence, escape_sequence, k_special_char, special_char. er.
  - intros r c [H1 H2]. lia.
  - intros c H. split; [lia|]. apply wp_map. eapply wp_imp; [apply (rep1_lin _ 0 45 45); try lia|..]; cbv beta.
    + intros j. apply (one_lin _ 45); [lia|apply one_utf16].
    + eapply (rep1_nofuel _ utf16_char _ 1); [unfold k_utf16_char, utf16_char; er|]. intros N. apply sat_rep1. apply sat_utf16_char.
    + intros r c' [H1 H2]. lia.
    + intros c' H1. lia.
Qed.
Definition lin {A} (p : cparser A) : Prop := forall i, wp p i (fun r c => zlen r <= zlen i /\ c <= 200 * (zlen i + 1)) (fun c => c <= 200 * (zlen i + 1)).
Lemma lin_string : lin (k_p_string false).
Proof.
  intros i. unfold k_p_string, crep.
  assert (Lx : forall {A} (p : cparser A) ok no, wp p i ok no -> wp (lexical false p) i ok no) by (intros A p ok no; unfold wp, lexical; destruct (p i); auto).
  apply Lx, wp_map, wp_left, wp_right. pose proof (zlen_nonneg i) as ?Pz. apply wp_sym; [|intros _; lia]. intros r ->. rewrite zlen_cons in *.
  eapply wp_imp; [apply (rep_lin _ 46 100 100 ltac:(lia) ltac:(lia) ltac:(lia) part_ok)| |]; cbv beta.
  - intros r1 c [H1 H2]. pose proof (zlen_nonneg r1) as ?Pz. apply wp_sym; [|intros _; lia]. intros r2 ->. rewrite zlen_cons in *. lia.
  - intros c H1. lia.
Qed.
Lemma wp_lexf {A} (p : cparser A) i ok no : wp p i ok no -> wp (lexical false p) i ok no.
Proof. unfold wp, lexical. destruct (p i); auto. Qed.
Lemma rep_is_a f i : wp (crep (cprim (is_a f))) i (fun r c => zlen r <= zlen i /\ c + 2 * zlen r <= 2 * zlen i + 2) (fun c => c <= 2 * zlen i + 2).
Proof.
  eapply wp_imp; [apply (rep_lin _ 0 1 1 ltac:(lia) ltac:(lia) ltac:(lia) (fun j => one_lin _ 1 j ltac:(lia) (one_is_a f)))| |]; cbv beta; [intros r c [H1 H2]|intros c H1]; lia.
Qed.
Lemma space_cost i : wp (k_space false) i (fun r c => zlen r <= zlen i /\ c <= 2 * zlen i + 10) (fun c => c <= 2 * zlen i + 10).
Proof.
  unfold k_space, cdiscard. apply wp_lexf, wp_map. pose proof (zlen_nonneg i) as ?Pz. eapply wp_imp; [apply rep_is_a| |]; cbv beta; [intros r c [H1 H2]|intros c H1]; [pose proof (zlen_nonneg r) as ?Pz|]; lia.
Qed.
Lemma ident_cost i : wp (k_ident false) i (fun r c => zlen r < zlen i /\ c <= 2 * zlen i + 10) (fun c => c <= 2 * zlen i + 10).
Proof.
  unfold k_ident, k_ident_name. apply wp_lexf, wp_map. pose proof (zlen_nonneg i) as ?Pz.
  assert (Co : forall {A} (p : cparser A) (ok : str -> Z -> Prop) (no : Z -> Prop), wp p i (fun r c => ok r (c + 1)) (fun c => no (c + 1)) -> wp (ccollect p) i ok no).
  { intros A p ok no. unfold wp, ccollect. destruct (p i) as [[| |] c]; auto. }
  apply Co, wp_seq, wp_is_a; [|lia]. intros x r ->. rewrite zlen_cons in *. eapply wp_imp; [apply rep_is_a| |]; cbv beta; [intros r' c [H1 H2]|intros c H1]; [pose proof (zlen_nonneg r') as ?Pz|]; lia.
Qed.
Lemma lin_constant : lin (k_constant false).
Proof.
  intros i. unfold k_constant. apply wp_lexf. pose proof (zlen_nonneg i) as ?Pz.
  assert (T : forall t b c0, c0 <= 2 * zlen i + 40 -> wp (cmap (fun _ => EBool b) (cprim (tag t))) i (fun r c => zlen r <= zlen i /\ c0 + c + 2 <= 2 * zlen i + 50) (fun c => c0 + c + 2 <= 2 * zlen i + 50)).
  { intros t b c0 H0. apply wp_map, wp_tag; [|lia]. intros r ->. rewrite zlen_app in *. pose proof (zlen_nonneg t) as ?Pz. lia. }
  assert (Nu : wp k_number i (fun r c => zlen r <= zlen i /\ c <= 2 * zlen i + 30) (fun c => c <= 2 * zlen i + 30)).
  { unfold k_number.
    assert (Co : forall {A} (p : cparser A) (ok : str -> Z -> Prop) (no : Z -> Prop), wp p i (fun r c => ok r (c + 2) /\ no (c + 2)) (fun c => no (c + 2)) -> wp (cconvert (ccollect p) i128_from_str) i ok no).
    { intros A p ok no. unfold wp, cconvert, ccollect. destruct (p i) as [[a r| |] c]; replace (c + 1 + 1) with (c + 2) by lia; auto. intros [H1 H2]. destruct (i128_from_str _); assumption. }
    apply Co, wp_seq, wp_opt.
    assert (I : forall j, zlen j <= zlen i -> wp k_integer j (fun r c => zlen r <= zlen j /\ c <= 2 * zlen j + 20) (fun c => c <= 2 * zlen j + 20)).
    { intros j Hj. pose proof (zlen_nonneg j) as ?Pz. unfold k_integer. apply wp_alt, wp_left, wp_is_a.
      - intros x r ->. rewrite zlen_cons in *. eapply wp_imp; [apply rep_is_a| |]; cbv beta.
        + intros r' c [H1 H2]. pose proof (zlen_nonneg r') as ?Pz. lia.
        + intros c H1. split; [lia|]. apply wp_sym; [|intros _; lia]. intros r' E. injection E as _ E; subst r'. lia.
      - split; [lia|]. apply wp_sym; [|intros _; lia]. intros r' ->. rewrite zlen_cons in *. lia. }
    apply wp_sym.
    - intros r E. assert (zlen r < zlen i) as ?Pz by (rewrite E, zlen_cons; lia). eapply wp_imp; [apply I; lia| |]; cbv beta; intros; lia.
    - intros _. split; [lia|]. eapply wp_imp; [apply I; lia| |]; cbv beta; intros; lia. }
  apply wp_alt, wp_map. eapply wp_imp; [exact Nu| |]; cbv beta.
  - intros r c H1. lia.
  - intros c H1. split; [lia|]. apply wp_alt.
    eapply wp_imp; [apply (T _ true (c + 1 + 1)); lia| |]; cbv beta.
    + intros r c' H2. lia.
    + intros c' H2. split; [lia|]. apply wp_map, wp_tag; [|lia]. intros r E. assert (zlen r <= zlen i) as ?Pz by (rewrite E, zlen_app; pose proof (zlen_nonneg (s_ "false")) as ?Pz; lia). lia.
Qed.
Lemma lin_space : lin (k_space false).
Proof. intros i. pose proof (zlen_nonneg i) as ?Pz. eapply wp_imp; [apply space_cost| |]; cbv beta; intros; lia. Qed.
Lemma lin_ident : lin (k_ident false).
Proof. intros i. pose proof (zlen_nonneg i) as ?Pz. eapply wp_imp; [apply ident_cost| |]; cbv beta; intros; lia. Qed.
Lemma lin_cast : lin (k_cast false).
Proof.
  intros i. unfold k_cast, k_type_specifier. apply wp_lexf, wp_map, wp_left, wp_left, wp_right, wp_right. pose proof (zlen_nonneg i) as ?Pz.
  apply wp_tag; [|lia]. intros r E. assert (zlen r <= zlen i) as ?Pz by (rewrite E, zlen_app; pose proof (zlen_nonneg (s_ "(")); lia). pose proof (zlen_nonneg r) as ?Pz.
  eapply wp_imp; [apply space_cost| |]; cbv beta; [|intros; lia]. intros r1 c1 [H1 H2]. pose proof (zlen_nonneg r1) as ?Pz.
  apply wp_map, wp_seq, wp_left, wp_tag; [|lia]. intros r2 E2. assert (zlen r2 <= zlen r1) as ?Pz by (rewrite E2, zlen_app; pose proof (zlen_nonneg (s_ "struct")) as ?Pz; lia). pose proof (zlen_nonneg r2) as ?Pz.
  eapply wp_imp; [apply space_cost| |]; cbv beta; [|intros; lia]. intros r3 c3 [H3 H4].
  eapply wp_imp; [apply ident_cost| |]; cbv beta; [|intros; lia]. intros r4 c4 [H5 H6].
  eapply wp_imp; [apply space_cost| |]; cbv beta; [|intros; lia]. intros r5 c5 [H7 H8].
  apply wp_tag; [|lia]. intros r6 E6. assert (zlen r6 <= zlen r5) as ?Pz by (rewrite E6, zlen_app; pose proof (zlen_nonneg (s_ ")")); lia). lia.
Qed.

(** ** All steps against rules *)
Section Rel.
Variables L U : Z.
Hypothesis HU : U = 200 * (L + 1).
Definition rel {A} (p p' : cparser A) : Prop := forall i, zlen i <= L ->
  fst (p i) = fst (p' i) /\ match fst (p' i) with POk _ r => zlen r <= zlen i | _ => True end /\ snd (p i) <= U * snd (p' i).
Lemma rel_lex {A} (p : cparser A) q : lin (lexical false p) -> er p q -> rel (lexical false p) (lexical true p).
Proof.
  intros H E i Hi. specialize (H i). unfold wp, lexical in *. destruct (p i) as [x c]. cbn [fst snd]. split; [reflexivity|]. destruct x as [a r| |]; (split; [try exact I; apply H|]); lia.
Qed.
Lemma rel_prim {A} (p : parser A) : (forall i, match p i with POk _ r => zlen r <= zlen i | _ => True end) -> rel (cprim p) (cprim p).
Proof. intros H i Hi. split; [reflexivity|]. split; [apply H|]. unfold cprim. cbn [snd]. pose proof (zlen_nonneg i). lia. Qed.
Lemma rel_map {A B} (f : A -> B) p p' : rel p p' -> rel (cmap f p) (cmap f p').
Proof.
  intros H i Hi. destruct (H i Hi) as (H1 & H2 & H3). pose proof (zlen_nonneg i) as Pi. unfold cmap. destruct (p i) as [x c], (p' i) as [x' c']. cbn [fst snd] in *. subst x'.
  destruct x; cbn [fst snd]; (split; [reflexivity|]; split; [auto|lia]).
Qed.
Lemma rel_seq {A B} (p p' : cparser A) (q q' : cparser B) : rel p p' -> rel q q' -> rel (cseq p q) (cseq p' q').
Proof.
  intros H H' i Hi. destruct (H i Hi) as (H1 & H2 & H3). pose proof (zlen_nonneg i) as Pi. unfold cseq. destruct (p i) as [x c], (p' i) as [x' c']. cbn [fst snd] in *. subst x'.
  destruct x as [a r| |]; cbn [fst snd]; [|split; [reflexivity|]; split; [auto|lia]..].
  destruct (H' r ltac:(lia)) as (K1 & K2 & K3). destruct (q r) as [y d], (q' r) as [y' d']. cbn [fst snd] in *. subst y'.
  destruct y as [b r'| |]; cbn [fst snd]; (split; [reflexivity|]; split; [try exact I; lia|lia]).
Qed.
Lemma rel_alt {A} (p p' q q' : cparser A) : rel p p' -> rel q q' -> rel (calt p q) (calt p' q').
Proof.
  intros H H' i Hi. destruct (H i Hi) as (H1 & H2 & H3). pose proof (zlen_nonneg i) as Pi. unfold calt. destruct (p i) as [x c], (p' i) as [x' c']. cbn [fst snd] in *. subst x'.
  destruct x as [a r| |]; cbn [fst snd]; [split; [reflexivity|]; split; [auto|lia]| |split; [reflexivity|]; split; [auto|lia]].
  destruct (H' i Hi) as (K1 & K2 & K3). destruct (q i) as [y d], (q' i) as [y' d']. cbn [fst snd] in *. subst y'. split; [reflexivity|]. split; [exact K2|lia].
Qed.
Lemma rel_opt {A} (p p' : cparser A) : rel p p' -> rel (copt p) (copt p').
Proof.
  intros H i Hi. destruct (H i Hi) as (H1 & H2 & H3). pose proof (zlen_nonneg i) as Pi. unfold copt. destruct (p i) as [x c], (p' i) as [x' c']. cbn [fst snd] in *. subst x'.
  destruct x as [a r| |]; cbn [fst snd]; (split; [reflexivity|]; split; [try exact I; lia|lia]).
Qed.
Lemma rel_rep_n {A} (p p' : cparser A) n : rel p p' -> rel (crep_n n p) (crep_n n p').
Proof.
  intros H. induction n as [|n IH]; intros i Hi; pose proof (zlen_nonneg i) as Pi; [cbn [crep_n fst snd]; split; [reflexivity|]; split; [exact I|lia]|].
  destruct (H i Hi) as (H1 & H2 & H3). cbn [crep_n]. destruct (p i) as [x c], (p' i) as [x' c']. cbn [fst snd] in *. subst x'.
  destruct x as [a r| |]; cbn [fst snd]; [|split; [reflexivity|]; split; [try exact I; lia|lia]..].
  destruct (IH r ltac:(lia)) as (K1 & K2 & K3). destruct (crep_n n p r) as [y d], (crep_n n p' r) as [y' d']. cbn [fst snd] in *. subst y'.
  destruct y as [b r'| |]; cbn [fst snd]; (split; [reflexivity|]; split; [try exact I; lia|lia]).
Qed.
Lemma rel_rep {A} (p p' : cparser A) : rel p p' -> rel (crep p) (crep p').
Proof. intros H i Hi. apply (rel_rep_n p p' (S (length i)) H i Hi). Qed.
Lemma rel_right {A B} (p p' : cparser A) (q q' : cparser B) : rel p p' -> rel q q' -> rel (cright p q) (cright p' q').
Proof. intros. apply rel_map, rel_seq; assumption. Qed.
Lemma rel_left {A B} (p p' : cparser A) (q q' : cparser B) : rel p p' -> rel q q' -> rel (cleft p q) (cleft p' q').
Proof. intros. apply rel_map, rel_seq; assumption. Qed.
Lemma rel_list {A B} (p p' : cparser A) (q q' : cparser B) : rel p p' -> rel q q' -> rel (clist p q) (clist p' q').
Proof.
  intros H H' i Hi. destruct (H i Hi) as (H1 & H2 & H3). pose proof (zlen_nonneg i) as Pi. unfold clist. destruct (p i) as [x c], (p' i) as [x' c']. cbn [fst snd] in *. subst x'.
  destruct x as [a r| |]; cbn [fst snd]; [|split; [reflexivity|]; split; [try exact I; lia|lia]..].
  destruct (rel_rep _ _ (rel_right _ _ _ _ H' H) r ltac:(lia)) as (K1 & K2 & K3). destruct (crep _ r) as [y d], (crep _ r) as [y' d']. cbn [fst snd] in *. subst y'.
  destruct y as [b r'| |]; cbn [fst snd]; (split; [reflexivity|]; split; [try exact I; lia|lia]).
Qed.
Lemma rel_tag t : rel (cprim (tag t)) (cprim (tag t)).
Proof.
  apply rel_prim. intros i. pose proof (sat_tag (1 + length i)%nat t i ltac:(lia)) as S. destruct (tag t i) as [a r| |]; auto. destruct S as (s & -> & _). rewrite zlen_app. pose proof (zlen_nonneg s). lia.
Qed.
Lemma rel_sym x : rel (cprim (sym x)) (cprim (sym x)).
Proof. apply rel_prim. intros i. unfold sym, is_a. destruct i as [|y r]; auto. destruct (N.eqb x y); auto. rewrite zlen_cons. lia. Qed.
Lemma rel_end : rel (cprim pend) (cprim pend).
Proof. apply rel_prim. intros i. unfold pend. destruct i; auto. lia. Qed.
Lemma rel_space : rel (k_space false) (k_space true).
Proof. unfold k_space. eapply rel_lex; [apply lin_space|er]. Qed.
Lemma rel_string : rel (k_p_string false) (k_p_string true).
Proof. eapply rel_lex; [apply lin_string|]. unfold k_char_string, char_string, k_utf16_string, utf16_string, k_utf16_char, utf16_char, k_escape_sequence, escape_sequence, k_special_char, special_char. er. Qed.
Lemma rel_constant : rel (k_constant false) (k_constant true).
Proof. unfold k_constant. eapply rel_lex; [apply lin_constant|]. unfold k_number, k_integer. er. Qed.
Lemma rel_ident : rel (k_ident false) (k_ident true).
Proof. unfold k_ident. eapply rel_lex; [apply lin_ident|]. unfold k_ident_name. er. Qed.
Ltac rel1 := match goal with
  | H : rel ?p ?q |- rel ?p ?q => exact H
  | |- rel (cprim (tag _)) _ => apply rel_tag
  | |- rel (cprim (sym _)) _ => apply rel_sym
  | |- rel (cprim pend) _ => apply rel_end
  | |- rel (calt _ _) _ => apply rel_alt
  | |- rel (copt _) _ => apply rel_opt
  | |- rel (crep _) _ => apply rel_rep
  | |- rel (cright _ _) _ => apply rel_right
  | |- rel (cleft _ _) _ => apply rel_left
  | |- rel (clist _ _) _ => apply rel_list
  | |- rel (cmap _ _) _ => apply rel_map
  | |- rel (cseq _ _) _ => apply rel_seq
  end.
Ltac rl := repeat rel1.
Lemma rel_lex2 {A} (p p' : cparser A) q : lin (lexical false p) -> er p q -> er p' q -> rel (lexical false p) (lexical true p').
Proof.
  intros H E E' i Hi. specialize (H i). specialize (E i). specialize (E' i). unfold wp, lexical in *. destruct (p i) as [x c], (p' i) as [x' c']. cbn [fst snd] in *. subst x'.
  split; [assumption|]. rewrite <- E. destruct x as [a r| |]; (split; [try exact I; apply H|]); lia.
Qed.
Lemma rel_cast : rel (k_cast false) (k_cast true).
Proof.
  unfold k_cast. eapply (rel_lex2 _ _ cast); [apply lin_cast|..]; unfold cast, k_type_specifier, type_specifier.
  - pose proof (er_space false). pose proof (er_ident false). er.
  - pose proof (er_space true). pose proof (er_ident true). er.
Qed.
Section Ex.
Variables (pe pe' : cparser expr).
Hypothesis He : rel pe pe'.
Lemma rel_primary : rel (k_primary_expr false pe) (k_primary_expr true pe').
Proof. pose proof rel_space. pose proof rel_constant. pose proof rel_ident. pose proof rel_string. unfold k_primary_expr, k_paren. rl. Qed.
Lemma rel_postfix : rel (k_postfix_expr false pe) (k_postfix_expr true pe').
Proof. pose proof rel_space. pose proof rel_primary. pose proof rel_ident. unfold k_postfix_expr, k_function_call, k_array_index, k_field_access, k_arg_list. rl. Qed.
Lemma rel_unary : rel (k_unary_expr false pe) (k_unary_expr true pe').
Proof. pose proof rel_space. pose proof rel_postfix. pose proof rel_cast. unfold k_unary_expr, k_unary_ops. rl. Qed.
Lemma rel_level ops next next' : rel ops ops -> rel next next' -> rel (k_binary_level false ops next) (k_binary_level true ops next').
Proof. intros. pose proof rel_space. unfold k_binary_level. rl. Qed.
Lemma rel_level1 ops next next' : rel ops ops -> rel next next' -> rel (k_single_level false ops next) (k_single_level true ops next').
Proof. apply rel_level. Qed.
Lemma rel_or : rel (k_or_expr false pe) (k_or_expr true pe').
Proof.
  unfold k_or_expr, k_and_expr, k_bit_or_expr, k_bit_xor_expr, k_bit_and_expr.
  repeat (apply rel_level1; [unfold k_op_tag; rl|]). unfold k_eq_expr.
  assert (rel (k_relation_expr false pe) (k_relation_expr true pe')).
  { unfold k_relation_expr, k_shift_expr, k_add_expr, k_mult_expr.
    repeat (apply rel_level; [unfold k_relation_ops, k_shift_ops, k_add_ops, k_mult_ops, k_op_tag; rl|]). apply rel_unary. }
  pose proof rel_space. unfold k_eq_ops, k_op_tag. rl.
Qed.
End Ex.
Lemma rel_expr_f f : rel (k_p_expr_f false f) (k_p_expr_f true f).
Proof.
  induction f as [|f IH]; [intros i Hi; pose proof (zlen_nonneg i); cbn [k_p_expr_f fst snd]; split; [reflexivity|]; split; [exact I|lia]|].
  cbn [k_p_expr_f]. apply rel_right; [apply rel_space|]. apply rel_or. exact IH.
Qed.
Lemma rel_expr : rel (k_p_expr false) (k_p_expr true).
Proof. intros i Hi. rewrite !k_p_expr_eq. apply rel_expr_f. exact Hi. Qed.
Lemma rel_stmt ps ps' : rel ps ps' -> rel (k_p_stmt false ps) (k_p_stmt true ps').
Proof.
  intros Hs. pose proof rel_space. pose proof rel_expr. pose proof rel_ident. pose proof rel_string.
  unfold k_p_stmt, k_stmt_semicolon, k_builtin_stmt, k_jump_stmt, k_assign_stmt, k_expr_stmt, k_filesystem_stmt, k_print_stmt, k_help_stmt, k_quit_stmt, k_plus_equals, k_minus_equals, k_regular_assign, k_block_stmt, k_if_else_stmt, k_if_stmt, k_else_stmt, k_while_stmt, k_for_stmt.
  rl.
Qed.
Lemma rel_stmts_f f : rel (k_p_stmts_f false f) (k_p_stmts_f true f).
Proof.
  induction f as [|f IH]; [intros i Hi; pose proof (zlen_nonneg i); cbn [k_p_stmts_f fst snd]; split; [reflexivity|]; split; [exact I|lia]|].
  cbn [k_p_stmts_f]. apply rel_rep, rel_stmt, IH.
Qed.
Lemma rel_program : rel (k_program false) (k_program true).
Proof.
  assert (rel (k_p_stmts false) (k_p_stmts true)) by (intros i Hi; unfold k_p_stmts; apply (rel_stmts_f (S (length i)) i Hi)).
  pose proof rel_space. unfold k_program. rl.
Qed.
End Rel.
(** ** The bounds *)
Lemma steps_rules i : parse_steps i <= 200 * (zlen i + 1) * parse_rules i.
Proof. unfold parse_steps, parse_rules. exact (proj2 (proj2 (rel_program (zlen i) _ eq_refl i ltac:(lia)))). Qed.
Lemma steps_bound i : parse_steps i <= 40000000 * (zlen i + 1) ^ 3.
Proof.
  pose proof (steps_rules i) as H. pose proof (rules_bound i) as H'. pose proof (zlen_nonneg i) as P.
  assert (200 * (zlen i + 1) * parse_rules i <= 200 * (zlen i + 1) * (20 * (AA * zlen i + 4000) * (zlen i + 1))) by (apply Z.mul_le_mono_nonneg_l; lia).
  replace ((zlen i + 1) ^ 3) with ((zlen i + 1) * (zlen i + 1) * (zlen i + 1)) by ring. set (m := zlen i + 1) in *. assert (1 <= m) by lia.
  assert (200 * m * (20 * (AA * zlen i + 4000) * m) <= 40000000 * (m * m * m)).
  { replace (200 * m * (20 * (AA * zlen i + 4000) * m)) with (4000 * (m * m) * (AA * zlen i + 4000)) by ring.
    replace (40000000 * (m * m * m)) with (4000 * (m * m) * (10000 * m)) by ring. apply Z.mul_le_mono_nonneg_l; [nia|lia]. }
  lia.
Qed.
Lemma expr_steps i : snd (k_p_expr true i) <= AA * zlen i + 4000.
Proof. pose proof (expr_ok i) as H. unfold wp in H. pose proof (zlen_nonneg i). destruct (k_p_expr true i) as [[a r| |] c]; cbn [snd]; [|exact H..]. destruct H as [H1 H2]. pose proof (W_le stZ r). lia. Qed.
