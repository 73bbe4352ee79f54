(** The number of rules tried on a program is at most quadratic in its length. *)
From Verif Require Import Base Ast Pom Parse PomSteps ParseSteps Lib Proof_Parse Proof_Steps Proof_StepsExpr Proof_StepsOps Proof_StepsElse.
Require Import Lia.
Arguments s_ s%string_scope.
Arguments c_ a%char_scope.
Open Scope Z_scope.
Lemma zlen_app {A} (a b : list A) : zlen (a ++ b) = zlen a + zlen b.
Proof. unfold zlen. rewrite app_length. lia. Qed.
Lemma wp_tag t i (ok : str -> Z -> Prop) (no : Z -> Prop) :
  (forall r, i = t ++ r -> ok r 1) -> (tag t i = PFail -> no 1) -> wp (cprim (tag t)) i ok no.
Proof.
  intros H H'. apply wp_prim. pose proof (sat_tag (1 + length i)%nat t i ltac:(lia)) as S. destruct (tag t i) as [a r| |]; [| |contradiction].
  - destruct S as (s & E & _ & -> & _). apply H. exact E.
  - apply H'. reflexivity.
Qed.
(** the word else and an opening brace *)
Definition elsew (h : str) : bool :=
  match tag (s_ "else") h with POk _ s => match skip s with x :: _ => (x =? 123)%N | [] => false end | _ => false end.
Definition closed (h : str) : bool := match h with x :: _ => (x =? 125)%N | [] => true end.
Lemma elsew_cases h : elsew h = true -> exists s j, h = s_ "else" ++ s /\ skip s = 123%N :: j.
Proof.
  unfold elsew. pose proof (sat_tag (1 + length h)%nat (s_ "else") h ltac:(lia)) as S. destruct (tag (s_ "else") h) as [a s| |]; try discriminate.
  destruct S as (t & E & _ & -> & _). destruct (skip s) as [|x j] eqn:K; [discriminate|]. intros Q. apply N.eqb_eq in Q. subst x. exists s, j. split; [exact E|exact K].
Qed.
Lemma tag_else s : tag (s_ "else") (s_ "else" ++ s) = POk (s_ "else") s.
Proof. reflexivity. Qed.
Lemma skip_split s : exists u, s = u ++ skip s /\ forall x, In x u -> mem_char space_chars x = true.
Proof.
  induction s as [|c r [u [E Hu]]]; cbn [skip]; [exists []; split; [reflexivity|intros ? []]|]. destruct (mem_char space_chars c) eqn:M.
  - exists (c :: u). split; [cbn; congruence|]. intros x [<-|Hx]; auto.
  - exists []. split; [reflexivity|intros ? []].
Qed.
Lemma else_no_statement h a r : elsew h = true -> stmt_semicolon h = POk a r -> False.
Proof.
  intros H. destruct (elsew_cases _ H) as (s & j & -> & K). destruct (skip_split s) as (u & E & Hu). rewrite K in E. rewrite E, app_assoc.
  apply no_statement. intros x Hx. apply in_app_or in Hx. destruct Hx as [Hx|Hx].
  - vm_compute in Hx. decompose [or] Hx; subst; try contradiction; repeat split; discriminate.
  - specialize (Hu x Hx). repeat split; intros ->; discriminate Hu.
Qed.
Section Bound.
Variables L E0 Q q : Z.
Hypothesis HL : 0 <= L.
Hypothesis HE : E0 = AA * L + 4000.
Hypothesis HQ : Q = 20 * E0.
Hypothesis Hq : q = 12 * E0.
(** ** Statements that end with a semicolon *)
Definition bnd {A} (K : Z) (p : cparser A) : Prop :=
  forall i, zlen i <= L -> wp p i (fun r c => zlen r <= zlen i /\ c <= K) (fun c => c <= K).
Lemma bnd_map {A B} (f : A -> B) p K : bnd K p -> bnd (K + 1) (cmap f p).
Proof. intros H i Hi. apply wp_map. eapply wp_imp; [apply H, Hi| |]; cbv beta; intros; intuition lia. Qed.
Lemma bnd_seq {A B} (p : cparser A) (p' : cparser B) K K' : bnd K p -> bnd K' p' -> bnd (K + Z.max 0 K' + 1) (cseq p p').
Proof.
  intros H H' i Hi. apply wp_seq. eapply wp_imp; [apply H, Hi| |]; cbv beta.
  - intros r c [H1 H2]. eapply wp_imp; [apply H'; lia| |]; cbv beta; intros; intuition lia.
  - intros c H1. lia.
Qed.
Lemma bnd_left {A B} (p : cparser A) (p' : cparser B) K K' : bnd K p -> bnd K' p' -> bnd (K + Z.max 0 K' + 1 + 1) (cleft p p').
Proof. intros. apply bnd_map, bnd_seq; assumption. Qed.
Lemma bnd_right {A B} (p : cparser A) (p' : cparser B) K K' : bnd K p -> bnd K' p' -> bnd (K + Z.max 0 K' + 1 + 1) (cright p p').
Proof. intros. apply bnd_map, bnd_seq; assumption. Qed.
Lemma bnd_alt {A} (p : cparser A) (p' : cparser A) K K' : bnd K p -> bnd K' p' -> bnd (K + Z.max 0 K' + 1) (calt p p').
Proof.
  intros H H' i Hi. apply wp_alt. eapply wp_imp; [apply H, Hi| |]; cbv beta.
  - intros r c [H1 H2]. lia.
  - intros c H1. split; [lia|]. eapply wp_imp; [apply H'; lia| |]; cbv beta; intros; intuition lia.
Qed.
Lemma bnd_tag t : bnd 1 (cprim (tag t)).
Proof. intros i Hi. apply wp_tag; [|lia]. intros r ->. rewrite zlen_app. pose proof (zlen_nonneg t). lia. Qed.
Lemma bnd_sym x : bnd 1 (cprim (sym x)).
Proof. intros i Hi. apply wp_sym; [|lia]. intros r ->. rewrite zlen_cons. lia. Qed.
Lemma bnd_space : bnd 1 (k_space true).
Proof. intros i Hi. apply wp_space. pose proof (skip_len i). lia. Qed.
Lemma bnd_string : bnd 1 (k_p_string true).
Proof.
  intros i Hi. unfold k_p_string. eapply sat_wp; [|apply sat_p_string|intros; split; lia|lia].
  unfold p_string. unfold k_char_string, char_string, k_utf16_string, utf16_string, k_utf16_char, utf16_char, k_escape_sequence, escape_sequence, k_special_char, special_char. er.
Qed.
Lemma bnd_expr : bnd E0 (k_p_expr true).
Proof.
  intros i Hi. eapply wp_imp; [apply expr_ok| |]; cbv beta.
  - intros r c [H1 H2]. pose proof (W_le stZ r). lia.
  - intros c H. lia.
Qed.
Ltac bnd1 := match goal with
  | H : bnd _ ?p |- bnd _ ?p => exact H
  | |- bnd _ (cprim (tag _)) => apply bnd_tag
  | |- bnd _ (cprim (sym _)) => apply bnd_sym
  | |- bnd _ (calt _ _) => eapply bnd_alt
  | |- bnd _ (cright _ _) => eapply bnd_right
  | |- bnd _ (cleft _ _) => eapply bnd_left
  | |- bnd _ (cmap _ _) => eapply bnd_map
  | |- bnd _ (cseq _ _) => eapply bnd_seq
  end.
Lemma bnd_weaken {A} (p : cparser A) K K' : bnd K p -> K <= K' -> bnd K' p.
Proof. intros H HK i Hi. eapply wp_imp; [apply H, Hi| |]; cbv beta; intros; intuition lia. Qed.
Lemma semicolon_ok i : zlen i <= L -> wp (k_stmt_semicolon true) i (fun r c => zlen r < zlen i /\ c <= 9 * E0) (fun c => c <= 9 * E0).
Proof.
  intros Hi. unfold k_stmt_semicolon. apply wp_left.
  assert (B : bnd (9 * E0 - 10) (cleft (calt (k_builtin_stmt true) (calt k_jump_stmt (calt (k_assign_stmt true) (k_expr_stmt true)))) (k_space true))).
  { pose proof bnd_space. pose proof bnd_string. pose proof bnd_expr. eapply bnd_weaken.
    - unfold k_builtin_stmt, k_jump_stmt, k_assign_stmt, k_expr_stmt, k_filesystem_stmt, k_print_stmt, k_help_stmt, k_quit_stmt, k_plus_equals, k_minus_equals, k_regular_assign. repeat bnd1.
    - lia. }
  eapply wp_imp; [apply B, Hi| |]; cbv beta.
  - intros r c [H1 H2]. apply wp_sym; [|lia]. intros r' ->. rewrite zlen_cons in H1. lia.
  - intros c H. lia.
Qed.
(** ** Blocks *)
Definition X (r : str) : Z := if elsew (skip r) then Q * zlen r else 0.
Definition V (r : str) : Z := if closed (skip r) then 0 else Q * zlen r.
Lemma Qmul a b k : a + k <= b -> Q * a + k * Q <= Q * b.
Proof. intros H. assert (0 <= Q) by lia. nia. Qed.
Lemma X_bounds r : 0 <= X r <= Q * zlen r.
Proof. unfold X. pose proof (Qmul 0 (zlen r) 0). pose proof (zlen_nonneg r). destruct (elsew _); lia. Qed.
Lemma V_bounds r : 0 <= V r <= Q * zlen r.
Proof. unfold V. pose proof (Qmul 0 (zlen r) 0). pose proof (zlen_nonneg r). destruct (closed _); lia. Qed.
Section Stmts.
Variable pss : cparser (list stmt).
Hypothesis pss_ok : forall i, zlen i <= L ->
  wp pss i (fun r c => zlen r <= zlen i /\ c + Q * zlen r <= Q * zlen i + q + V r) (fun c => c <= Q * zlen i + q).
(** the body of a block, after its brace *)
Lemma body_ok {A} (p : cparser A) (T : Prop) i K (ok : str -> Z -> Prop) (no : Z -> Prop) :
  0 <= K -> zlen i <= L ->
  wp p i (fun r c => zlen r < zlen i /\ c <= K /\ T) (fun c => no (c + 5)) ->
  (forall r c, zlen r < zlen i -> T -> c + Q * zlen r + 2 * Q <= Q * zlen i + q + K + 20 -> ok r c) ->
  (forall c, c + Q <= Q * zlen i + q + K + 20 -> T -> no c) ->
  wp (cleft (cleft (cseq p pss) (k_space true)) (cprim (sym (c_ "}")))) i ok no.
Proof.
  intros HK Hi Hp Hok Hno. apply wp_left, wp_left, wp_seq.
  eapply wp_imp; [exact Hp| |]; cbv beta.
  - intros r c [H1 [H2 HT]].
    pose proof (zlen_nonneg r). eapply wp_imp; [apply pss_ok; lia| |]; cbv beta.
    + intros r2 c2 [H3 H4]. apply wp_space. pose proof (skip_len r2) as Ls. apply wp_sym.
      * intros r' E. rewrite E, zlen_cons in Ls. assert (V r2 = 0) by (unfold V; rewrite E; reflexivity).
        pose proof (Qmul (zlen r) (zlen i) 1 ltac:(lia)). pose proof (Qmul (zlen r') (zlen r2) 1 ltac:(lia)). apply Hok; try lia; exact HT.
      * intros _. pose proof (V_bounds r2). pose proof (Qmul (zlen r) (zlen i) 1 ltac:(lia)). apply Hno; [lia|exact HT].
    + intros c2 H3. pose proof (Qmul (zlen r) (zlen i) 1 ltac:(lia)). apply Hno; [lia|exact HT].
  - intros c H. replace (c + 1 + 2 + 2) with (c + 5) by lia. exact H.
Qed.
Definition quiet (i : str) (c : Z) : Prop := c <= 100 \/ (c <= Q * zlen i + 100 /\ closed i = false /\ elsew i = false).
Definition keyword (t : str) : Prop := In t [s_ "if"; s_ "while"; s_ "for"].
Lemma keyword_start t j : keyword t -> closed (t ++ j) = false /\ elsew (t ++ j) = false /\ zlen t >= 2 /\ (forall t', keyword t' -> t' <> t -> tag t' (t ++ j) = PFail).
Proof.
  intros H. unfold keyword in H. cbn [In] in H. decompose [or] H; try contradiction; subst t; (split; [reflexivity|]; split; [reflexivity|]; split; [vm_compute; discriminate|]);
    intros t' Ht' Ne; unfold keyword in Ht'; cbn [In] in Ht'; decompose [or] Ht'; try contradiction; subst t'; try congruence; reflexivity.
Qed.
(** the header of an if or a while *)
Lemma cond_ok t i : keyword t -> zlen i <= L ->
  wp (cleft (cleft (cright (cprim (tag t)) (k_p_expr true)) (k_space true)) (cprim (sym (c_ "{")))) i
    (fun r c => zlen r < zlen i /\ c <= E0 + 20 /\ exists j, i = t ++ j) (fun c => c <= 20 \/ (exists j, i = t ++ j) /\ c <= E0 + 20).
Proof.
  intros Ht Hi. apply wp_left, wp_left, wp_right, wp_tag.
  - intros j ->. rewrite zlen_app in *. destruct (keyword_start t j Ht) as (_ & _ & Lt & _). eapply wp_imp; [apply bnd_expr; lia| |]; cbv beta.
    + intros r c [H1 H2]. apply wp_space. pose proof (skip_len r) as Ls. apply wp_sym.
      * intros r' E. rewrite E, zlen_cons in Ls. split; [lia|]. split; [lia|eauto].
      * intros _. right. split; [eauto|lia].
    + intros c H. right. split; [eauto|lia].
  - intros _. left. lia.
Qed.
Lemma for_head_ok i : zlen i <= L ->
  wp (cleft (cleft (cseq (cleft (cleft (cright (cright (cprim (tag (s_ "for"))) (k_space true)) (k_ident true)) (k_space true)) (cprim (tag (s_ "in")))) (k_p_expr true)) (k_space true)) (cprim (sym (c_ "{")))) i
    (fun r c => zlen r < zlen i /\ c <= E0 + 40 /\ exists j, i = s_ "for" ++ j) (fun c => c <= 20 \/ (exists j, i = s_ "for" ++ j) /\ c <= E0 + 40).
Proof.
  intros Hi. apply wp_left, wp_left, wp_seq, wp_left, wp_left, wp_right, wp_right, wp_tag.
  - intros j ->. rewrite zlen_app in *. assert (zlen (s_ "for") = 3) by reflexivity. apply wp_space. pose proof (skip_len j). unfold k_ident, k_ident_name. eapply sat_wp; [|apply sat_ident| |].
    + unfold ident, ident_name. er.
    + intros r1 H1. apply wp_space. pose proof (skip_len r1). apply wp_tag.
      * intros r2 E2. assert (L2 : zlen r2 + 2 = zlen (skip r1)) by (rewrite E2, zlen_app; change (zlen (s_ "in")) with 2; lia). eapply wp_imp; [apply bnd_expr; lia| |]; cbv beta.
        -- intros r c [H3 H4]. apply wp_space. pose proof (skip_len r) as Ls. apply wp_sym.
           ++ intros r' E. rewrite E, zlen_cons in Ls. split; [lia|]. split; [lia|eauto].
           ++ intros _. right. split; [eauto|lia].
        -- intros c H4. right. split; [eauto|lia].
      * intros _. right. split; [eauto|lia].
    + right. split; [eauto|lia].
  - intros _. left. lia.
Qed.
Lemma else_ok r (ok : str -> Z -> Prop) (no : Z -> Prop) : zlen r <= L ->
  (forall r' c, zlen r' <= zlen r -> c + Q * zlen r' <= Q * zlen r -> ok r' c) ->
  (forall c, c <= X r + 20 -> no c) -> wp (k_else_stmt true pss) r ok no.
Proof.
  intros Hr Hok Hno. pose proof (X_bounds r) as Xb. unfold k_else_stmt. apply wp_left, wp_left, wp_right, wp_right, wp_right, wp_right, wp_space. pose proof (skip_len r) as L0. apply wp_tag.
  - intros s Es. apply wp_space. pose proof (skip_len s) as L1. apply wp_sym.
    + intros j Ej. assert (EX : X r = Q * zlen r).
      { unfold X, elsew. rewrite Es, tag_else, Ej. reflexivity. }
      rewrite Ej, zlen_cons in L1. rewrite Es, zlen_app in L0. assert (zlen (s_ "else") = 4) by reflexivity. pose proof (zlen_nonneg j).
      pose proof (Qmul (zlen j) (zlen r) 1 ltac:(lia)).
      eapply wp_imp; [apply pss_ok; lia| |]; cbv beta.
      * intros r2 c2 [H3 H4]. apply wp_space. pose proof (skip_len r2) as Ls. apply wp_sym.
        -- intros r' E. rewrite E, zlen_cons in Ls. assert (V r2 = 0) by (unfold V; rewrite E; reflexivity). pose proof (Qmul (zlen r') (zlen r2) 1 ltac:(lia)). apply Hok; lia.
        -- intros _. pose proof (V_bounds r2). apply Hno. lia.
      * intros c2 H3. apply Hno. lia.
    + intros _. apply Hno. lia.
  - intros _. apply Hno. lia.
Qed.
Definition starts (t i : str) : Prop := exists j, i = t ++ j.
Definition blk (t i r : str) (c : Z) : Prop := zlen r < zlen i /\ starts t i /\ c + Q * zlen r + Q + 200 <= Q * zlen i + X r.
Definition nblk (t i : str) (c : Z) : Prop := c <= 32 \/ starts t i /\ c + 100 <= Q * zlen i.
Lemma ifelse_ok i : zlen i <= L -> wp (k_if_else_stmt true pss) i (blk (s_ "if") i) (nblk (s_ "if") i).
Proof.
  intros Hi. unfold k_if_else_stmt, k_if_stmt. apply wp_map, wp_seq.
  assert (Kif : keyword (s_ "if")) by (left; reflexivity).
  apply (body_ok _ (starts (s_ "if") i) i (E0 + 20)); [lia|exact Hi| | |].
  - eapply wp_imp; [apply (cond_ok (s_ "if") i Kif Hi)| |]; cbv beta.
    + intros r c H. exact H.
    + intros c [H|[[j H] H']]; [left; lia|]. right. split; [exists j; exact H|].
      rewrite H. rewrite zlen_app. change (zlen (s_ "if")) with 2. pose proof (zlen_nonneg j). pose proof (Qmul 0 (2 + zlen j) 2). lia.
  - intros r c H1 HT H2. apply wp_opt. apply else_ok; [lia| |].
    + intros r' c' H3 H4. pose proof (X_bounds r'). split; [lia|]. split; [exact HT|lia].
    + intros c' H3. split; [right; split; [exact HT|]|split; [exact H1|]; split; [exact HT|lia]]. pose proof (X_bounds r). lia.
  - intros c H HT. right. split; [exact HT|lia].
Qed.
Lemma while_ok i : zlen i <= L -> wp (k_while_stmt true pss) i (blk (s_ "while") i) (nblk (s_ "while") i).
Proof.
  intros Hi. unfold k_while_stmt. apply wp_map.
  assert (Kif : keyword (s_ "while")) by (right; left; reflexivity).
  apply (body_ok _ (starts (s_ "while") i) i (E0 + 20)); [lia|exact Hi| | |].
  - eapply wp_imp; [apply (cond_ok (s_ "while") i Kif Hi)| |]; cbv beta.
    + intros r c H. exact H.
    + intros c [H|[[j H] H']]; [left; lia|]. right. split; [exists j; exact H|].
      rewrite H. rewrite zlen_app. change (zlen (s_ "while")) with 5. pose proof (zlen_nonneg j). pose proof (Qmul 0 (5 + zlen j) 5). lia.
  - intros r c H1 HT H2. pose proof (X_bounds r). split; [exact H1|]. split; [exact HT|lia].
  - intros c H HT. right. split; [exact HT|lia].
Qed.
Lemma for_ok i : zlen i <= L -> wp (k_for_stmt true pss) i (blk (s_ "for") i) (nblk (s_ "for") i).
Proof.
  intros Hi. unfold k_for_stmt. apply wp_map.
  apply (body_ok _ (starts (s_ "for") i) i (E0 + 40)); [lia|exact Hi| | |].
  - eapply wp_imp; [apply (for_head_ok i Hi)| |]; cbv beta.
    + intros r c H. exact H.
    + intros c [H|[[j H] H']]; [left; lia|]. right. split; [exists j; exact H|].
      rewrite H. rewrite zlen_app. change (zlen (s_ "for")) with 3. pose proof (zlen_nonneg j). pose proof (Qmul 0 (3 + zlen j) 3). lia.
  - intros r c H1 HT H2. pose proof (X_bounds r). split; [exact H1|]. split; [exact HT|lia].
  - intros c H HT. right. split; [exact HT|lia].
Qed.
Lemma starts_one t t' i : keyword t -> keyword t' -> t <> t' -> starts t i -> starts t' i -> False.
Proof.
  intros H H' N [j E] [j' E']. destruct (keyword_start t j H) as (_ & _ & _ & K). specialize (K t' H' (not_eq_sym N)). rewrite <- E in K. rewrite E' in K.
  unfold keyword in H'. cbn [In] in H'. decompose [or] H'; try contradiction; subst t'; discriminate K.
Qed.
Lemma block_ok i : zlen i <= L ->
  wp (k_block_stmt true pss) i (fun r c => zlen r < zlen i /\ elsew i = false /\ c + Q * zlen r + Q <= Q * zlen i + X r) (quiet i).
Proof.
  intros Hi. pose proof (zlen_nonneg i) as Pi. pose proof (Qmul 0 (zlen i) 0 ltac:(lia)) as Pq.
  assert (Kif : keyword (s_ "if")) by (left; reflexivity).
  assert (Kwh : keyword (s_ "while")) by (right; left; reflexivity).
  assert (Kfo : keyword (s_ "for")) by (right; right; left; reflexivity).
  assert (N1 : s_ "if" <> s_ "while") by discriminate. assert (N2 : s_ "if" <> s_ "for") by discriminate. assert (N3 : s_ "while" <> s_ "for") by discriminate.
  assert (Big : forall t c, keyword t -> starts t i -> c <= Q * zlen i + 100 -> quiet i c).
  { intros t c Kt [j E] C. destruct (keyword_start t j Kt) as (K1 & K2 & _). rewrite <- E in *. right. split; [lia|]. split; assumption. }
  assert (NE : forall t, keyword t -> starts t i -> elsew i = false) by (intros t Kt [j E]; rewrite E; apply (keyword_start t j Kt)).
  unfold k_block_stmt. apply wp_alt. eapply wp_imp; [apply (ifelse_ok i Hi)| |]; cbv beta.
  { intros r c (H1 & H2 & H3). split; [lia|]. split; [exact (NE _ Kif H2)|lia]. }
  intros c0 C0. split. { destruct C0 as [C0|[S C0]]; [left; lia|apply (Big _ _ Kif S); lia]. }
  apply wp_alt. eapply wp_imp; [apply (while_ok i Hi)| |]; cbv beta.
  { intros r c (H1 & H2 & H3). destruct C0 as [C0|[S C0]]; [split; [lia|]; split; [exact (NE _ Kwh H2)|lia]|destruct (starts_one _ _ _ Kif Kwh N1 S H2)]. }
  intros c1 C1. split. { destruct C0 as [C0|[S C0]], C1 as [C1|[S1 C1]]; [left; lia|apply (Big _ _ Kwh S1); lia|apply (Big _ _ Kif S); lia|destruct (starts_one _ _ _ Kif Kwh N1 S S1)]. }
  eapply wp_imp; [apply (for_ok i Hi)| |]; cbv beta.
  { intros r c (H1 & H2 & H3). destruct C0 as [C0|[S C0]]; [|destruct (starts_one _ _ _ Kif Kfo N2 S H2)]. destruct C1 as [C1|[S C1]]; [split; [lia|]; split; [exact (NE _ Kfo H2)|lia]|destruct (starts_one _ _ _ Kwh Kfo N3 S H2)]. }
  intros c2 C2. destruct C0 as [C0|[S0 C0]], C1 as [C1|[S1 C1]], C2 as [C2|[S2 C2]];
    first [left; lia | apply (Big _ _ Kif S0); lia | apply (Big _ _ Kwh S1); lia | apply (Big _ _ Kfo S2); lia
          | destruct (starts_one _ _ _ Kif Kwh N1 S0 S1) | destruct (starts_one _ _ _ Kif Kfo N2 S0 S2) | destruct (starts_one _ _ _ Kwh Kfo N3 S1 S2)].
Qed.
(** ** Statements and their sequences *)
Lemma semis_ok n : forall r, zlen r <= L -> wp (crep_n n (cright (k_space true) (cprim (sym (c_ ";"))))) r
  (fun r' c => zlen r' <= zlen r /\ c + Q * zlen r' <= Q * zlen r + 10 /\ (elsew (skip r) = true -> r' = r)) (fun c => c <= Q * zlen r + 10).
Proof.
  induction n as [|n IH]; intros r Hr; pose proof (zlen_nonneg r) as Pr; pose proof (Qmul 0 (zlen r) 0 ltac:(lia)) as Pq; [apply wp_rep_0; lia|].
  apply wp_rep_S, wp_right, wp_space. pose proof (skip_len r) as Ls. apply wp_sym.
  - intros r1 E. rewrite E in *. rewrite zlen_cons in Ls. pose proof (Qmul (zlen r1) (zlen r) 1 ltac:(lia)) as Pq1. eapply wp_imp; [apply IH; lia| |]; cbv beta.
    + intros r' c (H1 & H2 & _). split; [lia|]. split; [lia|]. intros F. discriminate F.
    + intros c H1. lia.
  - intros _. split; [lia|]. split; [lia|]. split; [lia|reflexivity].
Qed.
Lemma stmt_ok i : zlen i <= L -> wp (k_p_stmt true pss) i
  (fun r c => zlen r < zlen i /\ elsew (skip i) = false /\ c + Q * zlen r + 10 <= Q * zlen i + X r)
  (fun c => c + 10 <= q + (if closed (skip i) || elsew (skip i) then 0 else Q * zlen i)).
Proof.
  intros Hi. unfold k_p_stmt, crep. pose proof (skip_len i) as Ls. pose proof (zlen_nonneg (skip i)) as Ps. pose proof (Qmul (zlen (skip i)) (zlen i) 0 ltac:(lia)) as Qs. pose proof (Qmul 0 (zlen (skip i)) 0 ltac:(lia)) as Ps0.
  assert (Fin : forall r0 c0, zlen r0 < zlen i -> elsew (skip i) = false -> c0 + Q * zlen r0 + 100 <= Q * zlen i + X r0 ->
    wp (crep_n (S (length r0)) (cright (k_space true) (cprim (sym (c_ ";"))))) r0
      (fun r c => zlen r < zlen i /\ elsew (skip i) = false /\ (c0 + c + 2) + Q * zlen r + 10 <= Q * zlen i + X r)
      (fun c => (c0 + c + 2) + 10 <= q + (if closed (skip i) || elsew (skip i) then 0 else Q * zlen i))).
  { intros r0 c0 H1 H2 H3.
    assert (P : forall n r, (length r < n)%nat -> exists a r', fst (crep_n n (cright (k_space true) (cprim (sym (c_ ";")))) r) = POk a r').
    { induction n as [|n IH]; intros r Hn; [lia|]. cbn [crep_n].
      assert (E : fst (cright (k_space true) (cprim (sym (c_ ";"))) r) = pright space (sym (c_ ";")) r) by (pose proof (er_space true); assert (Er : er (cright (k_space true) (cprim (sym (c_ ";")))) (pright space (sym (c_ ";")))) by er; apply Er).
      unfold pright, pmap, pseq in E. rewrite space_skip in E. unfold sym, is_a in E. destruct (cright _ _ r) as [x c]. cbn [fst] in E. pose proof (skip_len r) as K. destruct (skip r) as [|y t].
      - subst x. eexists _, _. reflexivity.
      - destruct (N.eqb (c_ ";") y); subst x; [|eexists _, _; reflexivity]. rewrite zlen_cons in K. destruct (IH t) as (a & r' & Ea); [unfold zlen in K; lia|].
        destruct (crep_n n _ t) as [x' c']. cbn in Ea. subst x'. eexists _, _. reflexivity. }
    destruct (P (S (length r0)) r0 ltac:(lia)) as (a & r' & Ea). pose proof (semis_ok (S (length r0)) r0 ltac:(lia)) as S. unfold wp in *.
    destruct (crep_n _ _ r0) as [x c]. cbn [fst] in Ea. subst x. destruct S as (S1 & S2 & S3). split; [lia|]. split; [exact H2|].
    assert (X r0 <= X r') by (unfold X in *; destruct (elsew (skip r0)) eqn:Q0; [rewrite (S3 eq_refl), Q0; lia|pose proof (X_bounds r') as Xb; unfold X in Xb; lia]). lia. }
  apply wp_left, wp_right, wp_space, wp_alt.
  assert (Sem : wp (k_stmt_semicolon true) (skip i) (fun r c => elsew (skip i) = false /\ zlen r < zlen (skip i) /\ c <= 9 * E0) (fun c => c <= 9 * E0)).
  { pose proof (semicolon_ok (skip i) ltac:(lia)) as S. pose proof (er_semicolon true (skip i)) as E. unfold wp in *. destruct (k_stmt_semicolon true (skip i)) as [[a r| |] c]; auto.
    cbn [fst] in E. split; [|exact S]. destruct (elsew (skip i)) eqn:K; [|reflexivity]. destruct (else_no_statement _ _ _ K (eq_sym E)). }
  eapply wp_imp; [exact Sem| |]; cbv beta.
  - intros r c (H1 & H2 & H3). pose proof (Qmul (zlen r) (zlen i) 1 ltac:(lia)). pose proof (X_bounds r). eapply wp_imp; [apply (Fin r (1 + (c + 1) + 2)); [lia|exact H1|lia]| |]; cbv beta; auto.
  - intros c C. assert (G : forall b : bool, 0 <= (if b then 0 else Q * zlen i)) by (intros []; lia). split; [pose proof (G (closed (skip i) || elsew (skip i))%bool); lia|].
    eapply wp_imp; [apply (block_ok (skip i)); lia| |]; cbv beta.
    + intros r c1 (H1 & H2 & H3). eapply wp_imp; [apply (Fin r (1 + (c + c1 + 1) + 2)); [lia|exact H2|lia]| |]; cbv beta; auto.
    + intros c1 [C1|(C1 & K1 & K2)]; [pose proof (G (closed (skip i) || elsew (skip i))%bool); lia|]. rewrite K1, K2. cbn [orb]. lia.
Qed.
Lemma stmts_loop n : forall r, zlen r <= L -> wp (crep_n n (k_p_stmt true pss)) r
  (fun r' c => zlen r' <= zlen r /\ c + Q * zlen r' + X r <= Q * zlen r + q + V r') (fun c => c + X r <= Q * zlen r + q).
Proof.
  induction n as [|n IH]; intros r Hr; pose proof (X_bounds r) as Xb; [apply wp_rep_0; lia|]. apply wp_rep_S. eapply wp_imp; [apply (stmt_ok r Hr)| |]; cbv beta.
  - intros r1 c1 (H1 & H2 & H3). assert (X r = 0) by (unfold X; rewrite H2; reflexivity). eapply wp_imp; [apply IH; lia| |]; cbv beta.
    + intros r' c' [H4 H5]. split; lia.
    + intros c' H4. lia.
  - intros c H. unfold X, V in *. destruct (elsew (skip r)) eqn:K1.
    + assert (K2 : closed (skip r) = false) by (destruct (elsew_cases _ K1) as (s & j & -> & _); reflexivity). rewrite K2 in *. cbn [orb] in H. split; [lia|]. split; lia.
    + destruct (closed (skip r)); cbn [orb] in H; (split; [lia|]; split; lia).
Qed.
End Stmts.
Lemma stmts_f_ok f : forall i, zlen i <= L ->
  wp (k_p_stmts_f true f) i (fun r c => zlen r <= zlen i /\ c + Q * zlen r <= Q * zlen i + q + V r) (fun c => c <= Q * zlen i + q).
Proof.
  induction f as [|f IH]; intros i Hi.
  - unfold wp. cbn [k_p_stmts_f]. pose proof (X_bounds i). lia.
  - cbn [k_p_stmts_f]. unfold crep. pose proof (X_bounds i). eapply wp_imp; [apply (stmts_loop _ IH _ _ Hi)| |]; cbv beta.
    + intros r c [H1 H2]. split; lia.
    + intros c H1. lia.
Qed.
Lemma program_ok i : zlen i <= L -> snd (k_program true i) <= Q * zlen i + q + 10.
Proof.
  intros Hi. unfold k_program.
  assert (W : wp (cleft (cleft (k_p_stmts true) (k_space true)) (cprim pend)) i (fun _ c => c <= Q * zlen i + q + 10) (fun c => c <= Q * zlen i + q + 10)).
  { apply wp_left, wp_left. eapply (wp_eq _ (k_p_stmts_f true (S (length i)))); [unfold k_p_stmts; reflexivity|]. eapply wp_imp; [apply stmts_f_ok, Hi| |]; cbv beta.
    - intros r c [H1 H2]. pose proof (V_bounds r). apply wp_space, wp_prim. destruct (pend _); lia.
    - intros c H. lia. }
  unfold wp in W. destruct (cleft _ _ i) as [[| |] c]; exact W.
Qed.
End Bound.
(** ** The number of rules *)
Lemma rules_bound i : parse_rules i <= 20 * (AA * zlen i + 4000) * (zlen i + 1).
Proof.
  pose proof (zlen_nonneg i) as P. pose proof (program_ok (zlen i) _ _ _ P eq_refl eq_refl eq_refl i ltac:(lia)) as H. unfold parse_rules. lia.
Qed.
