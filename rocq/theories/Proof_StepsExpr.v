(** The number of rules tried on an expression is linear in the length of the input. *)
From Verif Require Import Base Ast Pom Parse PomSteps ParseSteps Lib Proof_Parse Proof_Steps.
Require Import Lia.
Arguments s_ s%string_scope.
Arguments c_ a%char_scope.
Open Scope Z_scope.

(** ** Reasoning about result and cost; running out of budget counts as failure *)
Definition wp {A} (p : cparser A) (i : str) (ok : str -> Z -> Prop) (no : Z -> Prop) : Prop :=
  match p i with (POk _ r, c) => ok r c | (PFail, c) => no c | (PFuel, c) => no c end.
Lemma wp_imp {A} (p : cparser A) i (ok ok' : str -> Z -> Prop) (no no' : Z -> Prop) :
  wp p i ok no -> (forall r c, ok r c -> ok' r c) -> (forall c, no c -> no' c) -> wp p i ok' no'.
Proof. unfold wp. destruct (p i) as [[| |] c]; auto. Qed.
Lemma wp_prim {A} (p : parser A) i (ok : str -> Z -> Prop) (no : Z -> Prop) :
  match p i with POk _ r => ok r 1 | _ => no 1 end -> wp (cprim p) i ok no.
Proof. unfold wp, cprim. destruct (p i); auto. Qed.
Lemma wp_lex {A} (p : cparser A) q i (ok : str -> Z -> Prop) (no : Z -> Prop) :
  er p q -> match q i with POk _ r => ok r 1 | _ => no 1 end -> wp (lexical true p) i ok no.
Proof. intros E. rewrite <- E. unfold wp, lexical. destruct (p i) as [[| |] c]; auto. Qed.
Lemma wp_map {A B} (f : A -> B) p i (ok : str -> Z -> Prop) (no : Z -> Prop) :
  wp p i (fun r c => ok r (c + 1)) (fun c => no (c + 1)) -> wp (cmap f p) i ok no.
Proof. unfold wp, cmap. destruct (p i) as [[| |] c]; auto. Qed.
Lemma wp_seq {A B} (p : cparser A) (q : cparser B) i (ok : str -> Z -> Prop) (no : Z -> Prop) :
  wp p i (fun r c => wp q r (fun r' c' => ok r' (c + c' + 1)) (fun c' => no (c + c' + 1))) (fun c => no (c + 1)) -> wp (cseq p q) i ok no.
Proof. unfold wp, cseq. destruct (p i) as [[a r| |] c]; auto. destruct (q r) as [[| |] c']; auto. Qed.
Lemma wp_right {A B} (p : cparser A) (q : cparser B) i (ok : str -> Z -> Prop) (no : Z -> Prop) :
  wp p i (fun r c => wp q r (fun r' c' => ok r' (c + c' + 2)) (fun c' => no (c + c' + 2))) (fun c => no (c + 2)) -> wp (cright p q) i ok no.
Proof.
  intros H. apply wp_map, wp_seq. eapply wp_imp; [exact H| |]; cbv beta.
  - intros r c H'. eapply wp_imp; [exact H'| |]; cbv beta; intros; rewrite <- Z.add_assoc; assumption.
  - intros c H'. rewrite <- Z.add_assoc. exact H'.
Qed.
Lemma wp_left {A B} (p : cparser A) (q : cparser B) i (ok : str -> Z -> Prop) (no : Z -> Prop) :
  wp p i (fun r c => wp q r (fun r' c' => ok r' (c + c' + 2)) (fun c' => no (c + c' + 2))) (fun c => no (c + 2)) -> wp (cleft p q) i ok no.
Proof.
  intros H. apply wp_map, wp_seq. eapply wp_imp; [exact H| |]; cbv beta.
  - intros r c H'. eapply wp_imp; [exact H'| |]; cbv beta; intros; rewrite <- Z.add_assoc; assumption.
  - intros c H'. rewrite <- Z.add_assoc. exact H'.
Qed.
Lemma wp_alt {A} (p q : cparser A) i (ok : str -> Z -> Prop) (no : Z -> Prop) :
  wp p i (fun r c => ok r (c + 1)) (fun c => no (c + 1) /\ wp q i (fun r c' => ok r (c + c' + 1)) (fun c' => no (c + c' + 1))) -> wp (calt p q) i ok no.
Proof. unfold wp, calt. destruct (p i) as [[a r| |] c]; [auto| |intros [H _]; exact H]. destruct (q i) as [[| |] c']; intros [_ H]; exact H. Qed.
Lemma wp_opt {A} (p : cparser A) i (ok : str -> Z -> Prop) (no : Z -> Prop) :
  wp p i (fun r c => ok r (c + 1)) (fun c => no (c + 1) /\ ok i (c + 1)) -> wp (copt p) i ok no.
Proof. unfold wp, copt. destruct (p i) as [[a r| |] c]; [auto| |]; intros [H H']; assumption. Qed.
Lemma wp_rep_0 {A} (p : cparser A) i (ok : str -> Z -> Prop) (no : Z -> Prop) : no 1 -> wp (crep_n 0 p) i ok no.
Proof. auto. Qed.
Lemma wp_rep_S {A} n (p : cparser A) i (ok : str -> Z -> Prop) (no : Z -> Prop) :
  wp p i (fun r c => wp (crep_n n p) r (fun r' c' => ok r' (c + c' + 1)) (fun c' => no (c + c' + 1))) (fun c => no (c + 1) /\ ok i (c + 1)) -> wp (crep_n (S n) p) i ok no.
Proof. unfold wp. cbn [crep_n]. destruct (p i) as [[a r| |] c]; [|intros [H H']; assumption|intros [H H']; assumption]. destruct (crep_n n p r) as [[| |] c']; auto. Qed.
Lemma wp_list {A B} (p : cparser A) (q : cparser B) i (ok : str -> Z -> Prop) (no : Z -> Prop) :
  wp p i (fun r c => wp (crep (cright q p)) r (fun r' c' => ok r' (c + c' + 1)) (fun c' => no (c + c' + 1))) (fun c => no (c + 1) /\ ok i (c + 1)) -> wp (clist p q) i ok no.
Proof. unfold wp, clist. destruct (p i) as [[a r| |] c]; [|intros [H H']; assumption|intros [H H']; assumption]. destruct (crep _ r) as [[| |] c']; auto. Qed.

(** ** White space *)
Fixpoint skip (i : str) : str := match i with c :: r => if mem_char space_chars c then skip r else i | [] => [] end.
Lemma skip_len i : zlen (skip i) <= zlen i.
Proof. unfold zlen. induction i as [|c r IH]; cbn [skip]; [lia|]. destruct (mem_char _ c); cbn [length] in *; lia. Qed.
Lemma skip_n n : forall i, (length i < n)%nat -> exists l, prep_n n (one_of space_chars) i = POk l (skip i).
Proof.
  induction n as [|n IH]; intros i H; [lia|]. destruct i as [|c r]; [exists []; reflexivity|]. cbn [prep_n one_of is_a skip].
  unfold one_of, is_a. destruct (mem_char space_chars c); [|eexists; reflexivity]. destruct (IH r) as [l El]; [cbn in H; lia|]. unfold one_of, is_a in El. rewrite El. eexists. reflexivity.
Qed.
Lemma space_skip i : space i = POk tt (skip i).
Proof. unfold space, pdiscard, pmap, prep. destruct (skip_n (S (length i)) i ltac:(lia)) as [l ->]. reflexivity. Qed.
Lemma wp_space i (ok : str -> Z -> Prop) (no : Z -> Prop) : ok (skip i) 1 -> wp (k_space true) i ok no.
Proof. intros H. unfold k_space. apply (wp_lex _ space); [unfold space; er|]. rewrite space_skip. exact H. Qed.
Lemma skip_skip i : skip (skip i) = skip i.
Proof. induction i as [|c r IH]; cbn [skip]; [reflexivity|]. destruct (mem_char _ c) eqn:E; [exact IH|]. cbn [skip]. rewrite E. reflexivity. Qed.
Lemma zlen_cons {A} (c : A) r : zlen (c :: r) = zlen r + 1.
Proof. unfold zlen. cbn [length]. lia. Qed.
Lemma zlen_nonneg {A} (r : list A) : 0 <= zlen r.
Proof. unfold zlen. lia. Qed.
(** one character *)
Lemma wp_sym x i (ok : str -> Z -> Prop) (no : Z -> Prop) :
  (forall r, i = x :: r -> ok r 1) -> ((forall r, i <> x :: r) -> no 1) -> wp (cprim (sym x)) i ok no.
Proof.
  intros H H'. apply wp_prim. unfold sym, is_a. destruct i as [|y r]; [apply H'; discriminate|].
  destruct (N.eqb x y) eqn:E; [apply N.eqb_eq in E; subst; apply H; reflexivity|]. apply N.eqb_neq in E. apply H'. intros r' Q. congruence.
Qed.
(** a token takes at least one character *)
Lemma sat_wp {A} (p : cparser A) q R i (ok : str -> Z -> Prop) (no : Z -> Prop) :
  er p q -> (forall N, sat N 1 R q) -> (forall r, zlen r < zlen i -> ok r 1) -> no 1 -> wp (lexical true p) i ok no.
Proof.
  intros E S H H'. apply (wp_lex _ q); [exact E|]. specialize (S (1 + length i)%nat i ltac:(lia)). destruct (q i) as [a r| |]; auto. apply H.
  destruct S as (s & -> & Hs & _). unfold zlen. rewrite app_length. lia.
Qed.

(** ** Precedence levels *)
Notation AA := 10000.
(** inputs at which no expression starts *)
Definition nonst (i : str) : bool := match i with [] => true | x :: _ => existsb (N.eqb x) [60; 62; 38; 124; 61; 41]%N end.
Definition W (st : str -> bool) (r : str) : Z := if st (skip r) then AA * zlen r else 0.
Record lvl (b k : Z) (st : str -> bool) (P : cparser expr) : Prop := {
  lvl_main : forall i, wp P i (fun r c => zlen r < zlen i /\ c + AA * zlen r <= AA * zlen i + b + W st r) (fun c => c <= AA * zlen i + b);
  lvl_cheap : forall i, nonst i = true -> wp P i (fun _ _ => False) (fun c => c <= k) }.
Definition opsok (st st' : str -> bool) (ops : cparser binop) : Prop :=
  forall h, wp ops h (fun r c => c <= 20 /\ zlen r < zlen h /\ (st h = true -> nonst (skip r) = true) /\ (st' h = true \/ nonst (skip r) = true)) (fun c => c <= 20)
    /\ (st h = true -> st' h = true).
Ltac wps := repeat first [apply wp_map | apply wp_seq | apply wp_right | apply wp_left | apply wp_space].
(** what follows an operand *)
Lemma tail_ok b k st st' ops next : 0 <= k -> 0 <= b -> lvl b k st next -> opsok st st' ops -> b + k + 200 <= AA -> forall r (ok : str -> Z -> Prop) (no : Z -> Prop),
  (forall r3 c, zlen r3 < zlen r -> st (skip r) = false -> c + AA * zlen r3 + AA <= AA * zlen r + b + 40 + W st r3 -> ok r3 c) ->
  (forall c, c + W st r <= k + 40 + W st' r -> no c) ->
  wp (cseq (cleft (cright (k_space true) ops) (k_space true)) next) r ok no.
Proof.
  intros Hk Hb HL HO HA r ok no Hok Hno. wps. destruct (HO (skip r)) as [H1 H3]. eapply wp_imp; [exact H1| |]; cbv beta.
  - intros r2 c2 (C2 & L2 & S1 & S2). wps. pose proof (skip_len r) as Lr. pose proof (skip_len r2) as Lr2.
    destruct (st (skip r)) eqn:Es.
    + eapply wp_imp; [apply (lvl_cheap _ _ _ _ HL), S1; reflexivity| |]; cbv beta; [intros ? ? []|]. intros c3 C3. apply Hno. unfold W. rewrite Es, (H3 eq_refl). pose proof (zlen_nonneg r). lia.
    + destruct S2 as [S2|S2].
      * eapply wp_imp; [apply (lvl_main _ _ _ _ HL)| |]; cbv beta.
        -- intros r3 c3 [L3 C3]. apply Hok; try lia; reflexivity.
        -- intros c3 C3. apply Hno. unfold W. rewrite Es, S2. lia.
      * eapply wp_imp; [apply (lvl_cheap _ _ _ _ HL), S2; reflexivity| |]; cbv beta; [intros ? ? []|]. intros c3 C3. apply Hno. unfold W. rewrite Es. pose proof (zlen_nonneg r). destruct (st' (skip r)); lia.
  - intros c2 C2. apply Hno. unfold W. destruct (st (skip r)); [rewrite (H3 eq_refl); lia|]. pose proof (zlen_nonneg r). destruct (st' (skip r)); lia.
Qed.
Lemma W_nonneg st r : 0 <= W st r.
Proof. unfold W. pose proof (zlen_nonneg r). destruct (st _); lia. Qed.
Lemma W_le st r : W st r <= AA * zlen r.
Proof. unfold W. pose proof (zlen_nonneg r). destruct (st _); lia. Qed.
Lemma loop_ok b k st st' ops next : 0 <= k -> 0 <= b -> lvl b k st next -> opsok st st' ops -> b + k + 200 <= AA -> forall n r,
  wp (crep_n n (cseq (cleft (cright (k_space true) ops) (k_space true)) next)) r
    (fun r' c => zlen r' <= zlen r /\ c + AA * zlen r' + W st r <= AA * zlen r + k + 45 + W st' r') (fun c => c + W st r <= AA * zlen r + k + 45).
Proof.
  intros Hk Hb HL HO HA. induction n as [|n IH]; intros r.
  - apply wp_rep_0. pose proof (W_le st r). lia.
  - apply wp_rep_S. apply (tail_ok b k st st' _ next Hk Hb HL HO HA).
    + intros r3 c L3 Es C. eapply wp_imp; [apply IH| |]; cbv beta.
      * intros r' c' [L C']. split; [lia|]. assert (W st r = 0) by (unfold W; rewrite Es; reflexivity). lia.
      * intros c' C'. assert (W st r = 0) by (unfold W; rewrite Es; reflexivity). pose proof (zlen_nonneg r3). lia.
    + intros c C. pose proof (W_le st' r). split; [lia|]. split; [lia|]. lia.
Qed.
Lemma level_ok b k st st' ops next : 0 <= k -> 0 <= b -> lvl b k st next -> opsok st st' ops -> b + k + 200 <= AA ->
  lvl (b + k + 50) (k + 5) st' (k_binary_level true ops next).
Proof.
  intros Hk Hb HL HO HA. split.
  - intros i. unfold k_binary_level, crep. wps. eapply wp_imp; [apply (lvl_main _ _ _ _ HL)| |]; cbv beta.
    + intros r c [L C]. eapply wp_imp; [apply (loop_ok b k st st' _ next Hk Hb HL HO HA)| |]; cbv beta.
      * intros r' c' [L' C']. split; lia.
      * intros c' C'. lia.
    + intros c C. lia.
  - intros i Hi. unfold k_binary_level. wps. eapply wp_imp; [apply (lvl_cheap _ _ _ _ HL), Hi| |]; cbv beta; [intros ? ? []|]. intros c C. lia.
Qed.
Lemma eq_ok b k st st' next : 0 <= k -> 0 <= b -> lvl b k st next -> opsok st st' k_eq_ops -> b + k + 200 <= AA ->
  lvl (b + k + 50) (k + 5) st' (cmap (fun x => match snd x with Some (o, r) => EBin o (fst x) r | None => fst x end)
       (cseq next (copt (cseq (cleft (cright (k_space true) k_eq_ops) (k_space true)) next)))).
Proof.
  intros Hk Hb HL HO HA. split.
  - intros i. wps. eapply wp_imp; [apply (lvl_main _ _ _ _ HL)| |]; cbv beta.
    + intros r c [L C]. apply wp_opt. apply (tail_ok b k st st' _ next Hk Hb HL HO HA).
      * intros r3 c3 L3 Es C3. assert (W st r = 0) by (unfold W; rewrite Es; reflexivity). split; [lia|].
        assert (W st r3 <= W st' r3) by (unfold W; destruct (st (skip r3)) eqn:Q; [rewrite (proj2 (HO (skip r3)) Q); lia|destruct (st' _); pose proof (zlen_nonneg r3); lia]). lia.
      * intros c3 C3. pose proof (W_le st' r). split; [lia|]. split; lia.
    + intros c C. lia.
  - intros i Hi. wps. eapply wp_imp; [apply (lvl_cheap _ _ _ _ HL), Hi| |]; cbv beta; [intros ? ? []|]. intros c C. lia.
Qed.

(** ** Tokens *)
Definition any {A} (s : str) (a : A) : Prop := True.
Lemma sat_constant1 N : sat N 1 any constant.
Proof.
  eapply sat_weaken; [unfold constant; apply sat_alt; [apply sat_map, sat_number|apply sat_alt; apply sat_map, sat_tag]|cbn; lia|constructor].
Qed.
Lemma sat_cast N : sat N 1 any cast.
Proof.
  eapply sat_weaken; [unfold cast; apply sat_map; eapply sat_left; [eapply sat_left; [eapply sat_right; [eapply sat_right; [apply sat_tag|apply sat_space]|]|apply sat_space]|apply sat_tag]|cbn; lia|constructor].
  apply sat_map. eapply sat_seq; [eapply sat_left; [apply sat_tag|apply sat_space]|apply sat_ident].
Qed.
Lemma nonst_cases i : nonst i = true -> i = [] \/ exists x j, i = x :: j /\ In x [60; 62; 38; 124; 61; 41]%N.
Proof.
  destruct i as [|x j]; [auto|]. cbn [nonst]. rewrite existsb_exists. intros (y & Hy & E). apply N.eqb_eq in E. subst. right. eauto.
Qed.
Lemma tokens_fail i : nonst i = true -> constant i = PFail /\ ident i = PFail /\ p_string i = PFail /\ sym (c_ "(") i = PFail /\ unary_ops i = PFail.
Proof.
  intros H. destruct (nonst_cases _ H) as [->|(x & j & -> & Hx)]; [repeat split; reflexivity|].
  cbn [In] in Hx. decompose [or] Hx; subst; try contradiction; repeat split; reflexivity.
Qed.
Lemma wp_fail {A} (p : cparser A) q i c (no : Z -> Prop) (ok : str -> Z -> Prop) : er p q -> q i = PFail -> c <= 1 -> no 1 -> wp (lexical true p) i ok no.
Proof. intros E F _ H. apply (wp_lex _ q); [exact E|]. rewrite F. exact H. Qed.

(** ** Postfix and unary expressions *)
Section Pe.
Variable pe : cparser expr.
Variable stO : str -> bool.
Hypothesis stO_close : forall x j, In x [41; 93; 44]%N -> stO (x :: j) = false.
Hypothesis pe_main : forall i, wp pe i (fun r c => zlen r < zlen i /\ c + AA * zlen r <= AA * zlen i + 4000 + W stO r) (fun c => c <= AA * zlen i + 4000).
Hypothesis pe_cheap : forall i, nonst (skip i) = true -> wp pe i (fun _ _ => False) (fun c => c <= 400).
Lemma W_close r x j : skip r = x :: j -> In x [41; 93; 44]%N -> W stO r = 0.
Proof. intros E H. unfold W. rewrite E, stO_close by exact H. reflexivity. Qed.
(** an expression in brackets *)
Lemma bracket_ok a z i (ok : str -> Z -> Prop) (no : Z -> Prop) : In z [41; 93; 44]%N ->
  (forall r c, zlen r < zlen i -> c + AA * zlen r + 1000 <= AA * zlen i -> ok r c) ->
  (forall c, c <= AA * zlen i -> zlen i > 0 -> hd_error i = Some a -> no c) -> (hd_error i <> Some a -> forall c, c <= 20 -> no c) ->
  wp (cleft (cleft (cright (cprim (sym a)) pe) (k_space true)) (cprim (sym z))) i ok no.
Proof.
  intros Hz Hok Hno1 Hno2. apply wp_left, wp_left, wp_right, wp_sym.
  - intros j ->. rewrite zlen_cons in *. pose proof (zlen_nonneg j). eapply wp_imp; [apply pe_main| |]; cbv beta.
    + intros r c [L C]. apply wp_space. pose proof (skip_len r) as Ls. pose proof (W_le stO r). pose proof (zlen_nonneg r). apply wp_sym.
      * intros r' E. rewrite (W_close _ _ _ E Hz) in C. rewrite E, zlen_cons in Ls. apply Hok; lia.
      * intros _. apply Hno1; [lia|lia|reflexivity].
    + intros c C. apply Hno1; [lia|lia|reflexivity].
  - intros H. apply Hno2; [|lia]. destruct i as [|y j]; [discriminate|]. intros Q. injection Q as ->. eapply H. reflexivity.
Qed.
Lemma primary_ok i : wp (k_primary_expr true pe) i (fun r c => zlen r < zlen i /\ c + AA * zlen r <= AA * zlen i + 40) (fun c => c <= AA * zlen i + 40).
Proof.
  pose proof (zlen_nonneg i). unfold k_primary_expr. apply wp_alt. unfold k_constant. eapply sat_wp; [|apply sat_constant1|intros; split; lia|].
  { unfold constant, k_number, number, k_integer, integer. er. }
  split; [lia|]. apply wp_alt. unfold k_ident, k_ident_name. eapply sat_wp; [|apply sat_ident|intros; split; lia|].
  { unfold ident, ident_name. er. }
  split; [lia|]. apply wp_alt. unfold k_p_string. eapply sat_wp; [|apply sat_p_string|intros; split; lia|].
  { unfold p_string. unfold k_char_string, char_string, k_utf16_string, utf16_string, k_utf16_char, utf16_char, k_escape_sequence, escape_sequence, k_special_char, special_char. er. }
  split; [lia|]. unfold k_paren. apply wp_map. apply bracket_ok.
  - left. reflexivity.
  - intros r c L C. split; lia.
  - intros c C _ _. lia.
  - intros _ c C. lia.
Qed.
Lemma wp_of_er {A} (p : cparser A) q i c0 (ok : str -> Z -> Prop) (no : Z -> Prop) : er p q -> q i = PFail -> snd (p i) = c0 -> no c0 -> wp p i ok no.
Proof. intros E F C H. unfold wp. rewrite <- E in F. destruct (p i) as [x c]. cbn in *. subst. exact H. Qed.
Lemma primary_cheap i : nonst i = true -> wp (k_primary_expr true pe) i (fun _ _ => False) (fun c => c <= 40).
Proof.
  intros H. destruct (tokens_fail i H) as (F1 & F2 & F3 & F4 & _). unfold k_primary_expr. apply wp_alt. unfold k_constant. eapply (wp_fail _ constant _ 1); [|exact F1|lia|].
  { unfold constant, k_number, number, k_integer, integer. er. }
  split; [lia|]. apply wp_alt. unfold k_ident, k_ident_name. eapply (wp_fail _ ident _ 1); [|exact F2|lia|].
  { unfold ident, ident_name. er. }
  split; [lia|]. apply wp_alt. unfold k_p_string. eapply (wp_fail _ p_string _ 1); [|exact F3|lia|].
  { unfold p_string. unfold k_char_string, char_string, k_utf16_string, utf16_string, k_utf16_char, utf16_char, k_escape_sequence, escape_sequence, k_special_char, special_char. er. }
  split; [lia|]. unfold k_paren. apply wp_map, wp_left, wp_left, wp_right, wp_prim. rewrite F4. lia.
Qed.
(** arguments: anything but a closing parenthesis after them makes the call fail *)
Definition Wa (r : str) : Z := match skip r with 41%N :: _ => 0 | _ => AA * zlen r end.
Lemma Wa_cases r : (exists j, skip r = 41%N :: j) /\ Wa r = 0 \/ (forall j, skip r <> 41%N :: j) /\ Wa r = AA * zlen r.
Proof.
  unfold Wa. destruct (skip r) as [|x j]; [right; split; [discriminate|reflexivity]|]. destruct (N.eq_dec x 41%N) as [->|N]; [left; eauto|right].
  split; [intros; congruence|]. destruct x as [|p]; [reflexivity|]. repeat (destruct p as [p|p|]; try reflexivity). congruence.
Qed.
Lemma W_Wa r : W stO r <= Wa r.
Proof. destruct (Wa_cases r) as [[[j E] ->]|[_ ->]]; [rewrite (W_close _ _ _ E); [lia|left; reflexivity]|apply W_le]. Qed.
Lemma args_loop n : forall r, wp (crep_n n (cright (cright (k_space true) (cprim (sym (c_ ",")))) pe)) r
  (fun r' c => zlen r' <= zlen r /\ c + AA * zlen r' + W stO r <= AA * zlen r + 20 + Wa r') (fun c => c + W stO r <= AA * zlen r + 20).
Proof.
  induction n as [|n IH]; intros r; [apply wp_rep_0; pose proof (W_le stO r); lia|]. apply wp_rep_S, wp_right, wp_right, wp_space. pose proof (skip_len r) as Ls. pose proof (zlen_nonneg r). apply wp_sym.
  - intros j E. rewrite E, zlen_cons in Ls. rewrite (W_close _ _ _ E) by (right; right; left; reflexivity).
    assert (EW : Wa r = AA * zlen r) by (destruct (Wa_cases r) as [[[j' E'] _]|[_ Q]]; [rewrite E in E'; discriminate E'|exact Q]).
    eapply wp_imp; [apply pe_main| |]; cbv beta.
    + intros r1 c1 [L1 C1]. eapply wp_imp; [apply IH| |]; cbv beta.
      * intros r' c' [L' C']. split; lia.
      * intros c' C'. lia.
    + intros c C. split; [lia|]. split; [lia|]. rewrite EW. lia.
  - intros H'. pose proof (W_le stO r). pose proof (W_Wa r). split; [lia|]. split; lia.
Qed.
Lemma args_ok i : wp (k_arg_list true pe) i (fun r c => zlen r <= zlen i /\ c + AA * zlen r <= AA * zlen i + 4050 + Wa r) (fun c => c <= AA * zlen i + 4050).
Proof.
  unfold k_arg_list. apply wp_list.
  destruct (Wa_cases i) as [[[j E] EW]|[_ EW]].
  - eapply wp_imp; [apply pe_cheap; rewrite E; reflexivity| |]; cbv beta; [intros ? ? []|]. intros c C. pose proof (zlen_nonneg i). split; [lia|]. split; lia.
  - eapply wp_imp; [apply pe_main| |]; cbv beta.
    + intros r c [L C]. unfold crep. eapply wp_imp; [apply args_loop| |]; cbv beta.
      * intros r' c' [L' C']. split; lia.
      * intros c' C'. pose proof (zlen_nonneg r). lia.
    + intros c C. split; [lia|]. split; lia.
Qed.
Definition stP (h : str) : bool := match h with x :: _ => (x =? 40)%N || (x =? 91)%N | [] => false end.
Lemma post_ok r (ok : str -> Z -> Prop) (no : Z -> Prop) :
  (forall r' c, zlen r' < zlen r -> c + AA * zlen r' + 500 <= AA * zlen r -> ok r' c) ->
  (forall c, c <= 40 + W stP r -> no c) ->
  wp (cright (k_space true) (calt (k_function_call true pe) (calt (k_array_index true pe) (k_field_access true)))) r ok no.
Proof.
  intros Hok Hno. apply wp_right, wp_space. pose proof (skip_len r) as Ls. unfold k_function_call. apply wp_alt, wp_map, wp_left, wp_left, wp_right, wp_sym.
  - intros j E. rewrite E, zlen_cons in Ls. assert (EW : W stP r = AA * zlen r) by (unfold W; rewrite E; reflexivity).
    assert (Alt : forall c, c <= AA * zlen j + 4100 -> no (1 + (c + 1) + 2) /\
      wp (calt (k_array_index true pe) (k_field_access true)) (skip r) (fun r' c' => ok r' (1 + (c + c' + 1) + 2)) (fun c' => no (1 + (c + c' + 1) + 2))).
    { intros c C. split; [apply Hno; lia|]. rewrite E. unfold k_array_index, k_field_access. apply wp_alt, wp_map, wp_left, wp_left, wp_right, wp_sym; [intros t Q; discriminate Q|intros _].
      split; [apply Hno; lia|]. apply wp_map, wp_right, wp_sym; [intros t Q; discriminate Q|intros _]. apply Hno. lia. }
    pose proof (zlen_nonneg j).
    eapply wp_imp; [apply args_ok| |]; cbv beta.
    + intros r1 c1 [L1 C1]. apply wp_space. pose proof (skip_len r1) as L2. apply wp_sym.
      * intros r' E'. rewrite E', zlen_cons in L2. destruct (Wa_cases r1) as [[_ Q]|[Q _]]; [|exfalso; eapply Q; exact E']. apply Hok; lia.
      * intros Q. assert (Wa r1 <= AA * zlen r1) by (destruct (Wa_cases r1) as [[_ K]|[_ K]]; pose proof (zlen_nonneg r1); lia).
        match goal with |- no (1 + (?x + 1) + 2) /\ _ => apply (Alt x) end. lia.
    + intros c1 C1. match goal with |- no (1 + (?x + 1) + 2) /\ _ => apply (Alt x) end. lia.
  - intros NE. pose proof (W_nonneg stP r) as Wn. split; [apply Hno; lia|]. unfold k_array_index. apply wp_alt, wp_map. apply bracket_ok.
    + right. left. reflexivity.
    + intros r' c L C. apply Hok; lia.
    + intros c C L Hh. assert (EW : W stP r = AA * zlen r) by (unfold W; destruct (skip r) as [|y t]; [discriminate|]; injection Hh as ->; reflexivity).
      split; [apply Hno; lia|]. unfold k_field_access. apply wp_map, wp_right, wp_sym.
      * intros j E. rewrite E in Hh. discriminate Hh.
      * intros _. apply Hno. lia.
    + intros _ c C. split; [apply Hno; lia|]. unfold k_field_access. apply wp_map, wp_right, wp_sym.
      * intros j E. rewrite E, zlen_cons in Ls. unfold k_ident, k_ident_name. eapply sat_wp; [|apply sat_ident| |].
        { unfold ident, ident_name. er. }
        { intros r' L. apply Hok; lia. }
        { apply Hno. lia. }
      * intros _. apply Hno. lia.
Qed.
Lemma postfix_loop n : forall r, wp (crep_n n (cright (k_space true) (calt (k_function_call true pe) (calt (k_array_index true pe) (k_field_access true))))) r
  (fun r' c => zlen r' <= zlen r /\ c + AA * zlen r' <= AA * zlen r + 45 + W stP r') (fun c => c <= AA * zlen r + 45).
Proof.
  induction n as [|n IH]; intros r; [apply wp_rep_0; pose proof (zlen_nonneg r); lia|]. apply wp_rep_S, post_ok.
  - intros r1 c1 L1 C1. eapply wp_imp; [apply IH| |]; cbv beta.
    + intros r' c' [L C]. split; lia.
    + intros c' C'. lia.
  - intros c C. pose proof (W_le stP r). split; [lia|]. split; lia.
Qed.
Lemma postfix_ok i : wp (k_postfix_expr true pe) i (fun r c => zlen r < zlen i /\ c + AA * zlen r <= AA * zlen i + 90 + W stP r) (fun c => c <= AA * zlen i + 90).
Proof.
  unfold k_postfix_expr, crep. apply wp_map, wp_seq. eapply wp_imp; [apply primary_ok| |]; cbv beta.
  - intros r c [L C]. eapply wp_imp; [apply postfix_loop| |]; cbv beta.
    + intros r' c' [L' C']. split; lia.
    + intros c' C'. lia.
  - intros c C. lia.
Qed.
Lemma unary_ops_ok i (ok : str -> Z -> Prop) (no : Z -> Prop) :
  (forall r c, zlen r < zlen i -> c <= 20 -> ok r c) -> (forall c, c <= 20 -> no c) -> wp (k_unary_ops true) i ok no.
Proof.
  intros Hok Hno. unfold k_unary_ops.
  assert (T : forall t (i : str) (ok : str -> Z -> Prop) (no : Z -> Prop), t <> [] -> (forall r, zlen r < zlen i -> ok r 1) -> no 1 -> wp (cprim (tag t)) i ok no).
  { intros t j ok' no' Ht H H'. apply wp_prim. pose proof (sat_tag (1 + length j)%nat t j ltac:(lia)) as S. destruct (tag t j) as [a r| |]; auto. apply H. destruct S as (s & -> & Hs & _). unfold zlen. rewrite app_length. destruct t; [congruence|]. cbn in Hs. lia. }
  apply wp_alt, wp_map, T; [discriminate|intros; apply Hok; lia|]. split; [apply Hno; lia|].
  apply wp_alt, wp_map, T; [discriminate|intros; apply Hok; lia|]. split; [apply Hno; lia|].
  apply wp_alt, wp_map, T; [discriminate|intros; apply Hok; lia|]. split; [apply Hno; lia|].
  unfold k_cast. eapply sat_wp; [|apply sat_cast|intros; apply Hok; lia|apply Hno; lia].
  unfold cast, k_type_specifier, type_specifier. pose proof (er_space true). pose proof (er_ident true). er.
Qed.
Lemma unary_loop n : forall r, wp (crep_n n (cleft (k_unary_ops true) (k_space true))) r
  (fun r' c => zlen r' <= zlen r /\ c + AA * zlen r' <= AA * zlen r + 30) (fun c => c <= AA * zlen r + 30).
Proof.
  induction n as [|n IH]; intros r; [apply wp_rep_0; pose proof (zlen_nonneg r); lia|]. pose proof (zlen_nonneg r). apply wp_rep_S, wp_left, unary_ops_ok.
  - intros r1 c1 L1 C1. apply wp_space. pose proof (skip_len r1). eapply wp_imp; [apply IH| |]; cbv beta.
    + intros r' c' [L C]. split; lia.
    + intros c' C'. lia.
  - intros c C. split; [lia|]. split; lia.
Qed.
Lemma unary_ok : lvl 140 80 stP (k_unary_expr true pe).
Proof.
  split.
  - intros i. unfold k_unary_expr, crep. apply wp_map, wp_seq, wp_left. eapply wp_imp; [apply unary_loop| |]; cbv beta.
    + intros r c [L C]. apply wp_space. pose proof (skip_len r). eapply wp_imp; [apply postfix_ok| |]; cbv beta.
      * intros r' c' [L' C']. split; lia.
      * intros c' C'. lia.
    + intros c C. lia.
  - intros i Hi. destruct (tokens_fail i Hi) as (_ & _ & _ & _ & F). unfold k_unary_expr, crep. apply wp_map, wp_seq, wp_left, wp_rep_S, wp_left.
    assert (S1 : skip i = i).
    { destruct (nonst_cases _ Hi) as [->|(x & j & -> & Hx)]; [reflexivity|]. cbn [In] in Hx. decompose [or] Hx; subst; try contradiction; reflexivity. }
    assert (U : wp (k_unary_ops true) i (fun _ _ => False) (fun c => c <= 20)).
    { assert (F' : fst (k_unary_ops true i) = PFail).
      { rewrite <- F. assert (E : er (k_unary_ops true) unary_ops) by (pose proof (er_cast true); unfold k_unary_ops, unary_ops; er). apply E. }
      pose proof (unary_ops_ok i (fun _ c => c <= 20) (fun c => c <= 20) ltac:(auto) ltac:(auto)) as Q. unfold wp in *. destruct (k_unary_ops true i) as [[| |] c]; try discriminate F'. exact Q. }
    eapply wp_imp; [exact U| |]; cbv beta; [intros ? ? []|]. intros c C. split; [lia|]. apply wp_space. rewrite S1.
    unfold k_postfix_expr. apply wp_map, wp_seq. eapply wp_imp; [apply primary_cheap, Hi| |]; cbv beta; [intros ? ? []|]. intros c' C'. lia.
Qed.
End Pe.
