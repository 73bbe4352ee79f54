(** Proofs about cleaning the input. *)
From Verif Require Import Base Ast Pom Parse Value Input Fs Eval Runtime Main Lib Spec_Grammar Spec_Input Proof_Parse Proof_Display Proof_Safe.
From Coq Require Import Lia.
Arguments s_ s%string_scope.

Lemma strip_in_string body l : ~ In 34%N body -> strip_line true (body ++ 34%N :: l) = body ++ 34%N :: strip_line false l.
Proof.
  induction body as [|c b IH]; intros H; cbn [app strip_line].
  - reflexivity.
  - destruct (N.eqb_spec c 34) as [->|Hc]; [elim H; left; reflexivity|]. cbn [negb]. rewrite andb_false_r. rewrite IH by (intros Q; apply H; right; exact Q). reflexivity.
Qed.
Lemma escaped_cons c l : escaped_quote l -> escaped_quote (c :: l).
Proof. intros (a & b & ->). exists (c :: a), b. reflexivity. Qed.
Lemma escaped_app a l : escaped_quote l -> escaped_quote (a ++ l).
Proof. intros (x & y & ->). exists (a ++ x), y. rewrite <- app_assoc. reflexivity. Qed.
Lemma lit_body_plain body r : lit_body body -> ~ escaped_quote (body ++ r) -> ~ In 34%N body.
Proof.
  intros H; induction H as [|c b H1 H2 _ IH|c b _ IH]; intros N Q.
  - exact Q.
  - destruct Q as [Q|Q]; [exact (H1 Q)|]. apply IH; [intros X; apply N; cbn [app]; apply escaped_cons; exact X|exact Q].
  - destruct Q as [Q|[Q|Q]]; [discriminate|subst c; apply N; exists [], (b ++ r); reflexivity|]. apply IH; [intros X; apply N; cbn [app]; do 2 apply escaped_cons; exact X|exact Q].
Qed.
Lemma strip_line_commented l k : commented l k -> ~ escaped_quote l -> strip_line false l = k.
Proof.
  intros H; induction H as [|t|c l l' H1 H2 _ IH|body l l' Hb _ IH]; intros N.
  - reflexivity.
  - reflexivity.
  - cbn [strip_line]. rewrite (proj2 (N.eqb_neq c 34)), (proj2 (N.eqb_neq c 35)) by assumption. cbn [andb]. rewrite IH; [reflexivity|]. intros Q. apply N, escaped_cons, Q.
  - cbn [app strip_line]. change (34 =? 34)%N with true. cbn [negb]. rewrite strip_in_string.
    + rewrite IH; [reflexivity|]. intros Q. apply N. apply escaped_cons. apply escaped_app, escaped_cons, Q.
    + eapply lit_body_plain; [exact Hb|]. intros Q. apply N, escaped_cons. exact Q.
Qed.
(** without # nothing is removed *)
Lemma strip_line_id i l : ~ In 35%N l -> strip_line i l = l.
Proof.
  revert i; induction l as [|c l IH]; intros i H; [reflexivity|]. cbn [strip_line]. assert (~ In 35%N l) by (intros Q; apply H; right; exact Q).
  rewrite !IH by assumption. destruct (N.eqb_spec c 34); [reflexivity|]. destruct (N.eqb_spec c 35) as [->|_]; [elim H; left; reflexivity|reflexivity].
Qed.
Lemma lines_has s ls : has_lines s ls -> lines s = ls.
Proof.
  induction 1 as [|l H1 H2|l eol t ls H1 H2 H3 _ IH].
  - reflexivity.
  - unfold lines. rewrite lines_from_end; [reflexivity|exact H2|rewrite app_nil_r; exact H1].
  - destruct H3 as [-> | ->].
    + cbn [app]. rewrite lines_line; [rewrite IH; reflexivity|]. split; [exact H1|]. intros (l' & E). exact (H2 eq_refl l' E).
    + change ([13%N; 10%N] ++ t) with ([13%N] ++ 10%N :: t). rewrite app_assoc. unfold lines. rewrite lines_from_nl.
      * rewrite app_nil_r, rev_app_distr. cbn [rev app no_cr]. rewrite rev_involutive. f_equal. exact IH.
      * rewrite in_app_iff. cbn. intros [Q|[Q|[]]]; [exact (H1 Q)|discriminate].
Qed.
Lemma removelast_spaced ks : removelast (flat_map (fun l => l ++ [32%N]) ks) = spaced ks.
Proof.
  induction ks as [|k ks IH]; [reflexivity|]. destruct ks as [|k2 ks].
  - cbn [flat_map]. rewrite app_nil_r. apply removelast_last.
  - cbn [flat_map spaced] in *. rewrite removelast_app; [rewrite IH, <- app_assoc; reflexivity|]. intros Q. apply app_eq_nil in Q. destruct Q as [Q _]. apply app_eq_nil in Q. destruct Q; discriminate.
Qed.
Lemma strip_comments_lines s ls : has_lines s ls -> strip_comments s = spaced (map (strip_line false) ls).
Proof.
  intros H. unfold strip_comments. rewrite (lines_has _ _ H), <- removelast_spaced. f_equal. clear H. induction ls as [|l ls IH]; [reflexivity|]. cbn [map flat_map]. rewrite IH. reflexivity.
Qed.
Lemma strip_comments_spec s ls ks : has_lines s ls -> Forall2 (fun l k => commented l k /\ ~ escaped_quote l \/ l = k /\ ~ In 35%N l) ls ks ->
  strip_comments s = spaced ks.
Proof.
  intros H1 H2. rewrite (strip_comments_lines _ _ H1). f_equal. clear H1. induction H2 as [|l k ls ks H _ IH]; [reflexivity|]. cbn. rewrite IH. f_equal.
  destruct H as [[H1 H2]|[-> H]]; [apply strip_line_commented; assumption|apply strip_line_id; exact H].
Qed.
(** a text without # only has its line breaks changed *)
Lemma lines_from_app a s : forall cur, ~ In 10%N a -> lines_from cur (a ++ s) = lines_from (rev a ++ cur) s.
Proof.
  induction a as [|c a IH]; intros cur H; [reflexivity|]. cbn [app lines_from rev].
  assert (Hc : c <> 10%N) by (intros ->; apply H; left; reflexivity). rewrite <- app_assoc. cbn [app].
  rewrite <- IH by (intros Q; apply H; right; exact Q). destruct c as [|p]; [reflexivity|]. destruct p as [p|p|]; try reflexivity. destruct p as [p|p|]; try reflexivity. destruct p as [p|p|]; try reflexivity. destruct p as [p|p|]; try reflexivity. congruence.
Qed.
(** every line has lines; and lines without quotes are commented *)
Lemma commented_total l : ~ In 34%N l -> exists k, commented l k /\ ~ In 34%N k.
Proof.
  induction l as [|c l IH]; intros H; [exists []; split; [constructor|exact H]|]. destruct (N.eq_dec c 35) as [->|Hc]; [exists []; split; [apply cm_comment|exact (fun x => x)]|].
  destruct IH as (k & Hk & Hq); [intros Q; apply H; right; exact Q|]. exists (c :: k). split; [constructor; [intros ->; apply H; left; reflexivity|exact Hc|exact Hk]|].
  intros [->|Q]; [apply H; left; reflexivity|exact (Hq Q)].
Qed.

(** ** Continuations and the final semicolon *)
Lemma replace_other c r : (c = 92%N -> forall r', r <> 10%N :: r') -> replace_continuation (c :: r) = c :: replace_continuation r.
Proof.
  intros H. destruct (N.eq_dec c 92) as [->|Hc].
  - specialize (H eq_refl). destruct r as [|d r]; [reflexivity|]. destruct (N.eq_dec d 10) as [->|Hd]; [elim (H r eq_refl)|].
    cbn [replace_continuation]. destruct d as [|[p|p|]]; try reflexivity. destruct p as [p|p|]; try reflexivity. destruct p as [p|p|]; try reflexivity. destruct p as [p|p|]; try reflexivity. congruence.
  - cbn [replace_continuation]. destruct c as [|[p|p|]]; try reflexivity. destruct p as [p|p|]; try reflexivity. destruct p as [p|p|]; try reflexivity. destruct p as [p|p|]; try reflexivity.
    destruct p as [p|p|]; try reflexivity. destruct p as [p|p|]; try reflexivity. destruct p as [p|p|]; try reflexivity. congruence.
Qed.
Lemma replace_unfolded s t : unfolded s t <-> replace_continuation s = t.
Proof.
  split.
  - induction 1 as [|s t _ IH|c s t H _ IH]; [reflexivity|cbn [replace_continuation]; rewrite IH; reflexivity|rewrite replace_other by exact H; rewrite IH; reflexivity].
  - intros <-. remember (length s) as n eqn:Hn. assert (Hl : length s <= n) by lia. clear Hn. revert s Hl. induction n as [|n IH]; intros s Hl.
    + destruct s; [constructor|cbn in Hl; lia].
    + destruct s as [|c s]; [constructor|]. cbn [length] in Hl. destruct (N.eq_dec c 92) as [->|Hc].
      * destruct s as [|d s]; [apply uf_char; [intros _ s' Q; discriminate|apply (IH [])]; cbn; lia|]. cbn [length] in Hl. destruct (N.eq_dec d 10) as [->|Hd].
        -- apply uf_cont, IH. lia.
        -- assert (Q : 92%N = 92%N -> forall r', d :: s <> 10%N :: r') by (intros _ r' E; congruence). rewrite replace_other by exact Q. apply uf_char; [exact Q|]. apply IH. cbn. lia.
      * assert (Q : c = 92%N -> forall r', s <> 10%N :: r') by congruence. rewrite replace_other by exact Q. apply uf_char; [exact Q|]. apply IH. lia.
Qed.
(** a text without continuations is its own unfolding *)
Lemma unfolded_id s : ~ continued s -> unfolded s s.
Proof.
  induction s as [|c s IH]; intros H; [constructor|]. apply uf_char.
  - intros -> s' ->. apply H. exists [], s'. reflexivity.
  - apply IH. intros (a & b & ->). apply H. exists (c :: a), b. reflexivity.
Qed.
Lemma unfolded_done s t : unfolded s t -> ~ continued t.
Proof.
  induction 1 as [|s t _ IH|c s t H Hu IH]; intros (a & b & E).
  - destruct a; discriminate.
  - destruct a as [|x a]; [discriminate|]. injection E as <- E. apply IH. exists a, b. exact E.
  - destruct a as [|x a]; [|injection E as <- E; apply IH; exists a, b; exact E]. injection E as -> ->. specialize (H eq_refl). inversion Hu; subst. exact (H s0 eq_refl).
Qed.
Lemma unfolded_fun s t t' : unfolded s t -> unfolded s t' -> t = t'.
Proof. rewrite !replace_unfolded. congruence. Qed.

Lemma is_whitespace_iff c : is_whitespace c = true <-> white c.
Proof.
  unfold is_whitespace, white. rewrite ?orb_true_iff, ?andb_true_iff, ?N.eqb_eq, ?N.leb_le. lia.
Qed.
Lemma drop_ws_spec s : exists a, s = a ++ drop_ws s /\ Forall white a /\ forall c r, drop_ws s = c :: r -> ~ white c.
Proof.
  induction s as [|c s (a & E & H1 & H2)]; [exists []; split; [reflexivity|split; [constructor|discriminate]]|]. cbn [drop_ws]. destruct (is_whitespace c) eqn:Hc.
  - exists (c :: a). split; [cbn; congruence|]. split; [constructor; [apply is_whitespace_iff; exact Hc|exact H1]|exact H2].
  - exists []. split; [reflexivity|]. split; [constructor|]. intros d r Q. injection Q as <- <-. rewrite <- is_whitespace_iff. congruence.
Qed.
Lemma ends_iff s : ends_with 59 (trim_end s) = true <-> ends_with_semicolon s.
Proof.
  unfold ends_with, trim_end. rewrite rev_involutive. destruct (drop_ws_spec (rev s)) as (a & E & H1 & H2). split.
  - destruct (drop_ws (rev s)) as [|c r] eqn:Hd; [discriminate|]. intros Q. apply N.eqb_eq in Q. subst c. exists (rev r), (rev a). split.
    + rewrite <- (rev_involutive s), E, rev_app_distr. cbn [rev]. rewrite <- app_assoc. reflexivity.
    + apply Forall_rev. exact H1.
  - intros (p & q & Es & Hq). clear E H1 H2. subst s.
    assert (R : rev (p ++ s_ ";" ++ q) = rev q ++ 59%N :: rev p) by (rewrite !rev_app_distr, <- app_assoc; reflexivity). rewrite R.
    assert (D : drop_ws (rev q ++ 59%N :: rev p) = 59%N :: rev p).
    { clear - Hq. apply Forall_rev in Hq. induction Hq as [|c l Hc _ IH]; [reflexivity|]. cbn [app drop_ws]. rewrite (proj2 (is_whitespace_iff c) Hc). exact IH. }
    rewrite D. reflexivity.
Qed.
Lemma fixup_spec s t : unfolded s t ->
  (ends_with_semicolon t -> fixup_input s = t) /\ (~ ends_with_semicolon t -> fixup_input s = t ++ s_ ";").
Proof.
  intros H. apply replace_unfolded in H. unfold fixup_input. rewrite H. destruct (ends_with 59 (trim_end t)) eqn:E.
  - split; [reflexivity|]. intros N. elim N. apply ends_iff. exact E.
  - split; [|reflexivity]. intros Q. apply ends_iff in Q. congruence.
Qed.
Lemma ends_dec s : ends_with_semicolon s \/ ~ ends_with_semicolon s.
Proof. rewrite <- ends_iff. destruct (ends_with 59 (trim_end s)); [left; reflexivity|right; discriminate]. Qed.
Lemma ends_snoc s : ends_with_semicolon (s ++ s_ ";").
Proof. exists s, []. split; [reflexivity|constructor]. Qed.
Lemma fixup_ends s : ends_with_semicolon (fixup_input s).
Proof.
  assert (H : unfolded s (replace_continuation s)) by (apply replace_unfolded; reflexivity). destruct (fixup_spec _ _ H) as [H1 H2].
  destruct (ends_dec (replace_continuation s)) as [D|D]; [rewrite H1 by exact D; exact D|rewrite H2 by exact D; apply ends_snoc].
Qed.
Lemma not_continued_snoc s : ~ continued s -> ~ continued (s ++ s_ ";").
Proof.
  intros H (a & b & E). destruct b as [|c b _] using rev_ind.
  - rewrite app_nil_r in E. change [92; 10]%N with ([92] ++ [10])%N in E. rewrite app_assoc in E. apply app_inj_tail in E. destruct E; discriminate.
  - rewrite !app_assoc in E. apply app_inj_tail in E. destruct E as [E _]. apply H. exists a, b. rewrite <- app_assoc in E. exact E.
Qed.
Lemma fixup_not_continued s : ~ continued (fixup_input s).
Proof.
  assert (H : unfolded s (replace_continuation s)) by (apply replace_unfolded; reflexivity). destruct (fixup_spec _ _ H) as [H1 H2].
  destruct (ends_dec (replace_continuation s)) as [D|D]; [rewrite H1 by exact D|rewrite H2 by exact D; apply not_continued_snoc]; eapply unfolded_done; exact H.
Qed.
Lemma fixup_idem s : fixup_input (fixup_input s) = fixup_input s.
Proof. apply (fixup_spec _ _ (unfolded_id _ (fixup_not_continued s))). apply fixup_ends. Qed.

(** ** What the grammar excludes *)
Definition bsq (s : str) : Prop := forall a b, s = a ++ 92%N :: b -> In 34%N a.
Lemma bsq_app s1 s2 : bsq s1 -> bsq s2 -> bsq (s1 ++ s2).
Proof.
  intros H1 H2 a b E. apply app_eq_app in E. destruct E as (l & [[E1 E2]|[E1 E2]]).
  - destruct l as [|c l]; [symmetry in E2; apply (H2 [] b) in E2; destruct E2|].
    injection E2 as <- E2. exact (H1 a l E1).
  - subst a. rewrite in_app_iff. right. exact (H2 l b E2).
Qed.
Lemma bsq_no s : ~ In 92%N s -> bsq s.
Proof. intros H a b ->. elim H. rewrite in_app_iff. right. left. reflexivity. Qed.
Lemma bsq_forall (P : N -> Prop) s : (forall c, P c -> c <> 92%N) -> Forall P s -> bsq s.
Proof. intros H Q. apply bsq_no. intros X. rewrite Forall_forall in Q. exact (H _ (Q _ X) eq_refl). Qed.
Lemma bsq_ws w : ws w -> bsq w.
Proof. apply bsq_forall. intros c H ->. lia. Qed.
Lemma bsq_ident x : identifier x -> bsq x.
Proof.
  intros H. destruct H as [c s H1 H2]. apply (bsq_forall (fun c => letter c \/ decimal c)); [|constructor; auto]. unfold letter, decimal. intros d Hd ->. lia.
Qed.
Lemma bsq_numeral s z : numeral s z -> bsq s.
Proof. intros H. apply (bsq_forall decimal); [unfold decimal; intros c Hc ->; lia|eapply Proof_Text.numeral_digits; exact H]. Qed.
Lemma bsq_number s z : number_text s z -> bsq s.
Proof. intros H. destruct H as [s z H _ _ _]. eapply bsq_numeral; exact H. Qed.
Lemma bsq_string s v : string_lit s v -> bsq s.
Proof. intros H a b E. destruct H. destruct a as [|c a]; [discriminate|]. injection E as <- _. left. reflexivity. Qed.
Lemma bsq_op o : bsq (op_text o). Proof. apply bsq_no. destruct o; cbn; intuition discriminate. Qed.
Lemma bsq_unop o : bsq (unop_text o). Proof. apply bsq_no. destruct o; cbn; intuition discriminate. Qed.
Ltac bsq := repeat first [assumption | apply bsq_ws; assumption | apply bsq_ident; assumption | eapply bsq_number; eassumption | eapply bsq_string; eassumption | apply bsq_op | apply bsq_unop | apply bsq_app | (apply bsq_no; cbn; intuition discriminate)].
Lemma g_bsq : (forall k s e, g_expr k s e -> bsq s) /\ (forall s e, g_full s e -> bsq s) /\ (forall s l, g_args s l -> bsq s) /\ (forall s l, g_more s l -> bsq s).
Proof. apply g_all_mi; intros; bsq. Qed.
Lemma g_full_bsq s e : g_full s e -> bsq s. Proof. apply g_bsq. Qed.
Ltac fullb P := repeat match goal with H : g_full _ _ |- _ => apply P in H | H : g_expr _ _ _ |- _ => apply (proj1 g_bsq) in H end.
Lemma g_simple_bsq ok s st : g_simple ok s st -> bsq s.
Proof. intros H; destruct H; fullb g_full_bsq; bsq. Qed.
Lemma g_semis_bsq s : g_semis s -> bsq s.
Proof. induction 1; bsq. Qed.
Lemma g_stmt_bsq ok : (forall s st, g_stmt ok s st -> bsq s) /\ (forall s st, g_block ok s st -> bsq s) /\ (forall s l, g_stmts ok s l -> bsq s).
Proof. apply g_stmt_all_mi; intros; fullb g_full_bsq; repeat match goal with H : g_semis _ |- _ => apply g_semis_bsq in H | H : g_simple _ _ _ |- _ => apply g_simple_bsq in H end; bsq. Qed.
(** a backslash can only occur after a quote *)
Lemma parse_backslash a b : ~ In 34%N a -> parse (a ++ 92%N :: b) = Err EParse.
Proof.
  intros N. destruct (parse_total (a ++ 92%N :: b)) as [(l & Hl)|Hl]; [|exact Hl]. apply parse_sound in Hl. exfalso. apply N. remember (a ++ 92%N :: b) as s eqn:Es.
  destruct Hl as [s l w Hs Hw]. revert Es. apply bsq_app; [eapply g_stmt_bsq; exact Hs|apply bsq_ws; exact Hw].
Qed.

(** every statement has a character other than white space and semicolons *)
Definition solid (s : str) : Prop := exists c, In c s /\ c <> 59%N /\ c <> 32%N /\ c <> 9%N /\ c <> 10%N /\ c <> 13%N.
Lemma solid_l a b : solid a -> solid (a ++ b).
Proof. intros (c & H & Q). exists c. rewrite in_app_iff. auto. Qed.
Lemma solid_r a b : solid b -> solid (a ++ b).
Proof. intros (c & H & Q). exists c. rewrite in_app_iff. auto. Qed.
Lemma solid_ident x : identifier x -> solid x.
Proof. intros H. destruct H as [c s H _]. exists c. split; [left; reflexivity|]. unfold letter in H. lia. Qed.
Lemma solid_number s z : number_text s z -> solid s.
Proof.
  intros H. destruct H as [s z H N _ _].
  apply Proof_Text.numeral_digits in H. destruct H as [|c s H _]; [congruence|]. exists c. split; [left; reflexivity|]. unfold decimal in H. lia.
Qed.
Lemma solid_string s v : string_lit s v -> solid s.
Proof. intros H. destruct H. exists 34%N. split; [left; reflexivity|lia]. Qed.
Lemma solid_const c s : In c s -> (33 <=? c)%N && negb (c =? 59)%N = true -> solid s.
Proof. intros H Q. exists c. split; [exact H|]. rewrite andb_true_iff, negb_true_iff, N.leb_le, N.eqb_neq in Q. lia. Qed.
Ltac solidc := match goal with |- solid (?c :: _) => apply (solid_const c); [left; reflexivity|reflexivity] end.
Lemma g_solid : (forall k s e, g_expr k s e -> solid s) /\ (forall s e, g_full s e -> solid s) /\ (forall s l, g_args s l -> True) /\ (forall s l, g_more s l -> True).
Proof.
  apply g_all_mi; intros; try exact I; try assumption; try (apply solid_r; assumption); try (apply solid_r, solid_r; assumption); try (apply solid_l; assumption);
    try (eapply solid_number; eassumption); try (eapply solid_string; eassumption); try (apply solid_ident; assumption).
  - apply (solid_const 116%N); [cbn; tauto|reflexivity].
  - apply (solid_const 102%N); [cbn; tauto|reflexivity].
  - apply (solid_const 40%N); [left; reflexivity|reflexivity].
  - apply (solid_const 40%N); [left; reflexivity|reflexivity].
Qed.
Lemma g_simple_solid ok s st : g_simple ok s st -> solid s.
Proof.
  intros H; destruct H; repeat match goal with H : g_full _ _ |- _ => apply (proj1 (proj2 g_solid)) in H | H : g_expr _ _ _ |- _ => apply (proj1 g_solid) in H end; try assumption; try (apply solid_l; assumption).
  - apply (solid_const 102%N); [left; reflexivity|reflexivity].
  - apply (solid_const 112%N); [left; reflexivity|reflexivity].
  - apply (solid_const 104%N); [left; reflexivity|reflexivity].
  - apply (solid_const 113%N); [left; reflexivity|reflexivity].
  - apply (solid_const 98%N); [left; reflexivity|reflexivity].
  - apply (solid_const 99%N); [left; reflexivity|reflexivity].
Qed.
Lemma g_stmt_solid ok s st : g_stmt ok s st -> solid s.
Proof.
  intros H; destruct H as [w s st w' t _ H _ _|w s st t _ H _].
  - apply solid_r, solid_l. eapply g_simple_solid; exact H.
  - apply solid_r, solid_l. destruct H.
    + apply (solid_const 105%N); [left; reflexivity|reflexivity].
    + apply (solid_const 105%N); [left; reflexivity|reflexivity].
    + apply (solid_const 119%N); [left; reflexivity|reflexivity].
    + apply (solid_const 102%N); [left; reflexivity|reflexivity].
Qed.
Lemma parse_semicolon s : ~ solid s -> In 59%N s -> parse s = Err EParse.
Proof.
  intros N H. destruct (parse_total s) as [(l & Hl)|Hl]; [|exact Hl]. apply parse_sound in Hl. destruct Hl as [s l w Hs Hw]. exfalso. destruct Hs as [|s st sr l Hs _].
  - cbn in H. unfold ws in Hw. rewrite Forall_forall in Hw. specialize (Hw _ H). lia.
  - apply N. apply solid_l, solid_l. eapply g_stmt_solid; exact Hs.
Qed.

(** ** The whole clean-up *)
Lemma in_split_first (c : N) s : In c s -> exists a b, s = a ++ c :: b /\ ~ In c a.
Proof.
  induction s as [|d s IH]; intros H; [destruct H|]. destruct (N.eq_dec d c) as [->|Hd]; [exists [], s; split; [reflexivity|exact (fun x => x)]|].
  destruct IH as (a & b & -> & Ha); [destruct H; [congruence|assumption]|]. exists (d :: a), b. split; [reflexivity|]. intros [Q|Q]; [exact (Hd Q)|exact (Ha Q)].
Qed.
Lemma has_lines_total s : exists ls, has_lines s ls.
Proof.
  remember (length s) as n eqn:Hn. assert (Hl : length s <= n) by lia. clear Hn. revert s Hl. induction n as [|n IH]; intros s Hl.
  - destruct s; [exists []; constructor|cbn in Hl; lia].
  - destruct (in_dec N.eq_dec 10%N s) as [H|H].
    + apply (in_split_first) in H. destruct H as (l & t & -> & Hl'). rewrite app_length in Hl. cbn [length] in Hl. destruct (IH t) as (ls & Hls); [lia|].
      destruct l as [|c l _] using rev_ind.
      * exists ([] :: ls). apply (hl_line [] [10%N] t ls); auto. intros _ l' Q. destruct l'; discriminate.
      * destruct (N.eq_dec c 13) as [->|Hc].
        -- exists (l :: ls). rewrite <- app_assoc. apply (hl_line l [13; 10]%N t ls); auto; [|discriminate]. intros Q. apply Hl'. rewrite in_app_iff. left; exact Q.
        -- exists ((l ++ [c]) :: ls). apply (hl_line (l ++ [c]) [10%N] t ls); auto. intros _ l' Q. apply app_inj_tail in Q. destruct Q; congruence.
    + destruct s as [|c s]; [exists []; constructor|]. exists [c :: s]. apply hl_last; [discriminate|exact H].
Qed.

Lemma strip_line_sub i l c : In c (strip_line i l) -> In c l.
Proof.
  revert i; induction l as [|d l IH]; intros i H; [exact H|]. cbn [strip_line] in H. destruct (d =? 34)%N; [destruct H as [H|H]; [left; exact H|right; eapply IH; exact H]|].
  destruct ((d =? 35)%N && negb i); [destruct H|]. destruct H as [H|H]; [left; exact H|right; eapply IH; exact H].
Qed.
Lemma spaced_sub ks c : In c (spaced ks) -> c = 32%N \/ exists k, In k ks /\ In c k.
Proof.
  induction ks as [|k ks IH]; [intros []|]. destruct ks as [|k2 ks].
  - intros H. right. exists k. split; [left; reflexivity|exact H].
  - intros H. cbn [spaced] in H. rewrite !in_app_iff in H. destruct H as [H|[[H|[]]|H]].
    + right. exists k. split; [left; reflexivity|exact H].
    + left. congruence.
    + destruct (IH H) as [Q|(k' & Q1 & Q2)]; [left; exact Q|right; exists k'; split; [right; exact Q1|exact Q2]].
Qed.
Lemma has_lines_no_nl s ls l : has_lines s ls -> In l ls -> ~ In 10%N l.
Proof.
  induction 1 as [|l0 H1 H2|l0 eol t ls H1 H2 H3 _ IH]; intros H; [destruct H|destruct H as [<-|[]]; exact H2|]. destruct H as [<-|H]; [exact H1|exact (IH H)].
Qed.
Lemma strip_no_nl s : ~ In 10%N (strip_comments s).
Proof.
  destruct (has_lines_total s) as (ls & H). rewrite (strip_comments_lines _ _ H). intros Q. apply spaced_sub in Q. destruct Q as [Q|(k & Q1 & Q2)]; [discriminate|].
  apply in_map_iff in Q1. destruct Q1 as (l & <- & Q1). apply strip_line_sub in Q2. exact (has_lines_no_nl _ _ _ H Q1 Q2).
Qed.
Lemma no_nl_not_continued s : ~ In 10%N s -> ~ continued s.
Proof. intros H (a & b & ->). apply H. rewrite in_app_iff. right. right. left. reflexivity. Qed.
Lemma clean_eq s : clean s = strip_comments s \/ clean s = strip_comments s ++ s_ ";".
Proof.
  unfold clean. destruct (fixup_spec _ _ (unfolded_id _ (no_nl_not_continued _ (strip_no_nl s)))) as [H1 H2].
  destruct (ends_dec (strip_comments s)) as [D|D]; [left; exact (H1 D)|right; exact (H2 D)].
Qed.
Lemma strip_line_plain i a l : ~ In 34%N a -> ~ In 35%N a -> strip_line i (a ++ l) = a ++ strip_line i l.
Proof.
  induction a as [|c a IH]; intros H1 H2; [reflexivity|]. cbn [app strip_line]. destruct (N.eqb_spec c 34) as [->|_]; [elim H1; left; reflexivity|].
  destruct (N.eqb_spec c 35) as [->|_]; [elim H2; left; reflexivity|]. cbn [andb]. rewrite IH; [reflexivity|intros Q; apply H1; right; exact Q|intros Q; apply H2; right; exact Q].
Qed.
Lemma spaced_head k ks : exists r, spaced (k :: ks) = k ++ r.
Proof. destruct ks as [|k2 ks]; [exists []; cbn; rewrite app_nil_r; reflexivity|]. exists ([32%N] ++ spaced (k2 :: ks)). reflexivity. Qed.
Lemma clean_continued a b : ~ In 34%N a -> ~ In 35%N a -> ~ In 10%N a -> exists r, clean (a ++ [92; 10]%N ++ b) = a ++ 92%N :: r.
Proof.
  intros H1 H2 H3. destruct (has_lines_total b) as (ls & Hls).
  assert (H : has_lines (a ++ [92; 10]%N ++ b) ((a ++ [92%N]) :: ls)).
  { change ([92; 10]%N ++ b) with ([92%N] ++ [10%N] ++ b). rewrite app_assoc. apply (hl_line _ [10%N]); auto.
    - rewrite in_app_iff. intros [Q|[Q|[]]]; [exact (H3 Q)|discriminate].
    - intros _ l' Q. apply app_inj_tail in Q. destruct Q; discriminate. }
  apply strip_comments_lines in H. cbn [map] in H. destruct (spaced_head (strip_line false (a ++ [92%N])) (map (strip_line false) ls)) as (r & Hr). rewrite Hr in H.
  rewrite strip_line_plain in H by assumption. change (strip_line false [92%N]) with [92%N] in H. rewrite <- app_assoc in H. change ([92%N] ++ r) with (92%N :: r) in H.
  destruct (clean_eq (a ++ [92; 10]%N ++ b)) as [Q|Q]; rewrite Q; rewrite H; [exists r; reflexivity|]. exists (r ++ s_ ";"). rewrite <- app_assoc. reflexivity.
Qed.
Lemma replace_app_other a c b : c <> 10%N -> c <> 92%N -> replace_continuation (a ++ c :: b) = replace_continuation a ++ c :: replace_continuation b.
Proof.
  intros H1 H2. apply replace_unfolded. assert (Ha : unfolded a (replace_continuation a)) by (apply replace_unfolded; reflexivity).
  assert (Hb : unfolded b (replace_continuation b)) by (apply replace_unfolded; reflexivity). induction Ha as [|s t _ IH|d s t H _ IH]; cbn [app].
  - apply uf_char; [congruence|exact Hb].
  - apply uf_cont. exact IH.
  - apply uf_char; [|exact IH]. intros -> s' Q. destruct s as [|x s]; [injection Q as Q _; congruence|injection Q as -> _; exact (H eq_refl s eq_refl)].
Qed.
Lemma replace_app_cont a b : replace_continuation (a ++ [92; 10]%N ++ b) = replace_continuation a ++ 32%N :: replace_continuation b.
Proof.
  apply replace_unfolded. assert (Ha : unfolded a (replace_continuation a)) by (apply replace_unfolded; reflexivity).
  assert (Hb : unfolded b (replace_continuation b)) by (apply replace_unfolded; reflexivity). induction Ha as [|s t _ IH|d s t H _ IH]; cbn [app].
  - apply uf_cont, Hb.
  - apply uf_cont. exact IH.
  - apply uf_char; [|exact IH]. intros -> s' Q. destruct s as [|x s]; [discriminate|injection Q as -> _; exact (H eq_refl s eq_refl)].
Qed.
Lemma fixup_continued a b : fixup_input (a ++ [92; 10]%N ++ b) = fixup_input (a ++ s_ " " ++ b).
Proof. unfold fixup_input. rewrite replace_app_cont. cbn [s_ app]. change (s_ " " ++ b) with (32%N :: b). rewrite replace_app_other by discriminate. reflexivity. Qed.
Lemma needs_more_iff l : needs_more l = true <-> exists l', l = l' ++ [92%N].
Proof.
  unfold needs_more. split.
  - intros H. exists (rev (tl (rev l))). rewrite <- (rev_involutive l) at 1. destruct (rev l) as [|c r]; [discriminate|]. assert (c = 92%N) as ->.
    { destruct c as [|p]; [discriminate|]. do 7 (destruct p as [p|p|]; try discriminate). reflexivity. }
    reflexivity.
  - intros (l' & ->). rewrite rev_app_distr. reflexivity.
Qed.
(** a blank or comment line *)
Lemma clean_blank w c : ws w -> c = [] \/ (exists t, c = s_ "#" ++ t) -> ~ In 10%N w -> ~ In 10%N c -> ~ solid (clean (w ++ c)) /\ In 59%N (clean (w ++ c)).
Proof.
  intros Hw Hc H1 H2. assert (S : forall x, In x (strip_comments (w ++ c)) -> (x = 32 \/ x = 9 \/ x = 10 \/ x = 13)%N).
  { destruct (has_lines_total (w ++ c)) as (ls & H). rewrite (strip_comments_lines _ _ H). intros x Q. apply spaced_sub in Q. destruct Q as [Q|(k & Q1 & Q2)]; [auto|].
    apply in_map_iff in Q1. destruct Q1 as (l & <- & Q1).
    assert (L : ls = [w ++ c]).
    { inversion H as [E|l0 E1 E2 E3|l0 eol t ls0 E1 E2 E3 E4 E5]; subst; [destruct Q1|reflexivity|]. exfalso. assert (X : In 10%N (w ++ c)) by (rewrite <- E5, !in_app_iff; right; left; destruct E3 as [-> | ->]; cbn; auto).
      rewrite in_app_iff in X. tauto. }
    subst ls. destruct Q1 as [<-|[]]. unfold ws in Hw. rewrite Forall_forall in Hw.
    assert (P1 : ~ In 34%N w) by (intros X; specialize (Hw _ X); lia). assert (P2 : ~ In 35%N w) by (intros X; specialize (Hw _ X); lia).
    rewrite strip_line_plain, in_app_iff in Q2 by assumption. destruct Q2 as [Q2|Q2].
    - specialize (Hw _ Q2). lia.
    - exfalso. destruct Hc as [->|(t & ->)]; exact Q2. }
  destruct (fixup_ends (strip_comments (w ++ c))) as (a & b & E & _). split.
  - intros (x & Hx & Nx). assert (X : In x (strip_comments (w ++ c)) \/ x = 59%N).
    { destruct (clean_eq (w ++ c)) as [Q|Q]; rewrite Q in Hx; [left; exact Hx|]. rewrite in_app_iff in Hx. destruct Hx as [Hx|[Hx|[]]]; auto. }
    destruct X as [X|X]; [apply S in X; lia|lia].
  - unfold clean. rewrite E, !in_app_iff. right. left. left. reflexivity.
Qed.
