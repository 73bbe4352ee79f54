(** Round trip through the canonical text. *)
From Verif Require Import Base Ast Pom Parse Value Lib Spec_Grammar Spec_Render Proof_Text Proof_Pom Proof_Parse Proof_Complete Proof_Complete2 Proof_Complete3.
Require Import Lia.

Scheme wf_mi := Minimality for wf Sort Prop with wf_list_mi := Minimality for wf_list Sort Prop.
Combined Scheme wf_all_mi from wf_mi, wf_list_mi.
Scheme wf_stmt_mi := Minimality for wf_stmt Sort Prop with wf_stmts_mi := Minimality for wf_stmts Sort Prop.
Combined Scheme wf_stmt_all_mi from wf_stmt_mi, wf_stmts_mi.

Lemma g_lower e s k j : g_expr k s e -> j <= k -> g_expr j s e.
Proof. intros H Hj. induction Hj; [exact H|]. apply IHHj. apply g_weaken. exact H. Qed.
Lemma ws_nil : ws []. Proof. constructor. Qed.
Lemma ws_sp : ws (s_ " "). Proof. constructor; [left; reflexivity|constructor]. Qed.
#[global] Hint Resolve ws_nil ws_sp : ws.
Lemma full_0 s e k : g_expr k s e -> g_full s e.
Proof. intros H. apply (g_ws [] s e ws_nil). eapply g_lower; [exact H|lia]. Qed.
Lemma full_sp s e k : g_expr k s e -> g_full (s_ " " ++ s) e.
Proof. intros H. apply (g_ws (s_ " ") s e ws_sp). eapply g_lower; [exact H|lia]. Qed.

Lemma number_dec z : (0 <= z <= 2 ^ 127 - 1)%Z -> number_text (dec_Z z) z.
Proof.
  intros H. unfold dec_Z. replace (z <? 0)%Z with false by (symmetry; apply Z.ltb_ge; lia).
  pose proof (dec_N_numeral (Z.to_N z)) as Hn. rewrite Z2N.id in Hn by lia.
  constructor; [exact Hn|apply dec_N_nonempty|apply dec_N_canonical|unfold I128_MAX; lia].
Qed.

Lemma quote_toks s : exists l, many str_token (flat_map quote_char s) l /\ denotes l s.
Proof.
  induction s as [|c s (l & Hm & Hd)]; [exists []; split; constructor|]. exists (inl c :: l). split; [|constructor; exact Hd].
  cbn [flat_map]. constructor; [|exact Hm]. constructor. unfold quote_char.
  destruct (c =? 34)%N eqn:E1; [apply N.eqb_eq in E1; subst; constructor|].
  destruct (c =? 92)%N eqn:E2; [apply N.eqb_eq in E2; subst; constructor|].
  apply N.eqb_neq in E1. apply N.eqb_neq in E2. constructor; assumption.
Qed.
Lemma quote_lit s : string_lit (quote s) s.
Proof. destruct (quote_toks s) as (l & Hm & Hd). unfold quote. exact (sl_intro _ _ _ Hm Hd). Qed.

Definition rargs (args : list expr) : str :=
  match args with [] => [] | a :: rest => render a ++ flat_map (fun b => s_ ", " ++ render b) rest end.
Lemma render_grammar : (forall e, wf e -> g_expr (level e) (render e) e) /\
  (forall l, wf_list l -> Forall (fun e => g_expr (level e) (render e) e) l).
Proof.
  apply wf_all_mi; cbn [level render].
  - intros x H1 H2 H3. apply g_ident; assumption.
  - intros z H. apply g_int, number_dec, H.
  - intros [|]; [apply g_true|apply g_false].
  - intros s. apply g_str, quote_lit.
  - intros e _ IH H. apply (g_paren (render e) e [] (full_0 _ _ _ IH) ws_nil H).
  - intros e f _ IH H Hf. apply (g_field (render e) e [] f); [eapply g_lower; eassumption|apply ws_nil|exact Hf].
  - intros e i _ IH H _ IHi. apply (g_index (render e) e [] (render i) i []); try apply ws_nil; [eapply g_lower; eassumption|eapply full_0; exact IHi].
  - intros e args _ IH H _ IHa. apply (g_call (render e) e [] (rargs args) args []); try apply ws_nil; [eapply g_lower; eassumption|].
    destruct IHa as [|a l Ha Hl]; [constructor|]. cbn [rargs]. constructor; [eapply full_0; exact Ha|].
    induction Hl as [|b l Hb Hl IHl]; [constructor|]. cbn [flat_map]. rewrite <- app_assoc.
    change (s_ ", " ++ render b ++ ?x) with ([] ++ s_ "," ++ (s_ " " ++ render b) ++ x).
    apply (gm_cons [] (s_ " " ++ render b) b); [apply ws_nil|eapply full_sp; exact Hb|exact IHl].
  - intros o e _ IH H. apply (g_unop o [] (render e) e ws_nil). eapply g_lower; eassumption.
  - intros t e Ht _ IH H.
    apply (g_cast [] (s_ " ") t [] [] (render e) e); auto with ws. eapply g_lower; eassumption.
  - intros o l r _ IHl _ IHr H5 H1 H2.
    apply (g_binop o (render l) l (s_ " ") (s_ " ") (render r) r); auto with ws; eapply g_lower; try eassumption.
  - intros o l r _ IHl _ IHr H5 H1 H2. rewrite H5.
    apply (g_eqop o (render l) l (s_ " ") (s_ " ") (render r) r); auto with ws; eapply g_lower; try eassumption.
  - constructor.
  - intros e l _ He _ Hl. constructor; assumption.
Qed.
Lemma render_full e : wf e -> g_full (render e) e.
Proof. intros H. eapply full_0. apply (proj1 render_grammar), H. Qed.
Lemma render_expr0 e : wf e -> g_expr 0 (render e) e.
Proof. intros H. eapply g_lower; [apply (proj1 render_grammar), H|lia]. Qed.

(** ** The first word *)
Lemma begins_nil_letters t c s : Forall letter t -> t <> [] -> begins t (c :: s) -> letter c.
Proof. intros Ht Hn [u E]. destruct t as [|d t]; [congruence|]. cbn in E. injection E as -> _. inversion Ht; assumption. Qed.
Definition FW (s : str) (e : expr) : Prop := forall t, Forall letter t -> t <> [] -> (begins t s <-> begins t (first_word e)).
Lemma fw_nonletter c s e : ~ letter c -> first_word e = [] -> FW (c :: s) e.
Proof.
  intros Hc He t Ht Hn. rewrite He. split; intros B; exfalso.
  - apply Hc. eapply begins_nil_letters; eassumption.
  - destruct B as [u E]. symmetry in E. apply app_eq_nil in E. tauto.
Qed.
Lemma fw_app s e r e' : FW s e -> noid r -> first_word e' = first_word e -> FW (s ++ r) e'.
Proof.
  intros H Hr He t Ht Hn. rewrite He, <- (H t Ht Hn). split; intros B; [eapply begins_noid; eassumption|].
  destruct B as [u ->]. exists (u ++ r). rewrite app_assoc. reflexivity.
Qed.
Lemma op_noid o r : noid (op_text o ++ r).
Proof. destruct o; cbn; unfold letter, decimal; lia. Qed.
Lemma first_word_all : (forall k s e, g_expr k s e -> FW s e) /\ (forall s e, g_full s e -> True) /\
  (forall s l, g_args s l -> True) /\ (forall s l, g_more s l -> True).
Proof.
  apply g_all_mi; try (intros; exact I).
  - intros s z H. destruct (number_head _ _ H) as (c & t & -> & Hc). apply fw_nonletter; [unfold letter, decimal in *; lia|reflexivity].
  - intros t Ht Hn. reflexivity.
  - intros t Ht Hn. reflexivity.
  - intros s H1 H2 H3 t Ht Hn. reflexivity.
  - intros s v H. destruct (string_head _ _ H) as (t & ->). apply fw_nonletter; [unfold letter; lia|reflexivity].
  - intros. apply (fw_nonletter 40%N); [unfold letter; lia|reflexivity].
  - intros s e w sa args w' _ IH Hw _ _ _. apply (fw_app _ e); [exact IH| |reflexivity]. apply ws_head_noid; [exact Hw|cbn; unfold letter, decimal; lia].
  - intros s e w si i w' _ IH Hw _ _ _. apply (fw_app _ e); [exact IH| |reflexivity]. apply ws_head_noid; [exact Hw|cbn; unfold letter, decimal; lia].
  - intros s e w f _ IH Hw _. apply (fw_app _ e); [exact IH| |reflexivity]. apply ws_head_noid; [exact Hw|cbn; unfold letter, decimal; lia].
  - intros o w s e _ _ _. destruct o; [apply (fw_nonletter 126%N)|apply (fw_nonletter 33%N)|apply (fw_nonletter 45%N)]; try reflexivity; unfold letter; lia.
  - intros. apply (fw_nonletter 40%N); [unfold letter; lia|reflexivity].
  - intros o s1 e1 w1 w2 s2 e2 _ _ IH Hw _ _ _. apply (fw_app _ e1); [exact IH| |reflexivity]. apply ws_head_noid; [exact Hw|apply op_noid].
  - intros o s1 e1 w1 w2 s2 e2 _ _ IH Hw _ _ _. apply (fw_app _ e1); [exact IH| |reflexivity]. apply ws_head_noid; [exact Hw|apply op_noid].
  - intros k s e _ IH. exact IH.
Qed.
Lemma unreserved_word k s e : g_expr k s e -> (unreserved s <-> unreserved (first_word e)).
Proof.
  intros H. apply (proj1 first_word_all) in H. unfold unreserved.
  rewrite (H _ letters_help ltac:(discriminate)), (H _ letters_quit ltac:(discriminate)), (H _ letters_break ltac:(discriminate)),
    (H _ letters_continue ltac:(discriminate)). reflexivity.
Qed.
Lemma unambiguous_word k s e : g_expr k s e -> (unambiguous_start s <-> unambiguous_start (first_word e)).
Proof.
  intros H. unfold unambiguous_start. rewrite (unreserved_word _ _ _ H). apply (proj1 first_word_all) in H.
  rewrite (H _ letters_print ltac:(discriminate)). reflexivity.
Qed.

(** ** Statements *)
Lemma simple_render s st : g_simple unambiguous_start s st -> g_stmt unambiguous_start (s ++ s_ ";") st.
Proof. intros H. apply (g_simple_stmt _ [] s st [] [] ws_nil H ws_nil (gs_nil)). Qed.
Lemma block_render s st : g_block unambiguous_start s st -> g_stmt unambiguous_start s st.
Proof. intros H. rewrite <- (app_nil_r s). apply (g_block_stmt _ [] s st [] ws_nil H gs_nil). Qed.
Ltac rw := repeat rewrite app_assoc.
Lemma render_assign_ok t e : wf t -> unambiguous_start (first_word t) ->
  (wf e \/ exists o r, e = EBin o t r /\ (o = OPlus \/ o = OMinus) /\ wf r) -> g_stmt unambiguous_start (render_assign t e) (SAssign t e).
Proof.
  intros Ht Hw He.
  assert (Hs : unambiguous_start (render t)) by (apply (unambiguous_word _ _ _ (render_expr0 _ Ht)); exact Hw).
  assert (Plain : wf e -> g_stmt unambiguous_start (render t ++ s_ " = " ++ render e ++ s_ ";") (SAssign t e)).
  { intros We. assert (E : render t ++ s_ " = " ++ render e ++ s_ ";" = (render t ++ s_ " " ++ s_ "=" ++ s_ " " ++ render e) ++ s_ ";").
    { change (s_ " = ") with (s_ " " ++ s_ "=" ++ s_ " "). norm. reflexivity. }
    rewrite E. apply simple_render, g_assign; auto with ws; [apply render_expr0, Ht|eapply full_sp, render_expr0, We]. }
  assert (Plus : forall r, wf r -> g_stmt unambiguous_start (render t ++ s_ " += " ++ render r ++ s_ ";") (SAssign t (EBin OPlus t r))).
  { intros r We. assert (E : render t ++ s_ " += " ++ render r ++ s_ ";" = (render t ++ s_ " " ++ s_ "+=" ++ s_ " " ++ render r) ++ s_ ";").
    { change (s_ " += ") with (s_ " " ++ s_ "+=" ++ s_ " "). norm. reflexivity. }
    rewrite E. apply simple_render, g_plus_assign; auto with ws; [apply render_expr0, Ht|eapply full_sp, render_expr0, We]. }
  assert (Minus : forall r, wf r -> g_stmt unambiguous_start (render t ++ s_ " -= " ++ render r ++ s_ ";") (SAssign t (EBin OMinus t r))).
  { intros r We. assert (E : render t ++ s_ " -= " ++ render r ++ s_ ";" = (render t ++ s_ " " ++ s_ "-=" ++ s_ " " ++ render r) ++ s_ ";").
    { change (s_ " -= ") with (s_ " " ++ s_ "-=" ++ s_ " "). norm. reflexivity. }
    rewrite E. apply simple_render, g_minus_assign; auto with ws; [apply render_expr0, Ht|eapply full_sp, render_expr0, We]. }
  assert (Compound : forall o t' r, e = EBin o t' r -> wf r /\ (wf e \/ (t = t' /\ (o = OPlus \/ o = OMinus)))).
  { intros o t' r E. destruct He as [We|(o2 & r2 & E2 & Ho & Wr)].
    - split; [|auto]. rewrite E in We. inversion We; assumption.
    - rewrite E2 in E. injection E as -> -> ->. auto. }
  unfold render_assign. destruct e as [| | | | | | | |o t' r| |]; try (apply Plain; destruct He as [He|(o2 & r2 & E2 & _)]; [exact He|discriminate]).
  destruct (Compound o t' r eq_refl) as [Wr C]. destruct (expr_dec t t') as [<-|Hne].
  - destruct o; try (apply Plain; destruct C as [C|[_ [C|C]]]; [exact C|discriminate|discriminate]); auto.
  - apply Plain. destruct C as [C|[C _]]; [exact C|congruence].
Qed.
Lemma render_stmts : (forall st, wf_stmt unambiguous_start st -> g_stmt unambiguous_start (render_stmt st) st) /\
  (forall l, wf_stmts unambiguous_start l -> g_stmts unambiguous_start (flat_map render_stmt l) l).
Proof.
  apply wf_stmt_all_mi; cbn [render_stmt].
  - intros t e Ht Hw He. apply render_assign_ok; auto.
  - intros t o e Ht Hw Ho He. apply render_assign_ok; auto. right. eauto.
  - intros c tb fb Hc _ IH1 Hfb IH2. apply block_render. destruct Hfb as [|st l H1 H2].
    + assert (E : s_ "if " ++ render c ++ s_ " {" ++ flat_map render_stmt tb ++ s_ "}" ++ [] =
        s_ "if" ++ (s_ " " ++ render c) ++ s_ " " ++ s_ "{" ++ flat_map render_stmt tb ++ [] ++ s_ "}") by (norm; reflexivity).
      rewrite E. apply g_if; auto with ws. eapply full_sp, render_expr0, Hc.
    + set (fb := st :: l) in *.
      assert (E : s_ "if " ++ render c ++ s_ " {" ++ flat_map render_stmt tb ++ s_ "}" ++ s_ " else {" ++ flat_map render_stmt fb ++ s_ "}" =
        s_ "if" ++ (s_ " " ++ render c) ++ s_ " " ++ s_ "{" ++ flat_map render_stmt tb ++ [] ++ s_ "}" ++ s_ " " ++ s_ "else" ++ s_ " " ++ s_ "{" ++
          flat_map render_stmt fb ++ [] ++ s_ "}") by (norm; reflexivity).
      rewrite E. apply g_if_else; auto with ws. eapply full_sp, render_expr0, Hc.
  - intros c b Hc _ IH. apply block_render.
    assert (E : s_ "while " ++ render c ++ s_ " {" ++ flat_map render_stmt b ++ s_ "}" =
        s_ "while" ++ (s_ " " ++ render c) ++ s_ " " ++ s_ "{" ++ flat_map render_stmt b ++ [] ++ s_ "}") by (norm; reflexivity).
    rewrite E. apply g_while; auto with ws. eapply full_sp, render_expr0, Hc.
  - intros x e b Hx He _ IH. apply block_render. cbn [render].
    assert (E : s_ "for " ++ x ++ s_ " in " ++ render e ++ s_ " {" ++ flat_map render_stmt b ++ s_ "}" =
        s_ "for" ++ s_ " " ++ x ++ s_ " " ++ s_ "in" ++ (s_ " " ++ render e) ++ s_ " " ++ s_ "{" ++ flat_map render_stmt b ++ [] ++ s_ "}") by (norm; reflexivity).
    rewrite E. apply g_for; auto with ws; [discriminate|]. eapply full_sp, render_expr0, He.
  - apply (simple_render (s_ "break")). constructor.
  - apply (simple_render (s_ "continue")). constructor.
  - apply (simple_render (s_ "help")). constructor.
  - apply (simple_render (s_ "quit")). constructor.
  - intros s. assert (E : s_ "filesystem " ++ render (EStr s) ++ s_ ";" = (s_ "filesystem" ++ s_ " " ++ quote s) ++ s_ ";") by (norm; reflexivity).
    rewrite E. apply simple_render, g_filesystem; [apply ws_sp|apply quote_lit].
  - intros e He. assert (E : s_ "print " ++ render e ++ s_ ";" = (s_ "print" ++ s_ " " ++ render e) ++ s_ ";") by (norm; reflexivity).
    rewrite E. apply simple_render, g_print. eapply full_sp, render_expr0, He.
  - intros e He Hw. apply simple_render, g_expr_stmt; [|apply render_expr0, He]. apply (unambiguous_word _ _ _ (render_expr0 _ He)). exact Hw.
  - constructor.
  - intros st l _ H1 _ H2. cbn [flat_map]. constructor; assumption.
Qed.
Theorem parse_render p : wf_stmts unambiguous_start p -> parse (render_program p) = Ok p.
Proof.
  intros H. apply parse_complete. unfold render_program. rewrite <- (app_nil_r (flat_map render_stmt p)).
  constructor; [apply (proj2 render_stmts), H|apply ws_nil].
Qed.

(** ** What the parser yields is well-formed *)
Lemma numeral_nonneg' s z : numeral s z -> (0 <= z)%Z.
Proof. apply numeral_nonneg. Qed.
Lemma op_level_9 o : op_level o <= 9. Proof. destruct o; cbn; lia. Qed.
Lemma g_wf : (forall k s e, g_expr k s e -> wf e /\ k <= level e) /\ (forall s e, g_full s e -> wf e) /\
  (forall s l, g_args s l -> wf_list l) /\ (forall s l, g_more s l -> wf_list l).
Proof.
  apply g_all_mi; cbn [level]; unfold primary_level, postfix_level, unary_level.
  - intros s z [s' z' H1 H2 H3 H4]. split; [|lia]. constructor. apply numeral_nonneg in H1. unfold I128_MAX in H4. lia.
  - split; [constructor|lia].
  - split; [constructor|lia].
  - intros s H1 H2 H3. split; [constructor; assumption|lia].
  - intros s v _. split; [constructor|lia].
  - intros s e w _ IH _ H. split; [constructor; assumption|lia].
  - intros s e w sa args w' _ [IH Hl] _ _ IHa _. split; [constructor; assumption|lia].
  - intros s e w si i w' _ [IH Hl] _ _ IHi _. split; [constructor; assumption|lia].
  - intros s e w f _ [IH Hl] _ Hf. split; [constructor; assumption|lia].
  - intros o w s e _ _ [IH Hl]. split; [constructor; assumption|lia].
  - intros w1 w2 t w3 w4 s e _ _ Ht _ _ _ [IH Hl]. split; [constructor; assumption|lia].
  - intros o s1 e1 w1 w2 s2 e2 H5 _ [I1 L1] _ _ _ [I2 L2]. split; [apply wf_bin; assumption|lia].
  - intros o s1 e1 w1 w2 s2 e2 H5 _ [I1 L1] _ _ _ [I2 L2]. split; [apply wf_eq; assumption|lia].
  - intros k s e _ [IH Hl]. split; [exact IH|lia].
  - intros w s e _ _ [IH _]. exact IH.
  - constructor.
  - intros s e sr args _ IH _ IH2. constructor; assumption.
  - constructor.
  - intros w s e sr args _ _ IH _ IH2. constructor; assumption.
Qed.
Lemma simple_wf s st : g_simple unreserved s st -> wf_stmt unreserved st.
Proof.
  intros H. destruct H as [w s v Hw Hs|s e He| | | | |s1 t w1 s2 e Hok H1 Hw1 H2|s1 t w1 s2 e Hok H1 Hw1 H2|s1 t w1 s2 e Hok H1 Hw1 H2|s e Hok He];
    try (constructor; fail).
  - constructor. apply (proj1 (proj2 g_wf)) in He. exact He.
  - apply wf_assign; [apply (proj1 g_wf) in H1; tauto|apply (unreserved_word _ _ _ H1), Hok|apply (proj1 (proj2 g_wf)) in H2; exact H2].
  - apply wf_compound; [apply (proj1 g_wf) in H1; tauto|apply (unreserved_word _ _ _ H1), Hok|auto|apply (proj1 (proj2 g_wf)) in H2; exact H2].
  - apply wf_compound; [apply (proj1 g_wf) in H1; tauto|apply (unreserved_word _ _ _ H1), Hok|auto|apply (proj1 (proj2 g_wf)) in H2; exact H2].
  - apply wf_expr; [apply (proj1 g_wf) in He; tauto|apply (unreserved_word _ _ _ He), Hok].
Qed.
Lemma stmts_wf : (forall s st, g_stmt unreserved s st -> wf_stmt unreserved st) /\ (forall s st, g_block unreserved s st -> wf_stmt unreserved st) /\
  (forall s l, g_stmts unreserved s l -> wf_stmts unreserved l).
Proof.
  apply g_stmt_all_mi; intros; try (repeat match goal with H : g_full _ _ |- _ => apply (proj1 (proj2 g_wf)) in H end; constructor; auto; fail).
  - eapply simple_wf; eassumption.
  - assumption.
  - constructor; [eapply (proj1 (proj2 g_wf)); eassumption|assumption|constructor].
Qed.
Theorem parse_wf text p : parse text = Ok p -> wf_stmts unreserved p.
Proof. intros H. apply parse_sound in H. destruct H as [s l w H _]. eapply (proj2 (proj2 stmts_wf)). exact H. Qed.
