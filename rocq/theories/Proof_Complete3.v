(** The parser is complete for the grammar of statements: blocks, sequences, programs. *)
From Verif Require Import Base Ast Pom Parse Lib Spec_Grammar Proof_Pom Proof_Parse Proof_Complete Proof_Complete2.
Require Import Lia.

Definition stopr (rest : str) : Prop := exists w t, rest = w ++ t /\ ws w /\ (t = [] \/ exists u, t = 125%N :: u).
Definition noelse (rest : str) : Prop := forall w w' u, ws w -> ws w' -> rest <> w ++ s_ "else" ++ w' ++ s_ "{" ++ u.
Definition nosemi (rest : str) : Prop := forall w u, ws w -> rest <> w ++ s_ ";" ++ u.

Lemma stopr_nows t : (t = [] \/ exists u, t = 125%N :: u) -> nows t.
Proof. intros [->|[u ->]]; [exact I|]. apply nows_s. unfold spc. lia. Qed.
Lemma stopr_noelse r : stopr r -> noelse r.
Proof.
  intros (w & t & -> & Hw & Ht) w1 w2 u Hw1 Hw2 E. apply ws_unique in E; auto; [|apply stopr_nows, Ht|apply nows_s; unfold spc; cbn; lia].
  destruct E as [_ E]. destruct Ht as [->|[u' ->]]; discriminate.
Qed.
Lemma stopr_nosemi r : stopr r -> nosemi r.
Proof.
  intros (w & t & -> & Hw & Ht) w1 u Hw1 E. apply ws_unique in E; auto; [|apply stopr_nows, Ht|apply nows_s; unfold spc; cbn; lia].
  destruct E as [_ E]. destruct Ht as [->|[u' ->]]; discriminate.
Qed.
Lemma stopr_brace w u : ws w -> stopr (w ++ s_ "}" ++ u).
Proof. intros H. exists w, (s_ "}" ++ u). repeat split; auto. right. exists u. reflexivity. Qed.
Lemma stopr_ws w : ws w -> stopr w.
Proof. intros H. exists w, []. rewrite app_nil_r. auto. Qed.

Lemma letter_starts c u : letter c -> starts (c :: u).
Proof. intros H. apply starts_c. left. exact H. Qed.
Lemma simple_starts ok s st : g_simple ok s st -> starts s.
Proof.
  intros H. destruct H; try (apply letter_starts; cbn; unfold letter; lia).
  - apply starts_app. eapply expr_starts; eassumption.
  - apply starts_app. eapply expr_starts; eassumption.
  - apply starts_app. eapply expr_starts; eassumption.
  - eapply expr_starts; eassumption.
Qed.
Lemma block_starts ok s st : g_block ok s st -> starts s.
Proof. intros H. destruct H; apply letter_starts; cbn; unfold letter; lia. Qed.
Lemma stmt_shape ok s st : g_stmt ok s st -> exists w s' , s = w ++ s' /\ ws w /\ starts s'.
Proof.
  intros H. destruct H as [w s st w' t Hw Hs Hw' Ht|w s st t Hw Hs Ht]; eexists _, _; (split; [reflexivity|split; [exact Hw|]]);
    apply starts_app; [eapply simple_starts|eapply block_starts]; eassumption.
Qed.
Lemma stmts_nosemi ok s l rest : g_stmts ok s l -> stopr rest -> nosemi (s ++ rest).
Proof.
  intros H Hr. destruct H as [|s st sr l Hs Hl]; [apply stopr_nosemi, Hr|].
  destruct (stmt_shape _ _ _ Hs) as (w & s' & -> & Hw & c & v & -> & Hc). intros w1 u Hw1 E.
  repeat rewrite <- app_assoc in E. apply ws_unique in E; auto.
  - destruct E as [_ E]. cbn in E. injection E as -> _. unfold startc, letter, decimal in Hc. cbn in Hc. lia.
  - apply nows_s. apply startc_spc, Hc.
  - apply nows_s. unfold spc; cbn; lia.
Qed.
Lemma stmts_noelse ok s l rest : g_stmts ok s l -> stopr rest -> noelse (s ++ rest).
Proof.
  intros H Hr. destruct H as [|s st sr l Hs Hl]; [apply stopr_noelse, Hr|]. intros w1 w2 u Hw1 Hw2 E.
  destruct Hs as [w s st w' t Hw Hs Hw' Ht|w s st t Hw Hs Ht].
  - assert (X : 59%N = 123%N); [|discriminate].
    eapply (skips_unique (w ++ s ++ w') ltac:(repeat apply skips_app; [apply skips_ws, Hw|eapply simple_skips, Hs|apply skips_ws, Hw'])
      (w1 ++ s_ "else" ++ w2) 59%N (t ++ sr ++ rest) 123%N u); [|unfold stopper; lia|unfold stopper; lia|].
    + skp.
    + repeat rewrite <- app_assoc in E. repeat rewrite <- app_assoc. exact E.
  - repeat rewrite <- app_assoc in E. destruct (block_starts _ _ _ Hs) as (c & v & Es & Hc).
    apply ws_unique in E; auto; [|rewrite Es; apply nows_s, startc_spc, Hc|apply nows_s; unfold spc; cbn; lia].
    destruct E as [_ E]. destruct Hs; cbn in E; discriminate.
Qed.

Section Stop.
Variable pss : parser (list stmt).
Lemma block_stop t : (t = [] \/ exists u, t = 125%N :: u) -> block_stmt pss t = PFail.
Proof.
  intros Ht. assert (K : forall k c x, k = c :: x -> c <> 125%N -> tag k t = PFail).
  { intros k c x -> Hc. apply tag_fail. intros [y E]. destruct Ht as [->|[u ->]]; [discriminate|]. cbn in E. injection E as E _. congruence. }
  unfold block_stmt. apply palt_fail; [|apply palt_fail].
  - unfold if_else_stmt. apply pmap_fail, pseq_fail1. unfold if_stmt. apply pleft_fail1, pleft_fail1, pseq_fail1, pleft_fail1, pleft_fail1, pright_fail1.
    eapply K; [reflexivity|discriminate].
  - unfold while_stmt. apply pmap_fail, pleft_fail1, pleft_fail1, pseq_fail1, pleft_fail1, pleft_fail1, pright_fail1.
    eapply K; [reflexivity|discriminate].
  - unfold for_stmt. apply pmap_fail, pleft_fail1, pleft_fail1, pseq_fail1, pleft_fail1, pleft_fail1, pseq_fail1, pleft_fail1, pleft_fail1, pright_fail1, pright_fail1.
    eapply K; [reflexivity|discriminate].
Qed.
Lemma stmt_stop r : stopr r -> p_stmt pss r = PFail.
Proof.
  intros (w & t & -> & Hw & Ht). unfold p_stmt. apply pleft_fail1. eapply pright_fail2; [apply space_ok; [exact Hw|apply stopr_nows, Ht]|].
  apply palt_fail; [|apply block_stop, Ht]. destruct Ht as [->|[u ->]]; [apply semicolon_fail_nil|].
  apply (semicolon_fail _ [] 125%N u); [apply nows_s; unfold spc; lia|reflexivity|constructor|lia].
Qed.
Lemma else_fail rest : noelse rest -> else_stmt pss rest = PFail.
Proof.
  intros H. destruct (space_split rest) as (w & r & -> & Hw & Hr). unfold else_stmt.
  apply pleft_fail1, pleft_fail1, pright_fail1.
  destruct (strip_prefix (s_ "else") r) as [r1|] eqn:E.
  - apply strip_prefix_app in E. subst r. destruct (space_split r1) as (w' & r2 & -> & Hw' & Hr2).
    eapply pright_fail2.
    + eapply pright_ok; [eapply pright_ok; [apply space_ok; assumption|apply tag_ok]|apply space_ok; assumption].
    + apply sym_fail. destruct r2 as [|c u]; [exact I|]. intros ->. exact (H w w' u Hw Hw' eq_refl).
  - apply pright_fail1, pright_fail1. eapply pright_fail2; [apply space_ok; assumption|]. unfold tag. rewrite E. reflexivity.
Qed.
End Stop.

Lemma semis_complete t : g_semis t -> forall rest, nosemi rest -> exists l, prep (pright space (sym (c_ ";"))) (t ++ rest) = POk l rest.
Proof.
  induction 1 as [|w s Hw Hs IH]; intros rest Hr.
  - cbn [app]. exists []. apply prep_nil. destruct (space_split rest) as (w & r & E & Hw & Hn).
    eapply pright_fail2; [rewrite E; apply space_ok; assumption|]. apply sym_fail. destruct r as [|c u]; [exact I|]. intros ->. exact (Hr w u Hw E).
  - destruct (IH rest Hr) as [l P]. exists (c_ ";" :: l). repeat rewrite <- app_assoc. eapply prep_cons; [|shelve|exact P].
    eapply pright_ok; [apply space_ok; [exact Hw|apply nows_s; unfold spc; cbn; lia]|apply sym_ok].
    Unshelve. repeat rewrite app_length. cbn. lia.
Qed.

Definition ok := unambiguous_start.
Definition Pblock (s : str) (st : stmt) : Prop := forall f rest, length s <= f -> noelse rest -> block_stmt (p_stmts_f f) (s ++ rest) = POk st rest.
Definition Pstmt (s : str) (st : stmt) : Prop := forall f rest, length s <= f -> noelse rest -> nosemi rest -> p_stmt (p_stmts_f f) (s ++ rest) = POk st rest.
Definition Pstmts (s : str) (l : list stmt) : Prop := forall f rest, length s < f -> stopr rest -> p_stmts_f f (s ++ rest) = POk l rest.

Lemma bnd_brace w u : ws w -> bnd 0 (w ++ s_ "{" ++ u).
Proof. intros H. apply (bnd_punct 0 w 123%N u H). cbn; tauto. Qed.
Lemma nows_brace u : nows (s_ "{" ++ u). Proof. apply nows_s. unfold spc; cbn; lia. Qed.
Lemma nows_brace' u : nows (s_ "}" ++ u). Proof. apply nows_s. unfold spc; cbn; lia. Qed.
Ltac lens := repeat rewrite app_length in *; cbn [length] in *;
  repeat match goal with
  | H : context [length (s_ ?x)] |- _ => let n := eval vm_compute in (length (s_ x)) in change (length (s_ x)) with n in H
  | |- context [length (s_ ?x)] => let n := eval vm_compute in (length (s_ x)) in change (length (s_ x)) with n
  end; lia.

Lemma braced_ok f sb b w rest : Pstmts sb b -> length sb < f -> ws w ->
  pleft (pleft (p_stmts_f f) space) (sym (c_ "}")) (sb ++ w ++ s_ "}" ++ rest) = POk b rest.
Proof.
  intros H Hl Hw. eapply pleft_ok; [eapply pleft_ok; [apply H; [exact Hl|apply stopr_brace, Hw]|apply space_ok; [exact Hw|apply nows_brace']]|apply sym_ok].
Qed.
Lemma head_ok k sc c w u : g_full sc c -> ws w ->
  pleft (pleft (pright (tag k) p_expr) space) (sym (c_ "{")) (k ++ sc ++ w ++ s_ "{" ++ u) = POk c u.
Proof.
  intros Hc Hw. eapply pleft_ok; [eapply pleft_ok; [eapply pright_ok; [apply tag_ok|apply full_complete; [exact Hc|apply bnd_brace, Hw]]|apply space_ok; [exact Hw|apply nows_brace]]|apply sym_ok].
Qed.
Lemma body_ok {A} (p : parser A) f i a sb b w rest : p i = POk a (sb ++ w ++ s_ "}" ++ rest) -> Pstmts sb b -> length sb < f -> ws w ->
  pleft (pleft (pseq p (p_stmts_f f)) space) (sym (c_ "}")) i = POk (a, b) rest.
Proof.
  intros H1 H2 H3 Hw. eapply pleft_ok; [eapply pleft_ok; [eapply pseq_ok; [exact H1|apply H2; [exact H3|apply stopr_brace, Hw]]|apply space_ok; [exact Hw|apply nows_brace']]|apply sym_ok].
Qed.
Lemma if_ok f sc c w sb b w' rest : g_full sc c -> ws w -> Pstmts sb b -> length sb < f -> ws w' ->
  if_stmt (p_stmts_f f) (s_ "if" ++ sc ++ w ++ s_ "{" ++ sb ++ w' ++ s_ "}" ++ rest) = POk (c, b) rest.
Proof. intros Hc Hw Hb Hl Hw'. unfold if_stmt. eapply body_ok; [apply head_ok; eassumption|exact Hb|exact Hl|exact Hw']. Qed.
Lemma else_ok f w1 w2 sb b w' rest : ws w1 -> ws w2 -> Pstmts sb b -> length sb < f -> ws w' ->
  else_stmt (p_stmts_f f) (w1 ++ s_ "else" ++ w2 ++ s_ "{" ++ sb ++ w' ++ s_ "}" ++ rest) = POk b rest.
Proof.
  intros H1 H2 Hb Hl Hw'. unfold else_stmt.
  eapply pleft_ok; [eapply pleft_ok; [eapply pright_ok; [|apply Hb; [exact Hl|apply stopr_brace, Hw']]|apply space_ok; [exact Hw'|apply nows_brace']]|apply sym_ok].
  eapply pright_ok; [eapply pright_ok; [eapply pright_ok; [apply space_ok; [exact H1|apply nows_s; unfold spc; cbn; lia]|apply tag_ok]|apply space_ok; [exact H2|apply nows_brace]]|apply sym_ok].
Qed.

Lemma if_not pss r : ~ begins (s_ "if") r -> if_else_stmt pss r = PFail.
Proof.
  intros H. unfold if_else_stmt. apply pmap_fail, pseq_fail1. unfold if_stmt.
  apply pleft_fail1, pleft_fail1, pseq_fail1, pleft_fail1, pleft_fail1, pright_fail1, tag_fail, H.
Qed.
Lemma while_not pss r : ~ begins (s_ "while") r -> while_stmt pss r = PFail.
Proof.
  intros H. unfold while_stmt. apply pmap_fail, pleft_fail1, pleft_fail1, pseq_fail1, pleft_fail1, pleft_fail1, pright_fail1, tag_fail, H.
Qed.

Lemma block_simple_fail okk s st rest : g_block okk s st -> stmt_semicolon (s ++ rest) = PFail.
Proof.
  intros H. pose proof (block_starts _ _ _ H) as Hs.
  assert (X : exists a u, s = a ++ 123%N :: u /\ skips a).
  { destruct H as [sc c w sb b w'|sc c w sb b w' w1 w2 se eb w3|sc c w sb b w'|w1 x w2 se e w3 sb b w4].
    - exists (s_ "if" ++ sc ++ w). eexists. split; [norm; reflexivity|gskp].
    - exists (s_ "if" ++ sc ++ w). eexists. split; [norm; reflexivity|gskp].
    - exists (s_ "while" ++ sc ++ w). eexists. split; [norm; reflexivity|gskp].
    - exists (s_ "for" ++ w1 ++ x ++ w2 ++ s_ "in" ++ se ++ w3). eexists. split; [norm; reflexivity|gskp]. }
  destruct X as (a & u & E & Ha). eapply (semicolon_fail _ a 123%N (u ++ rest)); [|rewrite E; norm; reflexivity|exact Ha|lia].
  apply starts_nows, starts_app, Hs.
Qed.

Lemma stmts_complete_all :
  (forall s st, g_stmt ok s st -> Pstmt s st) /\ (forall s st, g_block ok s st -> g_block ok s st /\ Pblock s st) /\
  (forall s l, g_stmts ok s l -> g_stmts ok s l /\ Pstmts s l).
Proof.
  apply g_stmt_all_mi.
  - intros w s st w' t Hw Hs Hw' Ht f rest Hl He Hn. norm. destruct (semis_complete t Ht rest Hn) as [l P].
    unfold p_stmt. eapply pleft_ok; [|exact P]. eapply pright_ok; [apply space_ok; [exact Hw|apply starts_nows, starts_app; eapply simple_starts, Hs]|].
    apply palt_l. unfold stmt_semicolon. eapply pleft_ok; [eapply pleft_ok; [apply (simple_complete s st w' _ Hs Hw')|]|apply sym_ok].
    apply space_ok; [exact Hw'|apply nows_s; unfold spc; cbn; lia].
  - intros w s st t Hw Hs [Hg IH] Ht f rest Hl He Hn. norm. destruct (semis_complete t Ht rest Hn) as [l P].
    unfold p_stmt. eapply pleft_ok; [|exact P]. eapply pright_ok; [apply space_ok; [exact Hw|apply starts_nows, starts_app; eapply block_starts, Hs]|].
    rewrite palt_r by (eapply block_simple_fail; exact Hs). apply IH; [lens|].
    destruct Ht as [|w0 t0 Hw0 Ht0]; [exact He|]. intros w1 w2 u H1 H2 E.
    assert (X : 59%N = 123%N); [|discriminate]. eapply (skips_unique w0 ltac:(apply skips_ws, Hw0) (w1 ++ s_ "else" ++ w2) 59%N (t0 ++ rest) 123%N u);
      [skp|unfold stopper; lia|unfold stopper; lia|]. repeat rewrite <- app_assoc in E. norm. exact E.
  - intros sc c w sb b w' Hc Hw Hb [Hg IH] Hw'. split; [apply g_if; assumption|]. intros f rest Hl He. norm. unfold block_stmt. apply palt_l.
    unfold if_else_stmt. apply (pmap_eq _ _ _ ((c, b), None)); [|reflexivity].
    eapply pseq_ok; [apply if_ok; try assumption; lens|]. apply popt_none, else_fail, He.
  - intros sc c w sb b w' w1 w2 se eb w3 Hc Hw Hb [Hg IH] Hw' H1 H2 Hse [Hg2 IH2] H3. split; [apply g_if_else; assumption|].
    intros f rest Hl He. norm. unfold block_stmt. apply palt_l.
    unfold if_else_stmt. apply (pmap_eq _ _ _ ((c, b), Some eb)); [|reflexivity].
    eapply pseq_ok; [apply if_ok; try assumption; lens|]. apply popt_some, else_ok; try assumption; lens.
  - intros sc c w sb b w' Hc Hw Hb [Hg IH] Hw'. split; [apply g_while; assumption|]. intros f rest Hl He. norm. unfold block_stmt.
    rewrite palt_r by (apply if_not; intros [y E]; discriminate). apply palt_l. unfold while_stmt.
    apply (pmap_eq _ _ _ (c, b)); [|reflexivity]. eapply body_ok; [apply head_ok; eassumption|exact IH|lens|exact Hw'].
  - intros w1 x w2 se e w3 sb b w4 H1 Hx H2 Hne He H3 Hb [Hg IH] H4. split; [apply g_for; assumption|]. intros f rest Hl Hel. norm. unfold block_stmt.
    rewrite palt_r by (apply if_not; intros [y E]; discriminate). rewrite palt_r by (apply while_not; intros [y E]; discriminate).
    unfold for_stmt. apply (pmap_eq _ _ _ ((EIdent x, e), b)); [|reflexivity]. eapply body_ok; [|exact IH|lens|exact H4].
    eapply pleft_ok; [eapply pleft_ok; [eapply pseq_ok; [|apply full_complete; [exact He|apply bnd_brace, H3]]|apply space_ok; [exact H3|apply nows_brace]]|apply sym_ok].
    eapply pleft_ok; [eapply pleft_ok; [eapply pright_ok; [eapply pright_ok; [apply tag_ok|apply space_ok; [exact H1|apply nows_ident, Hx]]|apply ident_ok; [exact Hx|]]
      |apply space_ok; [exact H2|apply nows_s; unfold spc; cbn; lia]]|apply tag_ok].
    destruct w2 as [|c w2]; [congruence|]. inversion H2; subst. cbn. unfold letter, decimal. lia.
  - split; [constructor|]. intros f rest Hl Hr. destruct f as [|f]; [lia|]. cbn [app p_stmts_f]. apply prep_nil, stmt_stop, Hr.
  - intros s st sr l Hs IHs Hsr [Hg IH]. split; [apply g_cons; assumption|]. intros f rest Hl Hr. destruct f as [|f]; [lia|].
    assert (Hs0 : 1 <= length s).
    { destruct (stmt_shape _ _ _ Hs) as (w & s' & -> & _ & c & u & -> & _). lens. }
    pose proof (IH (S f) rest ltac:(lens) Hr) as P. cbn [p_stmts_f] in P |- *. norm. eapply prep_cons; [|shelve|exact P].
    apply IHs; [lens| |]; [eapply stmts_noelse|eapply stmts_nosemi]; eassumption.
    Unshelve. lens.
Qed.

Theorem parse_complete text prog : g_program unambiguous_start text prog -> parse text = Ok prog.
Proof.
  intros [s l w Hs Hw]. unfold parse, program. destruct (proj2 (proj2 stmts_complete_all) _ _ Hs) as [_ P].
  assert (Q : pleft (pleft p_stmts space) pend (s ++ w) = POk l []); [|rewrite Q; reflexivity].
  eapply pleft_ok; [eapply pleft_ok; [|]|].
  - unfold p_stmts. apply P; [lens|apply stopr_ws, Hw].
  - rewrite <- (app_nil_r w). apply space_ok; [exact Hw|exact I].
  - reflexivity.
Qed.
