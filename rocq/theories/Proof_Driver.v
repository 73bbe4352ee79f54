(** Proofs about output, the interactive loop and scripts. *)
From Verif Require Import Base Ast Pom Parse Structs Definitions Value Variables Semantics Fs Eval Runtime Input Main Lib Spec_Run Spec_Text Spec_Session Spec_Safe Spec_Driver
  Proof_Vars Proof_Run Proof_Session Proof_Parse Proof_Safe.
From Coq Require Import Lia.
Arguments s_ s%string_scope.

Lemma silent_refl w : silent w w.
Proof. split; [reflexivity|]. exists []. rewrite app_nil_r. split; [reflexivity|intros t []]. Qed.
Lemma silent_trans a b c : silent a b -> silent b c -> silent a c.
Proof.
  intros [H1 (l & H2 & H3)] [H4 (m & H5 & H6)]. split; [congruence|]. exists (l ++ m). rewrite H5, H2, app_assoc. split; [reflexivity|].
  intros t Q. apply in_app_iff in Q. destruct Q; [eapply H3|eapply H6]; eassumption.
Qed.
Lemma silent_log w ev : (forall t, ev <> EvWrite t) -> silent w (log_event w ev).
Proof. intros H. split; [reflexivity|]. exists [ev]. split; [reflexivity|]. intros t [Q|[]]. exact (H t Q). Qed.
Lemma written_app l u m v : written l u -> written m v -> written (l ++ m) (u ++ v).
Proof.
  intros H Hm. induction H as [|t l u _ IH|t t1 t2 l u E _ IH|ev l u H _ IH]; cbn [app].
  - exact Hm.
  - rewrite <- app_assoc. apply wn_all. exact IH.
  - rewrite <- app_assoc. eapply wn_cut; [exact E|exact IH].
  - apply wn_other; [exact H|exact IH].
Qed.
Lemma written_none l : (forall t, ~ In (EvWrite t) l) -> written l [].
Proof.
  induction l as [|ev l IH]; intros H; [constructor|]. apply wn_other; [intros t ->; apply (H t); left; reflexivity|]. apply IH. intros t Q. apply (H t). right. exact Q.
Qed.
Lemma silent_appended a b : silent a b -> appended a b.
Proof. intros [H1 (l & H2 & H3)]. exists l, []. rewrite app_nil_r. split; [exact H2|]. split; [exact H1|apply written_none; exact H3]. Qed.
Lemma appended_refl w : appended w w.
Proof. apply silent_appended, silent_refl. Qed.
Lemma appended_trans a b c : appended a b -> appended b c -> appended a c.
Proof.
  intros (l & u & H1 & H2 & H3) (m & v & H4 & H5 & H6). exists (l ++ m), (u ++ v). rewrite H4, H1, H5, H2, !app_assoc. split; [reflexivity|]. split; [reflexivity|]. apply written_app; assumption.
Qed.
Lemma do_write_appended E s t s' r : do_write E s t = (s', r) -> appended (e_w s) (e_w s').
Proof.
  unfold do_write. destruct (sink E (tick (e_w s)) t) as [|k]; intros H; injection H as <- _; cbn.
  - exists [EvWrite t], t. split; [reflexivity|]. split; [reflexivity|]. rewrite <- (app_nil_r t) at 2. apply wn_all. constructor.
  - exists [EvWrite t], (firstn k t). split; [reflexivity|]. split; [reflexivity|]. rewrite <- (app_nil_r (firstn k t)). eapply wn_cut; [symmetry; apply firstn_skipn|constructor].
Qed.

(** ** Expressions are silent *)
Definition calm {A} (m : M A) : Prop := forall w w' r, m w = (w', r) -> silent w w'.
Lemma calm_ret {A} (r : res A) : calm (mret r).
Proof. intros w w' r' H. injection H as <- <-. apply silent_refl. Qed.
Lemma calm_bind {A B} (m : M A) (g : A -> M B) : calm m -> (forall a, calm (g a)) -> calm (mbind m g).
Proof.
  intros Hm Hg w w' r H. unfold mbind in H. destruct (m w) as [w1 [a|e|p|]] eqn:H1; apply Hm in H1; try (injection H as <- <-; exact H1). eapply silent_trans; [exact H1|]. exact (Hg a _ _ _ H).
Qed.
Lemma search_loop_calm E fd retry K : forall key ret coll, calm (search_loop K E fd retry key ret coll).
Proof.
  induction K as [|K IH]; intros key ret coll w w' r H; cbn [search_loop] in H; [injection H as <- _; apply silent_refl|].
  assert (S : silent w (log_event w (EvIoctl fd key))) by (apply silent_log; discriminate).
  assert (G : forall nr buf, match extract (overflow_checks E) (Z.to_nat nr) buf 0 ret coll with
      | Ok (ret', coll') =>
        if negb retry || (nr =? 0)%Z then (log_event w (EvIoctl fd key), let* _ := ensure (coll' =? 0)%Z (ECollisions coll') in Ok ret')
        else match largest ret' with
          | None => (log_event w (EvIoctl fd key), Panic PUnwrap)
          | Some m => match try_into_u 8 (h_type m) with
            | Ok t => if (h_offset m + 1 <? 2 ^ 64)%Z then
                search_loop K E fd retry (mk_skey (sk_tree key) (h_objectid m) (sk_max_objectid key) t (sk_max_type key) (h_offset m + 1) (sk_max_offset key) (sk_min_transid key) (sk_max_transid key))
                  ret' coll' (log_event w (EvIoctl fd key))
              else (log_event w (EvIoctl fd key), Err EKeyOverflow)
            | Err e => (log_event w (EvIoctl fd key), Err e)
            | Panic p => (log_event w (EvIoctl fd key), Panic p)
            | Fuel => (log_event w (EvIoctl fd key), Fuel)
            end
          end
      | Err e => (log_event w (EvIoctl fd key), Err e)
      | Panic p => (log_event w (EvIoctl fd key), Panic p)
      | Fuel => (log_event w (EvIoctl fd key), Fuel) end = (w', r) -> silent w w').
  { clear H. intros nr buf H. destruct (extract _ _ buf 0 ret coll) as [[ret' coll']| | |]; try (injection H as <- _; exact S).
    destruct (negb retry || (nr =? 0)%Z); [injection H as <- _; exact S|]. destruct (largest ret') as [m|]; [|injection H as <- _; exact S].
    destruct (try_into_u 8 (h_type m)); try (injection H as <- _; exact S). destruct (h_offset m + 1 <? 2 ^ 64)%Z; [|injection H as <- _; exact S].
    eapply silent_trans; [exact S|]. exact (IH _ _ _ _ _ _ H). }
  destruct (ioctl E (tick w) fd key) as [nr buf|nr buf|]; [exact (G nr buf H)|exact (G nr buf H)|injection H as <- _; exact S].
Qed.
Lemma decode_calm oc cs : calm (decode_chunks oc cs).
Proof.
  induction cs as [|[h b] cs IH]; intros w w' r H; cbn [decode_chunks] in H; [injection H as <- _; apply silent_refl|]. destruct (find _ STRUCTS) as [s|].
  - revert w w' r H. change (calm (do v <- mret (from_bytes oc s (Some (h_objectid h, h_type h, h_offset h)) b) ;; do vs <- decode_chunks oc cs ;; mret (Ok (v :: vs)))).
    apply calm_bind; [apply calm_ret|intros v]. apply calm_bind; [exact IH|intros vs; apply calm_ret].
  - eapply silent_trans; [|exact (IH _ _ _ H)]. apply silent_log. discriminate.
Qed.
Lemma eval_search_calm K E f tree key : calm (eval_search K E f tree key).
Proof.
  unfold eval_search. apply calm_bind; [apply calm_ret|intros [[n ky] fl]]. apply calm_bind; [apply calm_ret|intros _]. destruct f as [f|]; [|apply calm_ret].
  apply calm_bind; [apply calm_ret|intros sk]. apply calm_bind; [|intros cs; apply calm_bind; [apply decode_calm|intros vs; apply calm_ret]].
  unfold fs_search. destruct f; [apply search_loop_calm|apply calm_ret].
Qed.
Lemma eval_calm K E vs f : forall e, calm (eval_expr K E vs f e).
Proof.
  fix IH 1. intros e. destruct e as [x|z|b|s|e|e fld|e i|fe args|op l r|op e|t e]; cbn [eval_expr]; try apply calm_ret.
  - apply IH.
  - apply calm_bind; [apply IH|intros v]. apply calm_bind; [apply calm_ret|intros [[nm ky] fl]]. destruct fld; apply calm_ret.
  - repeat (first [apply calm_ret|apply calm_bind; [first [apply IH|apply calm_ret]|intros ?]]).
  - apply calm_bind; [apply IH|intros fv]. apply calm_bind; [apply calm_ret|intros fn].
    destruct fn; repeat match goal with |- calm match ?l with [] => _ | _ => _ end => destruct l end; try apply calm_ret;
    repeat (first [apply calm_ret|apply eval_search_calm|apply calm_bind; [first [apply IH|apply calm_ret]|intros ?]]).
    destruct a0 as [[nm ky] fl]. destruct ky as [[[? ?] ?]|]; apply calm_ret.
  - destruct op; repeat (first [apply calm_ret|apply calm_bind; [first [apply IH|apply calm_ret]|intros ?]]);
    match goal with |- context [if ?x then _ else _] => destruct x end;
    repeat (first [apply calm_ret|apply calm_bind; [first [apply IH|apply calm_ret]|intros ?]]).
  - apply calm_bind; [apply IH|intros v; apply calm_ret].
  - apply calm_bind; [apply IH|intros v]. apply calm_bind; [apply calm_ret|intros z]. destruct (z <? 0)%Z; apply calm_ret.
Qed.
Lemma lhs_calm K E vs f e : forall g, calm (lhs_assign K E vs f e g).
Proof.
  induction e; intros g; cbn [lhs_assign]; try apply calm_ret.
  - destruct e2; try apply calm_ret. apply IHe1.
  - apply calm_bind; [apply eval_calm|intros v]. apply calm_bind; [apply calm_ret|intros z]. apply IHe1.
Qed.
Lemma fs_new_calm E p : calm (fs_new E p).
Proof. intros w w' r H. unfold fs_new in H. injection H as <- _. apply silent_log. discriminate. Qed.

(** ** Statements *)
Section Statements.
Context (E : env) (inter : bool) (Q : world -> world -> Prop).
Hypothesis Qsilent : forall a b, silent a b -> Q a b.
Hypothesis Qtrans : forall a b c, Q a b -> Q b c -> Q a c.
Definition qwrites : Prop := forall s t s' r, do_write E s t = (s', r) -> Q (e_w s) (e_w s').
Lemma Qrefl a : Q a a. Proof. apply Qsilent, silent_refl. Qed.
Definition qev (ev : est -> stmt -> est * ires) : Prop := forall s st s' r, (may_write inter st -> qwrites) -> ev s st = (s', r) -> Q (e_w s) (e_w s').

Lemma with_expr_q k s e c s' r :
  (forall s1 v, c s1 v = (s', r) -> Q (e_w s1) (e_w s')) -> with_expr k E s e c = (s', r) -> Q (e_w s) (e_w s').
Proof.
  unfold with_expr. intros Hc H. destruct (eval_expr k E (e_vars s) (e_fs s) e (e_w s)) as [w q] eqn:He. apply eval_calm, Qsilent in He.
  destruct q; try (injection H as <- _; exact He). eapply Qtrans; [exact He|]. exact (Hc _ _ H).
Qed.
Lemma run_list_q ev l : qev ev -> (forall st, In st l -> may_write inter st -> qwrites) -> forall s s' r, run_list ev s l = (s', r) -> Q (e_w s) (e_w s').
Proof.
  intros Hev. induction l as [|st l IH]; intros Hl s s' r H; cbn [run_list] in H; [injection H as <- _; apply Qrefl|].
  destruct (ev s st) as [s1 q] eqn:H1. apply Hev in H1; [|intros X; exact (Hl st (or_introl eq_refl) X)].
  destruct q; try (injection H as <- _; exact H1). eapply Qtrans; [exact H1|]. eapply IH; [|exact H]. intros x Hx. apply Hl. right. exact Hx.
Qed.
Lemma while_q ev ke k c b : qev ev -> (forall st, In st b -> may_write inter st -> qwrites) -> forall s s' r, while_loop ev ke E k c b s = (s', r) -> Q (e_w s) (e_w s').
Proof.
  intros Hev Hb. induction k as [|k IH]; intros s s' r H; cbn [while_loop] in H; [injection H as <- _; apply Qrefl|].
  revert H. apply with_expr_q. intros s1 v H. destruct (as_boolean v) as [[|]|e|p|]; try (injection H as <- _; apply Qrefl).
  destruct (run_list ev s1 b) as [s2 q] eqn:H2. apply run_list_q in H2; [|exact Hev|exact Hb].
  destruct q; try (injection H as <- _; exact H2); (eapply Qtrans; [exact H2|exact (IH _ _ _ H)]).
Qed.
Lemma insert_q x v s s' r : est_insert x v s = (s', r) -> e_w s' = e_w s.
Proof. unfold est_insert. destruct (vars_insert x v (e_vars s)); intros H; injection H as <- _; reflexivity. Qed.
Lemma for_q ev x b items : qev ev -> (forall st, In st b -> may_write inter st -> qwrites) -> forall s s' r, for_loop ev x b items s = (s', r) -> Q (e_w s) (e_w s').
Proof.
  intros Hev Hb. induction items as [|v items IH]; intros s s' r H; cbn [for_loop] in H; [injection H as <- _; apply Qrefl|].
  destruct (est_insert x v s) as [s1 q1] eqn:H1. apply insert_q in H1. rewrite <- H1.
  destruct q1; try (injection H as <- _; apply Qrefl). destruct (run_list ev s1 b) as [s2 q] eqn:H2. apply run_list_q in H2; [|exact Hev|exact Hb].
  destruct q; try (injection H as <- _; exact H2); (eapply Qtrans; [exact H2|exact (IH _ _ _ H)]).
Qed.
Lemma in_scope_q s b s' r : (forall s0 s1 q, e_w s0 = e_w s -> b s0 = (s1, q) -> Q (e_w s) (e_w s1)) -> in_scope s b = (s', r) -> Q (e_w s) (e_w s').
Proof.
  unfold in_scope. intros Hb H. destruct (b _) as [s1 q] eqn:H1. apply Hb in H1; [|reflexivity]. destruct (pop_scope (e_vars s1)); injection H as <- _; exact H1.
Qed.
Lemma may_sub u st : (forall v, In v (substmts u) -> In v (substmts st)) -> may_write inter u -> may_write inter st.
Proof. intros H (v & H1 & H2). exists v. split; [apply H; exact H1|exact H2]. Qed.
Lemma sub_flat u b v : In u b -> In v (substmts u) -> In v (flat_map substmts b).
Proof. intros H1 H2. apply in_flat_map. exists u. split; assumption. Qed.
Lemma eval_stmt_q n : qev (eval_stmt n E inter).
Proof.
  induction n as [|n IH]; intros s st s' r HW H; cbn [eval_stmt] in H; [injection H as <- _; apply Qrefl|].
  destruct st as [lhs rhs|c tb fb|c b|i re b| | | | |e|e|e].
  - revert H. apply with_expr_q. intros s1 v H.
    assert (G : (let '(w, r) := lhs_assign n E (e_vars s1) (e_fs s1) lhs (fun _ => Ok v) (e_w s1) in match r with Ok vs => (mk_est vs (e_fs s1) w, IOk) | _ => (with_w s1 w, ires_of r) end) = (s', r) -> Q (e_w s1) (e_w s')).
    { clear H. intros H. destruct (lhs_assign n E (e_vars s1) (e_fs s1) lhs (fun _ => Ok v) (e_w s1)) as [w q] eqn:Hl. apply lhs_calm, Qsilent in Hl. destruct q; injection H as <- _; exact Hl. }
    destruct lhs; try exact (G H). apply insert_q in H. rewrite H. apply Qrefl.
  - revert H. apply in_scope_q. intros s0 s1 q Hw. rewrite <- Hw. apply with_expr_q. intros s2 v H. destruct (as_boolean v) as [t|x|p|]; try (injection H as <- _; apply Qrefl).
    eapply run_list_q; [exact IH| |exact H]. intros u Hu X. apply HW. eapply may_sub; [|exact X]. intros z Hz. cbn [substmts]. right. apply in_app_iff. destruct t; [left|right]; eapply sub_flat; eassumption.
  - revert H. apply in_scope_q. intros s0 s1 q Hw H. rewrite <- Hw. eapply while_q; [exact IH| |exact H]. intros u Hu X. apply HW. eapply may_sub; [|exact X]. intros z Hz. cbn [substmts]. right. eapply sub_flat; eassumption.
  - revert H. apply in_scope_q. intros s0 s1 q Hw H. rewrite <- Hw. destruct i; try (injection H as <- _; apply Qrefl). revert H. apply with_expr_q. intros s2 v H.
    destruct (as_vec v) as [items|x0|p|]; try (injection H as <- _; apply Qrefl).
    eapply for_q; [exact IH| |exact H]. intros u Hu X. apply HW. eapply may_sub; [|exact X]. intros z Hz. cbn [substmts]. right. eapply sub_flat; eassumption.
  - injection H as <- _. apply Qrefl.
  - injection H as <- _. apply Qrefl.
  - eapply HW; [|exact H]. exists SHelp. split; [left; reflexivity|auto].
  - injection H as <- _. apply Qrefl.
  - revert H. apply with_expr_q. intros s1 v H. destruct (as_string true v) as [p|x|p|]; try (injection H as <- _; apply Qrefl).
    destruct (fs_new E p (e_w s1)) as [w q] eqn:Hf. apply fs_new_calm, Qsilent in Hf. destruct q; injection H as <- _; exact Hf.
  - revert H. apply with_expr_q. intros s1 v H. destruct (print_text n (overflow_checks E) v) as [t|x|p|]; try (injection H as <- _; apply Qrefl).
    eapply HW; [|exact H]. exists (SPrint e). split; [left; reflexivity|eauto].
  - revert H. apply with_expr_q. intros s1 v H. destruct inter; [|injection H as <- _; apply Qrefl].
    eapply HW; [|exact H]. exists (SExpr e). split; [left; reflexivity|eauto].
Qed.
End Statements.

Definition exact_out (a b : world) : Prop := exists l, w_log b = w_log a ++ l /\ w_out b = w_out a ++ texts l.
Lemma texts_none l : (forall t, ~ In (EvWrite t) l) -> texts l = [].
Proof.
  induction l as [|ev l IH]; intros H; [reflexivity|]. unfold texts in *. cbn [flat_map]. rewrite IH by (intros t X; apply (H t); right; exact X).
  destruct ev; try reflexivity. elim (H s). left. reflexivity.
Qed.
Lemma exact_silent a b : silent a b -> exact_out a b.
Proof. intros [H1 (l & H2 & H3)]. exists l. split; [exact H2|]. rewrite (texts_none _ H3), app_nil_r. exact H1. Qed.
Lemma exact_trans a b c : exact_out a b -> exact_out b c -> exact_out a c.
Proof. intros (l & H1 & H2) (m & H3 & H4). exists (l ++ m). rewrite H3, H1, H4, H2. unfold texts. rewrite flat_map_app, !app_assoc. split; reflexivity. Qed.
Lemma exact_write E : reliable E -> qwrites E exact_out.
Proof. intros R s t s' r. unfold do_write. rewrite R. intros H. injection H as <- _. exists [EvWrite t]. cbn. rewrite app_nil_r. split; reflexivity. Qed.

Lemma rt_eval_q E inter (Q : world -> world -> Prop) : (forall a b, silent a b -> Q a b) -> (forall a b c, Q a b -> Q b c -> Q a c) ->
  forall n r cmd r' q, (forall l st, parse cmd = Ok l -> In st l -> may_write inter st -> qwrites E Q) -> rt_eval n E inter r cmd = (r', q) -> Q (e_w (r_eval r)) (e_w (r_eval r')).
Proof.
  intros H1 H2 n r cmd r' q HW H. unfold rt_eval in H. assert (R : forall a, Q a a) by (intros a; apply H1, silent_refl).
  destruct (parse cmd) as [l|e|p|] eqn:Hp; try (injection H as <- _; apply R).
  destruct (analyze (r_sem r) l) as [sem' a]. destruct a as [[]|e|p|]; try (injection H as <- _; apply R). unfold eval_prog in H.
  destruct (run_list (eval_stmt n E inter) (r_eval r) l) as [s' q'] eqn:Hr. injection H as <- _. cbn [r_eval].
  eapply run_list_q; [exact H1|exact H2|apply eval_stmt_q; assumption| |exact Hr]. intros st Hst. apply (HW l); [reflexivity|exact Hst].
Qed.
Lemma repl_q E (Q : world -> world -> Prop) : (forall a b, silent a b -> Q a b) -> (forall a b c, Q a b -> Q b c -> Q a c) -> qwrites E Q ->
  forall n evs r r' rs x, repl_loop n E r evs = (r', rs, x) -> Q (e_w (r_eval r)) (e_w (r_eval r')).
Proof.
  intros H1 H2 HW n evs. assert (R : forall a, Q a a) by (intros a; apply H1, silent_refl). induction evs as [|ev evs IH]; intros r r' rs x H; cbn [repl_loop] in H; [injection H as <- _ _; apply R|].
  destruct ev as [line| | |]; try exact (IH _ _ _ _ H); [|injection H as <- _ _; apply R].
  destruct (rt_eval n E true r (clean line)) as [r1 q] eqn:He. eapply rt_eval_q in He; [|exact H1|exact H2|intros; exact HW].
  destruct (repl_loop n E r1 evs) as [[r2 l2] x2] eqn:Hl. apply IH in Hl.
  destruct q; injection H as <- _ _; try exact He; eapply H2; eassumption.
Qed.

(** ** The interactive loop *)
Lemma entered_app n E r ls rs r1 ls2 rs2 r2 : entered n E r ls rs r1 -> entered n E r1 ls2 rs2 r2 -> entered n E r (ls ++ ls2) (rs ++ rs2) r2.
Proof. intros H H2. induction H as [|r l ls q rs r1 r' He _ IH]; [exact H2|]. cbn. econstructor; [exact He|apply IH; exact H2]. Qed.
Lemma entered_fun n E r ls rs r1 rs' r1' : entered n E r ls rs r1 -> entered n E r ls rs' r1' -> rs = rs' /\ r1 = r1'.
Proof.
  intros H; revert rs' r1'; induction H as [|r l ls q rs r1 r' He _ IH]; intros rs' r1' H'; inversion H' as [|x1 x2 x3 q' rs2 r2 x4 He' Hr]; subst; [auto|].
  rewrite He in He'. injection He' as -> ->. destruct (IH _ _ Hr) as [-> ->]. auto.
Qed.
Lemma repl_prefix n E evs more : (forall ev, In ev evs -> ev <> RlEof) -> forall r rs r1, entered n E r (typed_lines evs) rs r1 -> Forall goes_on rs ->
  repl_loop n E r (evs ++ more) = (let '(r2, l, x) := repl_loop n E r1 more in (r2, rs ++ l, x)).
Proof.
  induction evs as [|ev evs IH]; intros Hn r rs r1 H HF.
  - inversion H; subst. cbn [app]. destruct (repl_loop n E r1 more) as [[? ?] ?]. reflexivity.
  - assert (Hn' : forall e, In e evs -> e <> RlEof) by (intros e He; apply Hn; right; exact He). destruct ev as [line| | |].
    + cbn [typed_lines flat_map app] in H. inversion H as [|x1 x2 x3 q rs2 r2 x4 He Hr]; subst. cbn [app repl_loop]. rewrite He. inversion HF as [|? ? HF1 HF2]; subst.
      rewrite (IH Hn' _ _ _ Hr HF2). destruct (repl_loop n E r1 more) as [[? ?] ?]. destruct HF1 as [-> | (e & ->)]; reflexivity.
    + exact (IH Hn' _ _ _ H HF).
    + elim (Hn RlEof (or_introl eq_refl) eq_refl).
    + exact (IH Hn' _ _ _ H HF).
Qed.
(** every run of the loop *)
Lemma repl_inv n E evs : forall r r' rs x, repl_loop n E r evs = (r', rs, x) ->
  match x with
  | ReWaiting => (forall ev, In ev evs -> ev <> RlEof) /\ entered n E r (typed_lines evs) rs r' /\ Forall goes_on rs
  | ReDone => (exists pre post, evs = pre ++ RlEof :: post /\ (forall ev, In ev pre -> ev <> RlEof) /\ entered n E r (typed_lines pre) rs r' /\ Forall goes_on rs) \/
    (exists pre line post rs0 r1, evs = pre ++ RlLine line :: post /\ (forall ev, In ev pre -> ev <> RlEof) /\ entered n E r (typed_lines pre) rs0 r1 /\ Forall goes_on rs0 /\
      rt_eval n E true r1 (clean line) = (r', RQuit) /\ rs = rs0 ++ [RQuit])
  | ReCrash p => exists pre line post rs0 r1, evs = pre ++ RlLine line :: post /\ (forall ev, In ev pre -> ev <> RlEof) /\ entered n E r (typed_lines pre) rs0 r1 /\ Forall goes_on rs0 /\
      rt_eval n E true r1 (clean line) = (r', RPanic p) /\ rs = rs0 ++ [RPanic p]
  | ReFuel => exists pre line post rs0 r1, evs = pre ++ RlLine line :: post /\ (forall ev, In ev pre -> ev <> RlEof) /\ entered n E r (typed_lines pre) rs0 r1 /\ Forall goes_on rs0 /\
      rt_eval n E true r1 (clean line) = (r', RFuel) /\ rs = rs0 ++ [RFuel]
  end.
Proof.
  induction evs as [|ev evs IH]; intros r r' rs x H; cbn [repl_loop] in H.
  - injection H as <- <- <-. split; [intros ev []|]. split; constructor.
  - assert (SKIP : ev = RlInterrupted \/ ev = RlError -> repl_loop n E r evs = (r', rs, x) -> match x with
  | ReWaiting => (forall e, In e (ev :: evs) -> e <> RlEof) /\ entered n E r (typed_lines (ev :: evs)) rs r' /\ Forall goes_on rs
  | ReDone => (exists pre post, ev :: evs = pre ++ RlEof :: post /\ (forall ev, In ev pre -> ev <> RlEof) /\ entered n E r (typed_lines pre) rs r' /\ Forall goes_on rs) \/
    (exists pre line post rs0 r1, ev :: evs = pre ++ RlLine line :: post /\ (forall ev, In ev pre -> ev <> RlEof) /\ entered n E r (typed_lines pre) rs0 r1 /\ Forall goes_on rs0 /\
      rt_eval n E true r1 (clean line) = (r', RQuit) /\ rs = rs0 ++ [RQuit])
  | ReCrash p => exists pre line post rs0 r1, ev :: evs = pre ++ RlLine line :: post /\ (forall ev, In ev pre -> ev <> RlEof) /\ entered n E r (typed_lines pre) rs0 r1 /\ Forall goes_on rs0 /\
      rt_eval n E true r1 (clean line) = (r', RPanic p) /\ rs = rs0 ++ [RPanic p]
  | ReFuel => exists pre line post rs0 r1, ev :: evs = pre ++ RlLine line :: post /\ (forall ev, In ev pre -> ev <> RlEof) /\ entered n E r (typed_lines pre) rs0 r1 /\ Forall goes_on rs0 /\
      rt_eval n E true r1 (clean line) = (r', RFuel) /\ rs = rs0 ++ [RFuel]
  end).
    { clear H. intros Hev H. apply IH in H. assert (Hne : ev <> RlEof) by (destruct Hev; congruence).
      assert (Hl : forall l, typed_lines (ev :: l) = typed_lines l) by (intros l; destruct Hev; subst; reflexivity).
      destruct x as [|p| |].
      - destruct H as [(pre & post & -> & H1 & H2 & H3)|(pre & line & post & rs0 & r1 & -> & H1 & H2 & H3 & H4 & H5)].
        + left. exists (ev :: pre), post. split; [reflexivity|]. split; [intros e [<-|He]; auto|]. rewrite Hl. auto.
        + right. exists (ev :: pre), line, post, rs0, r1. split; [reflexivity|]. split; [intros e [<-|He]; auto|]. rewrite Hl. auto.
      - destruct H as (pre & line & post & rs0 & r1 & -> & H1 & H2 & H3 & H4 & H5). exists (ev :: pre), line, post, rs0, r1. split; [reflexivity|]. split; [intros e [<-|He]; auto|]. rewrite Hl. auto.
      - destruct H as (pre & line & post & rs0 & r1 & -> & H1 & H2 & H3 & H4 & H5). exists (ev :: pre), line, post, rs0, r1. split; [reflexivity|]. split; [intros e [<-|He]; auto|]. rewrite Hl. auto.
      - destruct H as (H1 & H2 & H3). split; [intros e [<-|He]; auto|]. rewrite Hl. auto. }
    destruct ev as [line| | |]; [|exact (SKIP (or_introl eq_refl) H)| |exact (SKIP (or_intror eq_refl) H)]; clear SKIP.
    + destruct (rt_eval n E true r (clean line)) as [r1 q] eqn:He. destruct (repl_loop n E r1 evs) as [[r2 l2] x2] eqn:Hl. apply IH in Hl.
      assert (STOP : forall q', q = q' -> r1 = r' -> rs = [q'] -> exists pre line0 post rs0 r3, RlLine line :: evs = pre ++ RlLine line0 :: post /\ (forall ev, In ev pre -> ev <> RlEof) /\ entered n E r (typed_lines pre) rs0 r3 /\ Forall goes_on rs0 /\
        rt_eval n E true r3 (clean line0) = (r', q') /\ rs = rs0 ++ [q']).
      { intros q' -> -> ->. exists [], line, evs, [], r. split; [reflexivity|]. split; [intros e []|]. split; [constructor|]. split; [constructor|]. split; [exact He|reflexivity]. }
      assert (GO : goes_on q -> (r2, q :: l2, x2) = (r', rs, x) -> match x with
  | ReWaiting => (forall e, In e (RlLine line :: evs) -> e <> RlEof) /\ entered n E r (typed_lines (RlLine line :: evs)) rs r' /\ Forall goes_on rs
  | ReDone => (exists pre post, RlLine line :: evs = pre ++ RlEof :: post /\ (forall ev, In ev pre -> ev <> RlEof) /\ entered n E r (typed_lines pre) rs r' /\ Forall goes_on rs) \/
    (exists pre line0 post rs0 r1, RlLine line :: evs = pre ++ RlLine line0 :: post /\ (forall ev, In ev pre -> ev <> RlEof) /\ entered n E r (typed_lines pre) rs0 r1 /\ Forall goes_on rs0 /\
      rt_eval n E true r1 (clean line0) = (r', RQuit) /\ rs = rs0 ++ [RQuit])
  | ReCrash p => exists pre line0 post rs0 r1, RlLine line :: evs = pre ++ RlLine line0 :: post /\ (forall ev, In ev pre -> ev <> RlEof) /\ entered n E r (typed_lines pre) rs0 r1 /\ Forall goes_on rs0 /\
      rt_eval n E true r1 (clean line0) = (r', RPanic p) /\ rs = rs0 ++ [RPanic p]
  | ReFuel => exists pre line0 post rs0 r1, RlLine line :: evs = pre ++ RlLine line0 :: post /\ (forall ev, In ev pre -> ev <> RlEof) /\ entered n E r (typed_lines pre) rs0 r1 /\ Forall goes_on rs0 /\
      rt_eval n E true r1 (clean line0) = (r', RFuel) /\ rs = rs0 ++ [RFuel]
  end).
      { intros Hg Q. injection Q as <- <- <-. assert (Hnl : RlLine line <> RlEof) by discriminate.
        assert (P : forall pre rs0 r3, entered n E r1 (typed_lines pre) rs0 r3 -> entered n E r (typed_lines (RlLine line :: pre)) (q :: rs0) r3) by (intros pre rs0 r3 X; econstructor; [exact He|exact X]).
        destruct x2 as [|p| |].
        - destruct Hl as [(pre & post & -> & H1 & H2 & H3)|(pre & line0 & post & rs0 & r3 & -> & H1 & H2 & H3 & H4 & ->)].
          + left. exists (RlLine line :: pre), post. split; [reflexivity|]. split; [intros e [<-|X]; auto|]. split; [apply P; exact H2|constructor; assumption].
          + right. exists (RlLine line :: pre), line0, post, (q :: rs0), r3. split; [reflexivity|]. split; [intros e [<-|X]; auto|]. split; [apply P; exact H2|]. split; [constructor; assumption|auto].
        - destruct Hl as (pre & line0 & post & rs0 & r3 & -> & H1 & H2 & H3 & H4 & ->). exists (RlLine line :: pre), line0, post, (q :: rs0), r3. split; [reflexivity|]. split; [intros e [<-|X]; auto|]. split; [apply P; exact H2|]. split; [constructor; assumption|auto].
        - destruct Hl as (pre & line0 & post & rs0 & r3 & -> & H1 & H2 & H3 & H4 & ->). exists (RlLine line :: pre), line0, post, (q :: rs0), r3. split; [reflexivity|]. split; [intros e [<-|X]; auto|]. split; [apply P; exact H2|]. split; [constructor; assumption|auto].
        - destruct Hl as (H1 & H2 & H3). split; [intros e [<-|X]; auto|]. split; [apply P; exact H2|constructor; assumption]. }
      destruct q as [| |e|p|].
      * apply GO; [left; reflexivity|exact H].
      * injection H as <- <- <-. right. apply STOP; reflexivity.
      * apply GO; [right; exists e; reflexivity|exact H].
      * injection H as <- <- <-. apply STOP; reflexivity.
      * injection H as <- <- <-. apply STOP; reflexivity.
    + injection H as <- <- <-. left. exists [], evs. split; [reflexivity|]. split; [intros e []|]. split; constructor.
Qed.
Lemma repl_skip n E pre ev post : ev = RlInterrupted \/ ev = RlError -> forall r, repl_loop n E r (pre ++ ev :: post) = repl_loop n E r (pre ++ post).
Proof.
  intros Hev. induction pre as [|e pre IH]; intros r; [destruct Hev; subst; reflexivity|]. cbn [app repl_loop]. destruct e as [line| | |]; try apply IH; try reflexivity.
  destruct (rt_eval n E true r (clean line)) as [r1 q]. rewrite IH. reflexivity.
Qed.

(** ** Scripts *)
Lemma script_result n E c :
  snd (script n E (Some c)) =
  match parse (strip_comments c) with
  | Ok l => match snd (analyze sem_new l) with
            | Ok _ => match snd (run_list (eval_stmt n E false) (eval_new E) l) with
                      | IOk | IQuit => ExSuccess
                      | IErr _ | IBreak | IContinue => ExFailure
                      | IPanic p => ExCrash p
                      | IFuel => ExFuel
                      end
            | Err _ => ExFailure
            | Panic p => ExCrash p
            | Fuel => ExFuel
            end
  | Err _ => ExFailure
  | Panic p => ExCrash p
  | Fuel => ExFuel
  end.
Proof.
  unfold script, rt_eval. cbn [rt_new r_sem r_eval]. destruct (parse (strip_comments c)) as [l|e|p|]; try reflexivity.
  destruct (analyze sem_new l) as [sem' [[]|e|p|]]; try reflexivity. unfold eval_prog. cbn [snd]. destruct (run_list (eval_stmt n E false) (eval_new E) l) as [s' q]. cbn [snd]. destruct q; reflexivity.
Qed.
Lemma analyze_outcome l : (exists sem', analyze sem_new l = (sem', Ok tt)) \/ (exists sem' e, analyze sem_new l = (sem', Err e)).
Proof.
  destruct (analyze sem_new l) as [sem' a] eqn:Ha. assert (Hne : s_vars sem_new <> []) by discriminate. pose proof (analyze_good _ _ _ _ Hne Ha) as (_ & _ & N).
  destruct a as [[]|e|p|]; try contradiction; eauto.
Qed.
Lemma script_no_jump n E c l sem' s' q : env_typed E -> parse (strip_comments c) = Ok l -> analyze sem_new l = (sem', Ok tt) ->
  run_list (eval_stmt n E false) (eval_new E) l = (s', q) -> q <> IBreak /\ q <> IContinue.
Proof.
  intros HE Hp Ha Hr. pose proof (rt_eval_safe n E false [] (rt_new E) (strip_comments c) HE (ses_new E) (session_safe E _ _ HE (ses_new E))) as [_ G].
  unfold rt_eval in G. rewrite Hp in G. cbn [rt_new r_sem r_eval] in G. rewrite Ha in G. unfold eval_prog in G. rewrite Hr in G. split; intros ->; cbn in G; congruence.
Qed.
