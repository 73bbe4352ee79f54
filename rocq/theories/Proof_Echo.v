(** Proofs for C69. *)
From Verif Require Import Base Ast Pom Parse Structs Definitions Value Variables Semantics Fs Eval Runtime Lib Spec_Run Spec_Text Spec_Echo
  Proof_Run Proof_Session Proof_Driver.
Require Import Lia.
Arguments s_ s%string_scope.

Section Steady.
Context (E : env) (HE : steady E).
Definition stable {A} (m : M A) : Prop := forall w w', echoed w w' -> snd (m w) = snd (m w') /\ echoed (fst (m w)) (fst (m w')).
Lemma stable_ret {A} (r : res A) : stable (mret r).
Proof. intros w w' H. split; [reflexivity|exact H]. Qed.
Lemma stable_bind {A B} (m : M A) (g : A -> M B) : stable m -> (forall a, stable (g a)) -> stable (mbind m g).
Proof.
  intros Hm Hg w w' H. unfold mbind. destruct (Hm w w' H) as [H1 H2]. destruct (m w) as [w1 r], (m w') as [w1' r']. cbn [fst snd] in *. subst r'.
  destruct r as [a|e|p|]; [exact (Hg a _ _ H2)|..]; split; [reflexivity|exact H2|reflexivity|exact H2|reflexivity|exact H2].
Qed.
Lemma stable_event {A} ev (m : M A) : (forall t, ev <> EvWrite t) -> stable m -> stable (fun w => m (log_event w ev)).
Proof. intros Hn Hm w w' H. apply Hm. apply ec_event; assumption. Qed.
Lemma stable_search fd retry K : forall key ret coll, stable (search_loop K E fd retry key ret coll).
Proof.
  induction K as [|K IH]; intros key ret coll w w' H; cbn [search_loop]; [split; [reflexivity|exact H]|].
  rewrite (steady_ioctl E HE (tick w) (tick w') fd key).
  assert (H2 : echoed (log_event w (EvIoctl fd key)) (log_event w' (EvIoctl fd key))) by (apply ec_event; [discriminate|exact H]).
  destruct (ioctl E (tick w') fd key) as [nr buf|nr buf|]; [| |split; [reflexivity|exact H2]];
  (destruct (extract (overflow_checks E) (Z.to_nat nr) buf 0 ret coll) as [[ret' coll']| | |]; [|split; [reflexivity|exact H2]..];
   destruct (negb retry || (nr =? 0)%Z); [split; [reflexivity|exact H2]|]; destruct (largest ret') as [m|]; [|split; [reflexivity|exact H2]];
   destruct (try_into_u 8 (h_type m)); [|split; [reflexivity|exact H2]..]; destruct (h_offset m + 1 <? 2 ^ 64)%Z; [|split; [reflexivity|exact H2]]; exact (IH _ _ _ _ _ H2)).
Qed.
Lemma stable_decode oc cs : stable (decode_chunks oc cs).
Proof.
  induction cs as [|[h b] cs IH]; cbn [decode_chunks]; [apply stable_ret|]. destruct (find _ STRUCTS) as [s|].
  - apply (stable_bind (mret (from_bytes oc s (Some (h_objectid h, h_type h, h_offset h)) b))); [apply stable_ret|intros v]. apply stable_bind; [exact IH|intros vs; apply stable_ret].
  - apply (stable_event (EvWarn (h_objectid h) (h_type h) (h_offset h)) (decode_chunks oc cs)); [discriminate|exact IH].
Qed.
Lemma stable_eval_search K f tree key : stable (eval_search K E f tree key).
Proof.
  unfold eval_search. apply stable_bind; [apply stable_ret|intros [[n ky] fl]]. apply stable_bind; [apply stable_ret|intros _]. destruct f as [f|]; [|apply stable_ret].
  apply stable_bind; [apply stable_ret|intros sk]. apply stable_bind; [|intros cs; apply stable_bind; [apply stable_decode|intros vs; apply stable_ret]].
  unfold fs_search. destruct f; [apply stable_search|apply stable_ret].
Qed.
Lemma stable_expr K vs f : forall e, stable (eval_expr K E vs f e).
Proof.
  fix IH 1. intros e. destruct e as [x|z|b|s|e|e fld|e i|fe args|op l r|op e|t e]; cbn [eval_expr]; try apply stable_ret.
  - apply IH.
  - apply stable_bind; [apply IH|intros v]. apply stable_bind; [apply stable_ret|intros [[nm ky] fl]]. destruct fld; apply stable_ret.
  - repeat (first [apply stable_ret|apply stable_bind; [first [apply IH|apply stable_ret]|intros ?]]).
  - apply stable_bind; [apply IH|intros fv]. apply stable_bind; [apply stable_ret|intros fn].
    destruct fn; repeat match goal with |- stable match ?l with [] => _ | _ => _ end => destruct l end; try apply stable_ret;
    repeat (first [apply stable_ret|apply stable_eval_search|apply stable_bind; [first [apply IH|apply stable_ret]|intros ?]]).
    destruct a0 as [[nm ky] fl]. destruct ky as [[[? ?] ?]|]; apply stable_ret.
  - destruct op; repeat (first [apply stable_ret|apply stable_bind; [first [apply IH|apply stable_ret]|intros ?]]);
    match goal with |- context [if ?x then _ else _] => destruct x end;
    repeat (first [apply stable_ret|apply stable_bind; [first [apply IH|apply stable_ret]|intros ?]]).
  - apply stable_bind; [apply IH|intros v; apply stable_ret].
  - apply stable_bind; [apply IH|intros v]. apply stable_bind; [apply stable_ret|intros z]. destruct (z <? 0)%Z; apply stable_ret.
Qed.
Lemma stable_lhs K vs f e : forall g, stable (lhs_assign K E vs f e g).
Proof.
  induction e; intros g; cbn [lhs_assign]; try apply stable_ret.
  - destruct e2; try apply stable_ret. apply IHe1.
  - apply stable_bind; [apply stable_expr|intros v]. apply stable_bind; [apply stable_ret|intros z]. apply IHe1.
Qed.
Lemma stable_open p : stable (fs_new E p).
Proof.
  intros w w' H. unfold fs_new. cbn [fst snd]. split; [rewrite (steady_open E HE (tick w) (tick w') p); reflexivity|]. apply ec_event; [discriminate|exact H].
Qed.

(** ** Statements *)
Definition esim (s s' : est) : Prop := e_vars s' = e_vars s /\ e_fs s' = e_fs s /\ echoed (e_w s) (e_w s').
Definition psim (p p' : est * ires) : Prop := snd p' = snd p /\ esim (fst p) (fst p').
Definition evsim (ev ev' : est -> stmt -> est * ires) : Prop := forall s s' st, esim s s' -> psim (ev s st) (ev' s' st).
Lemma with_expr_sim k s s' e c c' : esim s s' -> (forall u u' v, esim u u' -> psim (c u v) (c' u' v)) -> psim (with_expr k E s e c) (with_expr k E s' e c').
Proof.
  intros (Hv & Hf & Hw) Hc. unfold with_expr. rewrite Hv, Hf. destruct (stable_expr k (e_vars s) (e_fs s) e _ _ Hw) as [H1 H2].
  destruct (eval_expr k E (e_vars s) (e_fs s) e (e_w s)) as [w1 r], (eval_expr k E (e_vars s) (e_fs s) e (e_w s')) as [w1' r']. cbn [fst snd] in *. subst r'.
  assert (HS : esim (with_w s w1) (with_w s' w1')) by (repeat split; assumption).
  destruct r; [apply Hc; exact HS|..]; (split; [reflexivity|exact HS]).
Qed.
Lemma write_sim s s' t : esim s s' -> psim (do_write E s t) (do_write E s' t).
Proof.
  intros (Hv & Hf & Hw). unfold do_write. rewrite !(steady_sink E HE). split; [reflexivity|]. cbn [fst]. split; [exact Hv|]. split; [exact Hf|]. cbn [e_w with_w].
  apply (ec_write _ _ t). exact Hw.
Qed.
Lemma run_list_sim ev ev' l : evsim ev ev' -> forall s s', esim s s' -> psim (run_list ev s l) (run_list ev' s' l).
Proof.
  intros He. induction l as [|st l IH]; intros s s' H; [split; [reflexivity|exact H]|]. cbn [run_list]. fold (run_list ev) (run_list ev'). destruct (He s s' st H) as [H1 H2].
  destruct (ev s st) as [s1 r], (ev' s' st) as [s1' r']. cbn [fst snd] in *. subst r'. destruct r; [apply IH; exact H2|..]; (split; [reflexivity|exact H2]).
Qed.
Lemma while_sim ev ev' ke k c b : evsim ev ev' -> forall s s', esim s s' -> psim (while_loop ev ke E k c b s) (while_loop ev' ke E k c b s').
Proof.
  intros He. induction k as [|k IH]; intros s s' H; cbn [while_loop]; [split; [reflexivity|exact H]|]. apply with_expr_sim; [exact H|]. intros u u' v Hu.
  destruct (as_boolean v) as [[]|x|p|]; try (split; [reflexivity|exact Hu]). destruct (run_list_sim ev ev' b He u u' Hu) as [H1 H2].
  destruct (run_list ev u b) as [s1 r], (run_list ev' u' b) as [s1' r']. cbn [fst snd] in *. subst r'. destruct r; try (apply IH; exact H2); (split; [reflexivity|exact H2]).
Qed.
Lemma insert_sim x v s s' : esim s s' -> psim (est_insert x v s) (est_insert x v s').
Proof.
  intros (Hv & Hf & Hw). unfold est_insert. rewrite Hv. destruct (vars_insert x v (e_vars s)); (split; [reflexivity|]); repeat split; assumption.
Qed.
Lemma for_sim ev ev' x b items : evsim ev ev' -> forall s s', esim s s' -> psim (for_loop ev x b items s) (for_loop ev' x b items s').
Proof.
  intros He. induction items as [|v items IH]; intros s s' H; cbn [for_loop]; [split; [reflexivity|exact H]|]. destruct (insert_sim x v s s' H) as [H1 H2].
  destruct (est_insert x v s) as [s1 r], (est_insert x v s') as [s1' r']. cbn [fst snd] in *. subst r'. destruct r; try (split; [reflexivity|exact H2]).
  destruct (run_list_sim ev ev' b He s1 s1' H2) as [H3 H4]. destruct (run_list ev s1 b) as [s2 r], (run_list ev' s1' b) as [s2' r']. cbn [fst snd] in *. subst r'.
  destruct r; try (apply IH; exact H4); (split; [reflexivity|exact H4]).
Qed.
Lemma in_scope_sim s s' b b' : esim s s' -> (forall u u', esim u u' -> psim (b u) (b' u')) -> psim (in_scope s b) (in_scope s' b').
Proof.
  intros (Hv & Hf & Hw) Hb. unfold in_scope. rewrite Hv. destruct (Hb (with_vars s (push_scope (e_vars s))) (with_vars s' (push_scope (e_vars s)))) as [H1 H2]; [repeat split; assumption|].
  destruct (b (with_vars s (push_scope (e_vars s)))) as [s1 r], (b' (with_vars s' (push_scope (e_vars s)))) as [s1' r']. cbn [fst snd] in *. subst r'. destruct H2 as (H2 & H3 & H4).
  rewrite H2. destruct (pop_scope (e_vars s1)); (split; [reflexivity|]); repeat split; assumption.
Qed.
Lemma stmt_sim n : evsim (eval_stmt n E false) (eval_stmt n E true).
Proof.
  induction n as [|n IH]; intros s s' st H; [split; [reflexivity|exact H]|]. destruct st as [lhs rhs|c tb fb|c b|i rg b| | | | |e|e|e]; cbn [eval_stmt].
  - apply with_expr_sim; [exact H|]. intros u u' v Hu.
    assert (G : psim (let '(w, r) := lhs_assign n E (e_vars u) (e_fs u) lhs (fun _ => Ok v) (e_w u) in match r with Ok vs => (mk_est vs (e_fs u) w, IOk) | _ => (with_w u w, ires_of r) end)
                     (let '(w, r) := lhs_assign n E (e_vars u') (e_fs u') lhs (fun _ => Ok v) (e_w u') in match r with Ok vs => (mk_est vs (e_fs u') w, IOk) | _ => (with_w u' w, ires_of r) end)).
    { destruct Hu as (Hv & Hf & Hw). rewrite Hv, Hf. destruct (stable_lhs n (e_vars u) (e_fs u) lhs (fun _ => Ok v) _ _ Hw) as [H1 H2].
      destruct (lhs_assign n E (e_vars u) (e_fs u) lhs (fun _ => Ok v) (e_w u)) as [w1 r], (lhs_assign n E (e_vars u) (e_fs u) lhs (fun _ => Ok v) (e_w u')) as [w1' r']. cbn [fst snd] in *. subst r'.
      destruct r; (split; [reflexivity|]); repeat split; assumption. }
    destruct lhs; try exact G. apply insert_sim. exact Hu.
  - apply in_scope_sim; [exact H|]. intros u u' Hu. apply with_expr_sim; [exact Hu|]. intros x x' v Hx. destruct (as_boolean v) as [bb|e|p|]; try (split; [reflexivity|exact Hx]). apply run_list_sim; assumption.
  - apply in_scope_sim; [exact H|]. intros u u' Hu. apply while_sim; assumption.
  - apply in_scope_sim; [exact H|]. intros u u' Hu. destruct i; try (split; [reflexivity|exact Hu]). apply with_expr_sim; [exact Hu|]. intros x0 x' v Hx. destruct (as_vec v) as [bb|e|p|]; try (split; [reflexivity|exact Hx]). apply for_sim; assumption.
  - split; [reflexivity|exact H].
  - split; [reflexivity|exact H].
  - apply write_sim. exact H.
  - split; [reflexivity|exact H].
  - apply with_expr_sim; [exact H|]. intros u u' v Hu. destruct (as_string true v) as [p|e0|p|]; try (split; [reflexivity|exact Hu]).
    destruct Hu as (Hv & Hf & Hw). destruct (stable_open p _ _ Hw) as [H1 H2]. destruct (fs_new E p (e_w u)) as [w1 r], (fs_new E p (e_w u')) as [w1' r']. cbn [fst snd] in *. subst r'.
    destruct r; (split; [reflexivity|]); repeat split; assumption.
  - apply with_expr_sim; [exact H|]. intros u u' v Hu. destruct (print_text n (overflow_checks E) v); try (split; [reflexivity|exact Hu]). apply write_sim. exact Hu.
  - apply with_expr_sim; [exact H|]. intros u u' v (Hv & Hf & Hw). unfold do_write. rewrite (steady_sink E HE). split; [reflexivity|]. cbn [fst]. split; [exact Hv|]. split; [exact Hf|].
    cbn [e_w with_w]. apply (ec_echo _ _ (display v ++ nl)). exact Hw.
Qed.
Lemma rt_eval_sim n r r' cmd : alike r r' -> snd (rt_eval n E true r' cmd) = snd (rt_eval n E false r cmd) /\ alike (fst (rt_eval n E false r cmd)) (fst (rt_eval n E true r' cmd)).
Proof.
  intros H. destruct H as [Hn Hv Hf Hw]. unfold rt_eval. destruct (parse cmd) as [l|e|p|]; try (split; [reflexivity|constructor; assumption]).
  rewrite Hn. destruct (analyze (r_sem r) l) as [sem' [[]|e|p|]]; try (split; [reflexivity|constructor; (reflexivity||assumption)]).
  unfold eval_prog. destruct (run_list_sim _ _ l (stmt_sim n) (r_eval r) (r_eval r')) as [H1 H2]; [repeat split; assumption|].
  destruct (run_list (eval_stmt n E false) (r_eval r) l) as [s1 q], (run_list (eval_stmt n E true) (r_eval r') l) as [s1' q']. cbn [fst snd] in *. subst q'. split; [reflexivity|].
  destruct H2 as (H2 & H3 & H4). constructor; (reflexivity||assumption).
Qed.
End Steady.

(** ** Programs without expression statements *)
Definition no_expr (st : stmt) : Prop := forall e, ~ In (SExpr e) (substmts st).
Lemma run_list_same ev ev' l : (forall st, In st l -> forall s, ev s st = ev' s st) -> forall s, run_list ev s l = run_list ev' s l.
Proof.
  intros H. induction l as [|st l IH]; intros s; [reflexivity|]. cbn [run_list]. fold (run_list ev) (run_list ev'). rewrite (H st (or_introl eq_refl)). destruct (ev' s st) as [s' []]; try reflexivity.
  apply IH. intros st' H'. apply H. right. exact H'.
Qed.
Lemma with_expr_ext k E s e c c' : (forall u v, c u v = c' u v) -> with_expr k E s e c = with_expr k E s e c'.
Proof. intros H. unfold with_expr. destruct (eval_expr k E (e_vars s) (e_fs s) e (e_w s)) as [w []]; try reflexivity. apply H. Qed.
Lemma in_scope_ext s b b' : (forall u, b u = b' u) -> in_scope s b = in_scope s b'.
Proof. intros H. unfold in_scope. rewrite H. reflexivity. Qed.
Lemma no_expr_same E n : forall st, no_expr st -> forall s, eval_stmt n E true s st = eval_stmt n E false s st.
Proof.
  induction n as [|n IH]; intros st HN s; [reflexivity|].
  assert (HL : forall l, (forall u, In u l -> forall x, In x (substmts u) -> In x (substmts st)) -> forall s, run_list (eval_stmt n E true) s l = run_list (eval_stmt n E false) s l).
  { intros l Hl. apply run_list_same. intros u Hu. apply IH. intros e He. apply (HN e). eapply Hl; eassumption. }
  destruct st as [lhs rhs|c tb fb|c b|i rg b| | | | |e|e|e]; cbn [eval_stmt]; try reflexivity.
  - apply in_scope_ext. intros u. apply with_expr_ext. intros x v. destruct (as_boolean v) as [bb|e|p|]; try reflexivity. apply HL. intros y Hy z Hz. cbn [substmts]. right. apply in_app_iff.
    destruct bb; [left|right]; eapply sub_flat; eassumption.
  - apply in_scope_ext. assert (HB : forall s, run_list (eval_stmt n E true) s b = run_list (eval_stmt n E false) s b) by (apply HL; intros y Hy z Hz; cbn [substmts]; right; eapply sub_flat; eassumption).
    clear HL. assert (G : forall k u, while_loop (eval_stmt n E true) n E k c b u = while_loop (eval_stmt n E false) n E k c b u); [|exact (G n)].
    induction k as [|k IHk]; intros u; [reflexivity|]. cbn [while_loop]. apply with_expr_ext. intros x v. destruct (as_boolean v) as [[]|e|p|]; try reflexivity. rewrite HB.
    destruct (run_list (eval_stmt n E false) x b) as [s' []]; try reflexivity; apply IHk.
  - apply in_scope_ext. assert (HB : forall s, run_list (eval_stmt n E true) s b = run_list (eval_stmt n E false) s b) by (apply HL; intros y Hy z Hz; cbn [substmts]; right; eapply sub_flat; eassumption).
    intros u. destruct i; try reflexivity. apply with_expr_ext. intros y v. destruct (as_vec v) as [items|e|p|]; try reflexivity. clear -HB. revert y.
    induction items as [|v items IHi]; intros y; [reflexivity|]. cbn [for_loop]. destruct (est_insert x v y) as [s1 []]; try reflexivity. rewrite HB.
    destruct (run_list (eval_stmt n E false) s1 b) as [s' []]; try reflexivity; apply IHi.
  - elim (HN e). left. reflexivity.
Qed.
Lemma rt_eval_same n E r cmd : (forall l, parse cmd = Ok l -> ~ has_expression_statement l) -> rt_eval n E true r cmd = rt_eval n E false r cmd.
Proof.
  intros H. unfold rt_eval. destruct (parse cmd) as [l|e|p|]; try reflexivity. destruct (analyze (r_sem r) l) as [sem' [[]|e|p|]]; try reflexivity.
  unfold eval_prog. rewrite (run_list_same (eval_stmt n E true) (eval_stmt n E false)); [reflexivity|]. intros st Hst. apply no_expr_same. intros e He. apply (H l eq_refl). exists st, e. auto.
Qed.
