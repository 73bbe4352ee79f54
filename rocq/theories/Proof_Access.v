(** C66: relations between states that every evaluation step respects. *)
From Verif Require Import Base Ast Pom Parse Structs Definitions Value Variables Semantics Fs Eval Runtime Lib Spec_Run Spec_Text Spec_Session Spec_Fs Spec_Access
  Proof_Vars Proof_Run Proof_Session Proof_Fs Proof_Driver.
Require Import Lia.
Arguments s_ s%string_scope.

(** ** Expressions only query the current filesystem *)
Definition asks (f : option fs) (a b : world) : Prop :=
  w_out b = w_out a /\
  exists l, w_log b = w_log a ++ l /\ Forall (fun ev => match ev with EvIoctl fd _ => f = Some (FsMounted fd) | EvWarn _ _ _ => True | _ => False end) l.
Lemma asks_refl f w : asks f w w.
Proof. split; [reflexivity|]. exists []. rewrite app_nil_r. split; [reflexivity|constructor]. Qed.
Lemma asks_trans f a b c : asks f a b -> asks f b c -> asks f a c.
Proof.
  intros [H1 (l & H2 & H3)] [H4 (m & H5 & H6)]. split; [congruence|]. exists (l ++ m). rewrite H5, H2, app_assoc. split; [reflexivity|]. apply Forall_app. auto.
Qed.
Definition asking {A} (f : option fs) (m : M A) : Prop := forall w w' r, m w = (w', r) -> asks f w w'.
Lemma asking_ret {A} f (r : res A) : asking f (mret r).
Proof. intros w w' r' H. injection H as <- <-. apply asks_refl. Qed.
Lemma asking_bind {A B} f (m : M A) (g : A -> M B) : asking f m -> (forall a, asking f (g a)) -> asking f (mbind m g).
Proof.
  intros Hm Hg w w' r H. unfold mbind in H. destruct (m w) as [w1 [a|e|p|]] eqn:H1; apply Hm in H1; try (injection H as <- <-; exact H1). eapply asks_trans; [exact H1|]. exact (Hg a _ _ _ H).
Qed.
Lemma search_loop_asking E fd retry K : forall key ret coll, asking (Some (FsMounted fd)) (search_loop K E fd retry key ret coll).
Proof.
  induction K as [|K IH]; intros key ret coll w w' r H; cbn [search_loop] in H; [injection H as <- _; apply asks_refl|].
  assert (S : asks (Some (FsMounted fd)) w (log_event w (EvIoctl fd key))).
  { split; [reflexivity|]. exists [EvIoctl fd key]. split; [reflexivity|]. repeat constructor. }
  assert (G : forall nr buf, match extract (overflow_checks E) (Z.to_nat nr) buf 0 ret coll with
      | Ok (ret', coll') =>
        if negb retry || (nr =? 0)%Z then (log_event w (EvIoctl fd key), let* _ := ensure (coll' =? 0)%Z (ECollisions coll') in Ok ret')
        else match largest ret' with
          | None => (log_event w (EvIoctl fd key), Panic PUnwrap)
          | Some m => match try_into_u 8 (h_type m) with
            | Ok t => if (h_offset m + 1 <? 2 ^ 64)%Z then
                search_loop K E fd retry (mk_skey (sk_tree key) (h_objectid m) (sk_max_objectid key) t (sk_max_type key) (h_offset m + 1) (sk_max_offset key) (sk_min_transid key) (sk_max_transid key))
                  ret' coll' (log_event w (EvIoctl fd key))
              else (log_event w (EvIoctl fd key), Err EKeyOverflow)
            | Err e => (log_event w (EvIoctl fd key), Err e)
            | Panic p => (log_event w (EvIoctl fd key), Panic p)
            | Fuel => (log_event w (EvIoctl fd key), Fuel)
            end
          end
      | Err e => (log_event w (EvIoctl fd key), Err e)
      | Panic p => (log_event w (EvIoctl fd key), Panic p)
      | Fuel => (log_event w (EvIoctl fd key), Fuel) end = (w', r) -> asks (Some (FsMounted fd)) w w').
  { clear H. intros nr buf H. destruct (extract _ _ buf 0 ret coll) as [[ret' coll']| | |]; try (injection H as <- _; exact S).
    destruct (negb retry || (nr =? 0)%Z); [injection H as <- _; exact S|]. destruct (largest ret') as [m|]; [|injection H as <- _; exact S].
    destruct (try_into_u 8 (h_type m)); try (injection H as <- _; exact S). destruct (h_offset m + 1 <? 2 ^ 64)%Z; [|injection H as <- _; exact S].
    eapply asks_trans; [exact S|]. exact (IH _ _ _ _ _ _ H). }
  destruct (ioctl E (tick w) fd key) as [nr buf|nr buf|]; [exact (G nr buf H)|exact (G nr buf H)|injection H as <- _; exact S].
Qed.
Lemma decode_asking f oc cs : asking f (decode_chunks oc cs).
Proof.
  induction cs as [|[h b] cs IH]; intros w w' r H; cbn [decode_chunks] in H; [injection H as <- _; apply asks_refl|]. destruct (find _ STRUCTS) as [s|].
  - revert w w' r H. change (asking f (do v <- mret (from_bytes oc s (Some (h_objectid h, h_type h, h_offset h)) b) ;; do vs <- decode_chunks oc cs ;; mret (Ok (v :: vs)))).
    apply asking_bind; [apply asking_ret|intros v]. apply asking_bind; [exact IH|intros vs; apply asking_ret].
  - eapply asks_trans; [|exact (IH _ _ _ H)]. split; [reflexivity|]. eexists [_]. split; [reflexivity|]. repeat constructor.
Qed.
Lemma eval_search_asking K E f tree key : asking f (eval_search K E f tree key).
Proof.
  unfold eval_search. apply asking_bind; [apply asking_ret|intros [[n ky] fl]]. apply asking_bind; [apply asking_ret|intros _]. destruct f as [f|]; [|apply asking_ret].
  apply asking_bind; [apply asking_ret|intros sk]. apply asking_bind; [|intros cs; apply asking_bind; [apply decode_asking|intros vs; apply asking_ret]].
  unfold fs_search. destruct f; [apply search_loop_asking|apply asking_ret].
Qed.
Lemma eval_asking K E vs f : forall e, asking f (eval_expr K E vs f e).
Proof.
  fix IH 1. intros e. destruct e as [x|z|b|s|e|e fld|e i|fe args|op l r|op e|t e]; cbn [eval_expr]; try apply asking_ret.
  - apply IH.
  - apply asking_bind; [apply IH|intros v]. apply asking_bind; [apply asking_ret|intros [[nm ky] fl]]. destruct fld; apply asking_ret.
  - repeat (first [apply asking_ret|apply asking_bind; [first [apply IH|apply asking_ret]|intros ?]]).
  - apply asking_bind; [apply IH|intros fv]. apply asking_bind; [apply asking_ret|intros fn].
    destruct fn; repeat match goal with |- asking _ match ?l with [] => _ | _ => _ end => destruct l end; try apply asking_ret;
    repeat (first [apply asking_ret|apply eval_search_asking|apply asking_bind; [first [apply IH|apply asking_ret]|intros ?]]).
    destruct a0 as [[nm ky] fl]. destruct ky as [[[? ?] ?]|]; apply asking_ret.
  - destruct op; repeat (first [apply asking_ret|apply asking_bind; [first [apply IH|apply asking_ret]|intros ?]]);
    match goal with |- context [if ?x then _ else _] => destruct x end;
    repeat (first [apply asking_ret|apply asking_bind; [first [apply IH|apply asking_ret]|intros ?]]).
  - apply asking_bind; [apply IH|intros v; apply asking_ret].
  - apply asking_bind; [apply IH|intros v]. apply asking_bind; [apply asking_ret|intros z]. destruct (z <? 0)%Z; apply asking_ret.
Qed.
Lemma lhs_asking K E vs f e : forall g, asking f (lhs_assign K E vs f e g).
Proof.
  induction e; intros g; cbn [lhs_assign]; try apply asking_ret.
  - destruct e2; try apply asking_ret. apply IHe1.
  - apply asking_bind; [apply eval_asking|intros v]. apply asking_bind; [apply asking_ret|intros z]. apply IHe1.
Qed.

(** ** A relation between states respected by every step is respected by every program *)
Section States.
Context (E : env) (inter : bool) (R : est -> est -> Prop).
Hypothesis Rvars : forall s s', e_fs s' = e_fs s -> e_w s' = e_w s -> R s s'.
Hypothesis Rtrans : forall a b c, R a b -> R b c -> R a c.
Hypothesis Rasks : forall s s', e_fs s' = e_fs s -> asks (e_fs s) (e_w s) (e_w s') -> R s s'.
Hypothesis Rwrite : forall s t s' r, do_write E s t = (s', r) -> R s s'.
(** selecting a filesystem; only needed for programs that do *)
Definition rselect : Prop := forall s p w r, fs_new E p (e_w s) = (w, r) ->
  R s (match r with Ok f => mk_est (e_vars s) (Some f) w | _ => with_w s w end).
Definition has_fs (st : stmt) : Prop := exists e, In (SFilesystem e) (substmts st).
Definition rev_ (ev : est -> stmt -> est * ires) : Prop := forall s st s' r, (has_fs st -> rselect) -> ev s st = (s', r) -> R s s'.
Lemma Rrefl s : R s s. Proof. apply Rvars; reflexivity. Qed.

Lemma with_expr_r k s e c s' r : (forall s1 v, c s1 v = (s', r) -> R s1 s') -> with_expr k E s e c = (s', r) -> R s s'.
Proof.
  unfold with_expr. intros Hc H. destruct (eval_expr k E (e_vars s) (e_fs s) e (e_w s)) as [w q] eqn:He. apply eval_asking in He.
  assert (H1 : R s (with_w s w)) by (apply Rasks; [reflexivity|exact He]).
  destruct q; try (injection H as <- _; exact H1). eapply Rtrans; [exact H1|]. exact (Hc _ _ H).
Qed.
Lemma run_list_r ev l : rev_ ev -> (forall st, In st l -> has_fs st -> rselect) -> forall s s' r, run_list ev s l = (s', r) -> R s s'.
Proof.
  intros Hev. induction l as [|st l IH]; intros Hl s s' r H; cbn [run_list] in H; [injection H as <- _; apply Rrefl|].
  destruct (ev s st) as [s1 q] eqn:H1. apply Hev in H1; [|intros X; exact (Hl st (or_introl eq_refl) X)].
  destruct q; try (injection H as <- _; exact H1). eapply Rtrans; [exact H1|]. eapply IH; [|exact H]. intros x Hx. apply Hl. right. exact Hx.
Qed.
Lemma while_r ev ke k c b : rev_ ev -> (forall st, In st b -> has_fs st -> rselect) -> forall s s' r, while_loop ev ke E k c b s = (s', r) -> R s s'.
Proof.
  intros Hev Hb. induction k as [|k IH]; intros s s' r H; cbn [while_loop] in H; [injection H as <- _; apply Rrefl|].
  revert H. apply with_expr_r. intros s1 v H. destruct (as_boolean v) as [[|]|e|p|]; try (injection H as <- _; apply Rrefl).
  destruct (run_list ev s1 b) as [s2 q] eqn:H2. apply run_list_r in H2; [|exact Hev|exact Hb].
  destruct q; try (injection H as <- _; exact H2); (eapply Rtrans; [exact H2|exact (IH _ _ _ H)]).
Qed.
Lemma insert_r x v s s' r : est_insert x v s = (s', r) -> R s s'.
Proof. unfold est_insert. destruct (vars_insert x v (e_vars s)); intros H; injection H as <- _; apply Rvars; reflexivity. Qed.
Lemma for_r ev x b items : rev_ ev -> (forall st, In st b -> has_fs st -> rselect) -> forall s s' r, for_loop ev x b items s = (s', r) -> R s s'.
Proof.
  intros Hev Hb. induction items as [|v items IH]; intros s s' r H; cbn [for_loop] in H; [injection H as <- _; apply Rrefl|].
  destruct (est_insert x v s) as [s1 q1] eqn:H1. apply insert_r in H1.
  destruct q1; try (injection H as <- _; exact H1). destruct (run_list ev s1 b) as [s2 q] eqn:H2. apply run_list_r in H2; [|exact Hev|exact Hb].
  destruct q; try (injection H as <- _; eapply Rtrans; eassumption); (eapply Rtrans; [exact H1|eapply Rtrans; [exact H2|exact (IH _ _ _ H)]]).
Qed.
Lemma in_scope_r s b s' r : (forall s0 s1 q, b s0 = (s1, q) -> R s0 s1) -> in_scope s b = (s', r) -> R s s'.
Proof.
  unfold in_scope. intros Hb H. destruct (b _) as [s1 q] eqn:H1. apply Hb in H1. eapply Rtrans; [apply Rvars with (s' := with_vars s (push_scope (e_vars s))); reflexivity|].
  eapply Rtrans; [exact H1|]. destruct (pop_scope (e_vars s1)); injection H as <- _; [apply Rvars; reflexivity|apply Rrefl].
Qed.
Lemma has_sub u st : (forall v, In v (substmts u) -> In v (substmts st)) -> has_fs u -> has_fs st.
Proof. intros H (v & H1). exists v. apply H. exact H1. Qed.
Lemma eval_stmt_r n : rev_ (eval_stmt n E inter).
Proof.
  induction n as [|n IH]; intros s st s' r HW H; cbn [eval_stmt] in H; [injection H as <- _; apply Rrefl|].
  destruct st as [lhs rhs|c tb fb|c b|i re b| | | | |e|e|e].
  - revert H. apply with_expr_r. intros s1 v H.
    assert (G : (let '(w, r) := lhs_assign n E (e_vars s1) (e_fs s1) lhs (fun _ => Ok v) (e_w s1) in match r with Ok vs => (mk_est vs (e_fs s1) w, IOk) | _ => (with_w s1 w, ires_of r) end) = (s', r) -> R s1 s').
    { clear H. intros H. destruct (lhs_assign n E (e_vars s1) (e_fs s1) lhs (fun _ => Ok v) (e_w s1)) as [w q] eqn:Hl. apply lhs_asking in Hl. destruct q; injection H as <- _; (apply Rasks; [reflexivity|exact Hl]). }
    destruct lhs; try exact (G H). eapply insert_r; exact H.
  - revert H. apply in_scope_r. intros s0 s1 q. apply with_expr_r. intros s2 v H. destruct (as_boolean v) as [t|x|p|]; try (injection H as <- _; apply Rrefl).
    eapply run_list_r; [exact IH| |exact H]. intros u Hu X. apply HW. eapply has_sub; [|exact X]. intros z Hz. cbn [substmts]. right. apply in_app_iff. destruct t; [left|right]; eapply sub_flat; eassumption.
  - revert H. apply in_scope_r. intros s0 s1 q H. eapply while_r; [exact IH| |exact H]. intros u Hu X. apply HW. eapply has_sub; [|exact X]. intros z Hz. cbn [substmts]. right. eapply sub_flat; eassumption.
  - revert H. apply in_scope_r. intros s0 s1 q H. destruct i; try (injection H as <- _; apply Rrefl). revert H. apply with_expr_r. intros s2 v H.
    destruct (as_vec v) as [items|x0|p|]; try (injection H as <- _; apply Rrefl).
    eapply for_r; [exact IH| |exact H]. intros u Hu X. apply HW. eapply has_sub; [|exact X]. intros z Hz. cbn [substmts]. right. eapply sub_flat; eassumption.
  - injection H as <- _. apply Rrefl.
  - injection H as <- _. apply Rrefl.
  - eapply Rwrite. exact H.
  - injection H as <- _. apply Rrefl.
  - assert (HS : rselect) by (apply HW; exists e; left; reflexivity). revert H. apply with_expr_r. intros s1 v H. destruct (as_string true v) as [p|x|p|]; try (injection H as <- _; apply Rrefl).
    destruct (fs_new E p (e_w s1)) as [w q] eqn:Hf. apply HS in Hf. destruct q; injection H as <- _; exact Hf.
  - revert H. apply with_expr_r. intros s1 v H. destruct (print_text n (overflow_checks E) v) as [t|x|p|]; try (injection H as <- _; apply Rrefl).
    eapply Rwrite. exact H.
  - revert H. apply with_expr_r. intros s1 v H. destruct inter; [|injection H as <- _; apply Rrefl]. eapply Rwrite. exact H.
Qed.
Lemma rt_eval_r n r cmd r' q : (forall l, parse cmd = Ok l -> selects l -> rselect) -> rt_eval n E inter r cmd = (r', q) -> R (r_eval r) (r_eval r').
Proof.
  intros HS H. unfold rt_eval in H. destruct (parse cmd) as [l|e|p|]; try (injection H as <- _; apply Rrefl).
  destruct (analyze (r_sem r) l) as [sem' a]. destruct a as [[]|e|p|]; try (injection H as <- _; apply Rrefl). unfold eval_prog in H.
  destruct (run_list (eval_stmt n E inter) (r_eval r) l) as [s' q'] eqn:Hr. injection H as <- _. cbn [r_eval].
  eapply run_list_r; [apply eval_stmt_r| |exact Hr]. intros st Hst (e & He). apply (HS l eq_refl). exists st, e. split; assumption.
Qed.
End States.

(** ** The selected filesystem *)
Lemma selected_other E log l o : selected E log o -> Forall (fun ev => forall p, ev <> EvOpen p) l -> selected E (log ++ l) o.
Proof.
  intros H. induction l as [|ev l IH] using rev_ind; intros HF; [rewrite app_nil_r; exact H|].
  apply Forall_app in HF. destruct HF as [HF Hev]. rewrite app_assoc. apply sl_other; [inversion Hev; assumption|auto].
Qed.
Lemma selected_snoc E log ev o : selected E (log ++ [ev]) o ->
  (exists p f, ev = EvOpen p /\ accepted (open_path E (length log) p) f /\ o = Some f) \/
  (exists p, ev = EvOpen p /\ (forall f, ~ accepted (open_path E (length log) p) f) /\ selected E log o) \/
  ((forall p, ev <> EvOpen p) /\ selected E log o).
Proof.
  intros H. remember (log ++ [ev]) as l eqn:Hl. destruct H as [|l0 p f Ha|l0 p o Hr H|l0 ev0 o Hn H].
  - destruct log; discriminate.
  - apply app_inj_tail in Hl. destruct Hl as [-> <-]. left. eauto.
  - apply app_inj_tail in Hl. destruct Hl as [-> <-]. right. left. eauto.
  - apply app_inj_tail in Hl. destruct Hl as [-> <-]. right. right. auto.
Qed.
Lemma selected_fun E log : forall o o', selected E log o -> selected E log o' -> o = o'.
Proof.
  induction log as [|ev log IH] using rev_ind; intros o o' H H'.
  - inversion H as [|l p f Ha Hl|l p x Hr Hx Hl|l e x Hn Hx Hl]; [|destruct l; discriminate|destruct l; discriminate|destruct l; discriminate].
    inversion H' as [|l p f Ha Hl|l p x Hr Hx Hl|l e x Hn Hx Hl]; [reflexivity|destruct l; discriminate|destruct l; discriminate|destruct l; discriminate].
  - apply selected_snoc in H. apply selected_snoc in H'.
    destruct H as [(p & f & -> & Ha & ->)|[(p & -> & Hr & H)|[Hn H]]], H' as [(p' & f' & He & Ha' & ->)|[(p' & He & Hr' & H')|[Hn' H']]];
      try (injection He as <-); try (subst ev; elim (Hn _ eq_refl)); try (elim (Hn' _ eq_refl)); try (elim (Hr' _ Ha)); try (elim (Hr _ Ha')); try (apply IH; assumption).
    f_equal. destruct Ha as [(fd & E1 & ->)|(im & E1 & _ & ->)], Ha' as [(fd2 & E2 & ->)|(im2 & E2 & _ & ->)]; congruence.
Qed.
Definition consistent (E : env) (s : est) : Prop := selected E (w_log (e_w s)) (e_fs s) /\ only_selected E (w_log (e_w s)).
Lemma only_app E log l : only_selected E log -> (forall b fd k a, l = b ++ EvIoctl fd k :: a -> selected E (log ++ b) (Some (FsMounted fd))) -> only_selected E (log ++ l).
Proof.
  intros H Hl before fd k after Heq. apply app_eq_app in Heq. destruct Heq as (m & [[H1 H2]|[H1 H2]]).
  - destruct m as [|y m].
    + rewrite app_nil_r in H1. subst log. cbn in H2. specialize (Hl [] fd k after (eq_sym H2)). rewrite app_nil_r in Hl. exact Hl.
    + cbn in H2. injection H2 as <- ->. eapply H. exact H1.
  - rewrite H1. eapply Hl. exact H2.
Qed.
Lemma Forall_mid {A} (P : A -> Prop) b x a : Forall P (b ++ x :: a) -> Forall P b /\ P x.
Proof. intros H. apply Forall_app in H. destruct H as [H1 H2]. inversion H2. auto. Qed.
Lemma consistent_asks E s s' : e_fs s' = e_fs s -> asks (e_fs s) (e_w s) (e_w s') -> consistent E s -> consistent E s'.
Proof.
  intros Hf [_ (l & Hl & HF)] [Hs Ho]. unfold consistent. rewrite Hf, Hl.
  assert (HN : forall l', Forall (fun ev => match ev with EvIoctl fd _ => e_fs s = Some (FsMounted fd) | EvWarn _ _ _ => True | _ => False end) l' -> Forall (fun ev => forall p, ev <> EvOpen p) l').
  { intros l' H. eapply Forall_impl; [|exact H]. intros ev Hev p ->. exact Hev. }
  split; [apply selected_other; [exact Hs|apply HN; exact HF]|]. apply only_app; [exact Ho|].
  intros b fd k a ->. apply Forall_mid in HF. destruct HF as [H1 H2]. rewrite <- H2. apply selected_other; [exact Hs|apply HN; exact H1].
Qed.
Lemma consistent_other E s s' ev : e_fs s' = e_fs s -> w_log (e_w s') = w_log (e_w s) ++ [ev] -> (forall p, ev <> EvOpen p) -> (forall fd k, ev <> EvIoctl fd k) -> consistent E s -> consistent E s'.
Proof.
  intros Hf Hl H1 H2 [Hs Ho]. unfold consistent. rewrite Hf, Hl. split; [apply sl_other; assumption|]. apply only_app; [exact Ho|].
  intros [|x b] fd k a Heq; cbn in Heq; [injection Heq as -> _; elim (H2 _ _ eq_refl)|]. injection Heq as _ Heq. destruct b; discriminate.
Qed.
Lemma consistent_write E s t s' r : do_write E s t = (s', r) -> consistent E s -> consistent E s'.
Proof.
  unfold do_write. destruct (sink E (tick (e_w s)) t); intros H; injection H as <- _; (eapply consistent_other; [reflexivity|reflexivity|intros; discriminate|intros; discriminate]).
Qed.
Lemma fs_new_cases E p w w' r : fs_new E p w = (w', r) -> w_log w' = w_log w ++ [EvOpen p] /\ w_out w' = w_out w /\
  match r with Ok f => accepted (open_path E (length (w_log w)) p) f | _ => forall f, ~ accepted (open_path E (length (w_log w)) p) f end.
Proof.
  intros H. assert (Hr : w' = log_event w (EvOpen p)) by (unfold fs_new in H; injection H as <- _; reflexivity). subst w'. split; [reflexivity|]. split; [reflexivity|].
  destruct (fs_new_iff E p w) as (_ & HI & _). unfold tick in HI. rewrite H in HI. cbn [snd] in HI.
  destruct r as [f| | |]; [apply HI; reflexivity|..]; intros f Hf; apply HI in Hf; discriminate.
Qed.
Lemma consistent_select E s p w r : fs_new E p (e_w s) = (w, r) -> consistent E s -> consistent E (match r with Ok f => mk_est (e_vars s) (Some f) w | _ => with_w s w end).
Proof.
  intros H [Hs Ho]. apply fs_new_cases in H. destruct H as (Hl & _ & Hr).
  assert (Ho' : only_selected E (w_log w)).
  { rewrite Hl. apply only_app; [exact Ho|]. intros [|x b] fd k a Heq; cbn in Heq; [discriminate|]. injection Heq as _ Heq. destruct b; discriminate. }
  destruct r as [f| | |]; (split; [|exact Ho']); cbn [e_w with_w e_fs]; rewrite Hl; [apply sl_opened; exact Hr|..]; apply sl_refused; assumption.
Qed.
Lemma consistent_new E : consistent E (eval_new E).
Proof.
  unfold eval_new. assert (H0 : only_selected E []) by (intros b fd k a H; destruct b; discriminate).
  destruct (getcwd E) as [cwd|]; [|split; [apply sl_none|exact H0]].
  destruct (fs_new E cwd (mk_world [] [])) as [w r] eqn:Hf.
  pose proof (consistent_select E (mk_est (vars_new VInt VFun) None (mk_world [] [])) cwd w r Hf (conj (sl_none E) H0)) as H. destruct r; exact H.
Qed.
Lemma consistent_session E h r : session E h r -> consistent E (r_eval r).
Proof.
  intros H. induction H as [|h r n inter cmd H IH]; [apply consistent_new|].
  destruct (rt_eval n E inter r cmd) as [r' q] eqn:He. cbn [fst].
  refine (rt_eval_r E inter (fun s s' => consistent E s -> consistent E s') _ _ _ _ n r cmd r' q _ He IH).
  - intros s s' H1 H2 [Hs Ho]. unfold consistent. rewrite H1, H2. split; assumption.
  - auto.
  - intros s s' H1 H2. apply consistent_asks; assumption.
  - intros s t s' r0 Hw. eapply consistent_write. exact Hw.
  - intros l _ _ s p w r0 Hf. exact (consistent_select E s p w r0 Hf).
Qed.
(** a program without filesystem commands opens nothing and keeps the filesystem *)
Lemma no_select n E inter r cmd r' q : (forall l, parse cmd = Ok l -> ~ selects l) -> rt_eval n E inter r cmd = (r', q) ->
  e_fs (r_eval r') = e_fs (r_eval r) /\ exists l, w_log (e_w (r_eval r')) = w_log (e_w (r_eval r)) ++ l /\ forall p, ~ In (EvOpen p) l.
Proof.
  intros HS He.
  refine (rt_eval_r E inter (fun s s' => e_fs s' = e_fs s /\ exists l, w_log (e_w s') = w_log (e_w s) ++ l /\ forall p, ~ In (EvOpen p) l) _ _ _ _ n r cmd r' q _ He).
  - intros s s' H1 H2. split; [exact H1|]. exists []. rewrite H2, app_nil_r. auto.
  - intros a b c [H1 (l & H2 & H3)] [H4 (m & H5 & H6)]. split; [congruence|]. exists (l ++ m). rewrite H5, H2, app_assoc. split; [reflexivity|].
    intros p Hp. apply in_app_iff in Hp. destruct Hp; [eapply H3|eapply H6]; eassumption.
  - intros s s' H1 [_ (l & H2 & H3)]. split; [exact H1|]. exists l. split; [exact H2|]. intros p Hp. rewrite Forall_forall in H3. exact (H3 _ Hp).
  - intros s t s' r0 Hw. unfold do_write in Hw. destruct (sink E (tick (e_w s)) t); injection Hw as <- _; (split; [reflexivity|]); exists [EvWrite t]; (split; [reflexivity|]); intros p [X|[]]; discriminate.
  - intros l Hp Hs. elim (HS l Hp Hs).
Qed.
