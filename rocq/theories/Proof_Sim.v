(** A simulation between two runs of the same program in two environments, with two step budgets. *)
From Verif Require Import Base Ast Pom Parse Structs Definitions Value Variables Semantics Fs Eval Runtime Lib Spec_Run Spec_Text Spec_Driver
  Proof_Run Proof_Driver.
From Coq Require Import Lia.

Section Sim.
(** [W]: the two runs are still in step.  [D]: they have parted.  [stop]: the first run has the
    smaller budget, and it parts from the second only by stopping. *)
Context (E1 E2 : env) (stop : bool) (W D : world -> world -> Prop).
Definition answers (ok : Prop) (w1 w2 w1' w2' : world) : Prop := (ok /\ W w1' w2') \/ (stop = false /\ D w1' w2').
Record sim_ok : Prop := mk_sim_ok {
  so_oc : overflow_checks E1 = overflow_checks E2;
  so_right : forall w1 w2 w2', D w1 w2 -> appended w2 w2' -> D w1 w2';
  so_left : stop = false -> forall w1 w2 w1', D w1 w2 -> appended w1 w1' -> D w1' w2;
  so_stop : stop = true -> forall w1 w2 w2', W w1 w2 -> appended w2 w2' -> D w1 w2';
  so_ioctl : forall w1 w2 fd k, W w1 w2 ->
    answers (ioctl E1 (tick w1) fd k = ioctl E2 (tick w2) fd k) w1 w2 (log_event w1 (EvIoctl fd k)) (log_event w2 (EvIoctl fd k));
  so_open : forall w1 w2 p, W w1 w2 ->
    answers (open_path E1 (tick w1) p = open_path E2 (tick w2) p) w1 w2 (log_event w1 (EvOpen p)) (log_event w2 (EvOpen p));
  so_warn : forall w1 w2 a b c, W w1 w2 -> W (log_event w1 (EvWarn a b c)) (log_event w2 (EvWarn a b c));
  so_write : forall w1 w2 t, W w1 w2 ->
    let wrote E w := match sink E (tick w) t with
                     | SkOk => mk_world (w_log w ++ [EvWrite t]) (w_out w ++ t)
                     | SkErr n => mk_world (w_log w ++ [EvWrite t]) (w_out w ++ firstn n t) end in
    answers (sink E1 (tick w1) t = sink E2 (tick w2) t) w1 w2 (wrote E1 w1) (wrote E2 w2)
}.
Hypothesis OK : sim_ok.
Definition budgets (k1 k2 : nat) : Prop := if stop then k1 <= k2 else k1 = k2.
Lemma budgets_pred k1 k2 : budgets (S k1) (S k2) -> budgets k1 k2.
Proof. unfold budgets. destruct stop; lia. Qed.
Lemma budgets_le k1 k2 : budgets k1 k2 -> k1 <= k2.
Proof. unfold budgets. destruct stop; lia. Qed.

(** ** Expressions *)
Definition psim {A} (p1 p2 : world * res A) : Prop :=
  (W (fst p1) (fst p2) /\ snd p1 = snd p2) \/ (D (fst p1) (fst p2) /\ (stop = true -> forall a, snd p1 <> Ok a)).
Definition grows {A} (m : M A) : Prop := forall w, appended w (fst (m w)).
Record sim {A} (m1 m2 : M A) : Prop := mk_sim { sm_1 : grows m1; sm_2 : grows m2; sm_p : forall w1 w2, W w1 w2 -> psim (m1 w1) (m2 w2) }.
Lemma calm_grows {A} (m : M A) : calm m -> grows m.
Proof. intros H w. destruct (m w) as [w' r] eqn:Hm. apply silent_appended. exact (H _ _ _ Hm). Qed.
Lemma sim_ret {A} (r : res A) : sim (mret r) (mret r).
Proof. split; [apply calm_grows, calm_ret..|]. intros w1 w2 H. left. split; [exact H|reflexivity]. Qed.
Lemma grows_bind {A B} (m : M A) (g : A -> M B) : grows m -> (forall a, grows (g a)) -> grows (mbind m g).
Proof.
  intros Hm Hg w. unfold mbind. pose proof (Hm w) as H1. destruct (m w) as [w' r]. cbn [fst] in *. destruct r; cbn [fst]; try exact H1. eapply appended_trans; [exact H1|apply Hg].
Qed.
Lemma sim_bind {A B} (m1 m2 : M A) (g1 g2 : A -> M B) : sim m1 m2 -> (forall a, sim (g1 a) (g2 a)) -> sim (mbind m1 g1) (mbind m2 g2).
Proof.
  intros [Ha Hb Hm] Hg. split; [apply grows_bind; [exact Ha|intros a; apply Hg]|apply grows_bind; [exact Hb|intros a; apply Hg]|].
  intros w1 w2 HW. unfold mbind. specialize (Hm w1 w2 HW). destruct (m1 w1) as [x1 r1], (m2 w2) as [x2 r2]. destruct Hm as [[H1 H2]|[H1 H2]]; cbn [fst snd] in *.
  - subst r2. destruct r1 as [a|e|p|]; [apply (Hg a); exact H1|..]; left; split; (exact H1||reflexivity).
  - assert (H3 : D x1 (fst (match r2 with Ok a => g2 a x2 | Err e => (x2, Err e) | Panic p => (x2, Panic p) | Fuel => (x2, Fuel) end))).
    { destruct r2; cbn [fst]; try exact H1. eapply (so_right OK); [exact H1|apply (Hg a)]. }
    destruct (Bool.bool_dec stop true) as [Hs|Hs]; [|apply Bool.not_true_is_false in Hs].
    + right. destruct r1 as [a|e|p|]; [elim (H2 Hs a eq_refl)|..]; (split; [exact H3|intros _ a0 Q; discriminate Q]).
    + right. split; [|congruence]. destruct r1 as [a|e|p|]; cbn [fst]; try exact H3. eapply (so_left OK); [exact Hs|exact H3|apply (Hg a)].
Qed.
Lemma sim_fuel {A} (m : M A) : stop = true -> grows m -> sim (mret Fuel) m.
Proof.
  intros Hs Hm. split; [apply calm_grows, calm_ret|exact Hm|]. intros w1 w2 HW. right. split; [|intros _ a0 Q; discriminate Q]. cbn [fst mret]. eapply (so_stop OK); [exact Hs|exact HW|apply Hm].
Qed.
Lemma sim_search fd retry k1 : forall k2 key ret coll, budgets k1 k2 -> sim (search_loop k1 E1 fd retry key ret coll) (search_loop k2 E2 fd retry key ret coll).
Proof.
  induction k1 as [|k1 IH]; intros k2 key ret coll Hk.
  - destruct (Bool.bool_dec stop true) as [Hs|Hs]; [|apply Bool.not_true_is_false in Hs; unfold budgets in Hk; rewrite Hs in Hk; subst k2; apply (sim_ret Fuel)]. apply sim_fuel; [exact Hs|apply calm_grows, search_loop_calm].
  - destruct k2 as [|k2]; [apply budgets_le in Hk; lia|]. apply budgets_pred in Hk. split; [apply calm_grows, search_loop_calm..|]. intros w1 w2 HW.
    destruct (so_ioctl OK w1 w2 fd key HW) as [[H1 H2]|[Hs HD]].
    + cbn [search_loop]. rewrite H1, (so_oc OK).
      assert (G : forall A (r : res A), psim (log_event w1 (EvIoctl fd key), r) (log_event w2 (EvIoctl fd key), r)) by (intros A r; left; split; [exact H2|reflexivity]).
      destruct (ioctl E2 (tick w2) fd key) as [nr buf|nr buf|]; [| |apply G];
      (destruct (extract (overflow_checks E2) (Z.to_nat nr) buf 0 ret coll) as [[ret' coll']| | |]; try apply G;
       destruct (negb retry || (nr =? 0)%Z); try apply G; destruct (largest ret') as [m|]; try apply G; destruct (try_into_u 8 (h_type m)); try apply G;
       destruct (h_offset m + 1 <? 2 ^ 64)%Z; try apply G; apply IH; [exact Hk|exact H2]).
    + assert (G1 : appended (log_event w1 (EvIoctl fd key)) (fst (search_loop (S k1) E1 fd retry key ret coll w1))).
      { cbn [search_loop]. destruct (ioctl E1 (tick w1) fd key) as [nr buf|nr buf|]; [| |apply appended_refl];
        (destruct (extract (overflow_checks E1) (Z.to_nat nr) buf 0 ret coll) as [[ret' coll']| | |]; try apply appended_refl;
         destruct (negb retry || (nr =? 0)%Z); try apply appended_refl; destruct (largest ret') as [m|]; try apply appended_refl; destruct (try_into_u 8 (h_type m)); try apply appended_refl;
         destruct (h_offset m + 1 <? 2 ^ 64)%Z; try apply appended_refl; apply calm_grows, search_loop_calm). }
      assert (G2 : appended (log_event w2 (EvIoctl fd key)) (fst (search_loop (S k2) E2 fd retry key ret coll w2))).
      { cbn [search_loop]. destruct (ioctl E2 (tick w2) fd key) as [nr buf|nr buf|]; [| |apply appended_refl];
        (destruct (extract (overflow_checks E2) (Z.to_nat nr) buf 0 ret coll) as [[ret' coll']| | |]; try apply appended_refl;
         destruct (negb retry || (nr =? 0)%Z); try apply appended_refl; destruct (largest ret') as [m|]; try apply appended_refl; destruct (try_into_u 8 (h_type m)); try apply appended_refl;
         destruct (h_offset m + 1 <? 2 ^ 64)%Z; try apply appended_refl; apply calm_grows, search_loop_calm). }
      right. split; [|intros S; rewrite Hs in S; discriminate S]. eapply (so_right OK); [|exact G2]. eapply (so_left OK); [exact Hs|exact HD|exact G1].
Qed.
Lemma sim_decode oc cs : sim (decode_chunks oc cs) (decode_chunks oc cs).
Proof.
  induction cs as [|[h b] cs IH]; cbn [decode_chunks]; [apply sim_ret|]. destruct (find _ STRUCTS) as [s|].
  - apply (sim_bind (mret (from_bytes oc s (Some (h_objectid h, h_type h, h_offset h)) b)) _ _ _ (sim_ret _)). intros v. apply sim_bind; [exact IH|intros vs; apply sim_ret].
  - split; [intros w; apply (appended_trans _ (log_event w (EvWarn (h_objectid h) (h_type h) (h_offset h)))); [apply silent_appended, silent_log; discriminate|apply (sm_1 _ _ IH)]..|]. intros w1 w2 HW. apply (sm_p _ _ IH). apply (so_warn OK). exact HW.
Qed.
Lemma sim_eval_search k1 k2 f tree key : budgets k1 k2 -> sim (eval_search k1 E1 f tree key) (eval_search k2 E2 f tree key).
Proof.
  intros Hk. unfold eval_search. rewrite (so_oc OK). apply sim_bind; [apply sim_ret|intros [[n ky] fl]]. apply sim_bind; [apply sim_ret|intros _]. destruct f as [f|]; [|apply sim_ret].
  apply sim_bind; [apply sim_ret|intros sk]. apply sim_bind; [|intros cs; apply sim_bind; [apply sim_decode|intros vs; apply sim_ret]].
  unfold fs_search. destruct f; [apply sim_search; exact Hk|apply sim_ret].
Qed.
Lemma cast_same f t z : eval_cast E1 f t z = eval_cast E2 f t z.
Proof. unfold eval_cast. rewrite (so_oc OK). reflexivity. Qed.
Lemma sim_expr k1 k2 vs f : budgets k1 k2 -> forall e, sim (eval_expr k1 E1 vs f e) (eval_expr k2 E2 vs f e).
Proof.
  intros Hk. fix IH 1. intros e. destruct e as [x|z|b|s|e|e fld|e i|fe args|op l r|op e|t e]; cbn [eval_expr]; rewrite ?(so_oc OK); try apply sim_ret.
  - apply IH.
  - apply sim_bind; [apply IH|intros v]. apply sim_bind; [apply sim_ret|intros [[nm ky] fl]]. destruct fld; apply sim_ret.
  - repeat (first [apply sim_ret|apply sim_bind; [first [apply IH|apply sim_ret]|intros ?]]).
  - apply sim_bind; [apply IH|intros fv]. apply sim_bind; [apply sim_ret|intros fn].
    destruct fn; repeat match goal with |- sim match ?l with [] => _ | _ => _ end _ => destruct l end; try apply sim_ret;
    repeat (first [apply sim_ret|apply sim_eval_search; exact Hk|apply sim_bind; [first [apply IH|apply sim_ret]|intros ?]]).
    destruct a0 as [[nm ky] fl]. destruct ky as [[[? ?] ?]|]; apply sim_ret.
  - destruct op; repeat (first [apply sim_ret|apply sim_bind; [first [apply IH|apply sim_ret]|intros ?]]);
    match goal with |- sim (if ?x then _ else _) _ => destruct x end;
    repeat (first [apply sim_ret|apply sim_bind; [first [apply IH|apply sim_ret]|intros ?]]).
  - apply sim_bind; [apply IH|intros v; apply sim_ret].
  - apply sim_bind; [apply IH|intros v]. apply sim_bind; [apply sim_ret|intros z]. rewrite cast_same. destruct (z <? 0)%Z; apply sim_ret.
Qed.
Lemma sim_lhs k1 k2 vs f e : budgets k1 k2 -> forall g, sim (lhs_assign k1 E1 vs f e g) (lhs_assign k2 E2 vs f e g).
Proof.
  intros Hk. induction e; intros g; cbn [lhs_assign]; try apply sim_ret.
  - destruct e2; try apply sim_ret. apply IHe1.
  - apply sim_bind; [apply sim_expr; exact Hk|intros v]. apply sim_bind; [apply sim_ret|intros z]. apply IHe1.
Qed.
Lemma sim_open p : sim (fs_new E1 p) (fs_new E2 p).
Proof.
  split; [apply calm_grows, fs_new_calm..|]. intros w1 w2 HW. destruct (so_open OK w1 w2 p HW) as [[H1 H2]|[Hs HD]]; unfold fs_new.
  - left. cbn [fst snd]. split; [exact H2|]. rewrite H1. reflexivity.
  - right. cbn [fst snd]. split; [exact HD|intros S; rewrite Hs in S; discriminate S].
Qed.

(** ** Statements *)
Definition esim (s1 s2 : est) : Prop := e_vars s1 = e_vars s2 /\ e_fs s1 = e_fs s2 /\ W (e_w s1) (e_w s2).
Definition goes (r : ires) : Prop := r = IOk \/ r = IBreak \/ r = IContinue.
Definition qsim (p1 p2 : est * ires) : Prop :=
  (esim (fst p1) (fst p2) /\ snd p1 = snd p2) \/ (D (e_w (fst p1)) (e_w (fst p2)) /\ (stop = true -> ~ goes (snd p1))).
Definition egrows (b : est -> est * ires) : Prop := forall s, appended (e_w s) (e_w (fst (b s))).
Record fsim (b1 b2 : est -> est * ires) : Prop := mk_fsim { fs_1 : egrows b1; fs_2 : egrows b2; fs_q : forall s1 s2, esim s1 s2 -> qsim (b1 s1) (b2 s2) }.
Lemma fsim_end r : fsim (fun s => (s, r)) (fun s => (s, r)).
Proof. split; [intros s; apply appended_refl..|]. intros s1 s2 H. left. split; [exact H|reflexivity]. Qed.
Lemma fsim_fuel b : stop = true -> egrows b -> fsim (fun s => (s, IFuel)) b.
Proof.
  intros Hs Hb. split; [intros s; apply appended_refl|exact Hb|]. intros s1 s2 (_ & _ & HW). right. split; [|intros _ [?|[?|?]]; discriminate]. cbn [fst]. eapply (so_stop OK); [exact Hs|exact HW|apply Hb].
Qed.
(** sequencing: the two runs go on in the same way when they are in step *)
Lemma qsim_bind p1 p2 (c1 c2 : est -> ires -> est * ires) :
  (forall r, egrows (fun s => c1 s r)) -> (forall r, egrows (fun s => c2 s r)) ->
  (stop = true -> forall s r, ~ goes r -> e_w (fst (c1 s r)) = e_w s /\ ~ goes (snd (c1 s r))) ->
  (forall s1 s2 r, esim s1 s2 -> qsim (c1 s1 r) (c2 s2 r)) ->
  qsim p1 p2 -> qsim (let '(s, r) := p1 in c1 s r) (let '(s, r) := p2 in c2 s r).
Proof.
  intros G1 G2 Hs Hc H. destruct p1 as [s1 r1], p2 as [s2 r2]. destruct H as [[H1 H2]|[H1 H2]]; cbn [fst snd] in *.
  - subst r2. apply Hc. exact H1.
  - right. destruct (Bool.bool_dec stop true) as [S|S].
    + destruct (Hs S s1 r1 (H2 S)) as [Q1 Q2]. split; [|intros _; exact Q2]. rewrite Q1. eapply (so_right OK); [exact H1|apply (G2 r2)].
    + apply Bool.not_true_is_false in S. split; [|congruence]. eapply (so_right OK); [|apply (G2 r2)]. eapply (so_left OK); [exact S|exact H1|apply (G1 r1)].
Qed.
Lemma with_expr_sim k1 k2 e c1 c2 : budgets k1 k2 -> (forall v, fsim (fun s => c1 s v) (fun s => c2 s v)) ->
  fsim (fun s => with_expr k1 E1 s e c1) (fun s => with_expr k2 E2 s e c2).
Proof.
  intros Hk Hc.
  assert (G : forall k E c, (forall v, egrows (fun s => c s v)) -> egrows (fun s => with_expr k E s e c)).
  { intros k E c Hg s. unfold with_expr. destruct (eval_expr k E (e_vars s) (e_fs s) e (e_w s)) as [w r] eqn:He. apply eval_calm, silent_appended in He.
    destruct r as [v|x|p|]; try exact He. eapply appended_trans; [exact He|]. apply (Hg v (with_w s w)). }
  split; [apply G; intros v; apply (Hc v)|apply G; intros v; apply (Hc v)|]. intros s1 s2 (Hv & Hf & HW). unfold with_expr. rewrite Hv, Hf.
  pose proof (sm_p _ _ (sim_expr k1 k2 (e_vars s2) (e_fs s2) Hk e) _ _ HW) as HS.
  destruct (eval_expr k1 E1 (e_vars s2) (e_fs s2) e (e_w s1)) as [w1 r1], (eval_expr k2 E2 (e_vars s2) (e_fs s2) e (e_w s2)) as [w2 r2]. destruct HS as [[H1 H2]|[H1 H2]]; cbn [fst snd] in *.
  - subst r2. assert (HS : esim (with_w s1 w1) (with_w s2 w2)) by (split; [exact Hv|split; [exact Hf|exact H1]]).
    destruct r1; [apply (Hc a); exact HS|..]; left; (split; [exact HS|reflexivity]).
  - assert (H3 : D w1 (e_w (fst (match r2 with Ok v => c2 (with_w s2 w2) v | _ => (with_w s2 w2, ires_of r2) end)))).
    { destruct r2; try exact H1. eapply (so_right OK); [exact H1|apply (fs_2 _ _ (Hc a) (with_w s2 w2))]. }
    right. destruct (Bool.bool_dec stop true) as [S|S].
    + destruct r1 as [a|x|p|]; [elim (H2 S a eq_refl)|..]; (split; [exact H3|intros _ [?|[?|?]]; discriminate]).
    + apply Bool.not_true_is_false in S. split; [|congruence]. destruct r1 as [a|x|p|]; try exact H3. eapply (so_left OK); [exact S|exact H3|apply (fs_1 _ _ (Hc a) (with_w s1 w1))].
Qed.
Lemma write_sim t : fsim (fun s => do_write E1 s t) (fun s => do_write E2 s t).
Proof.
  split; [intros s; destruct (do_write _ s t) as [s' r] eqn:H; exact (do_write_appended _ _ _ _ _ H)..|].
  intros s1 s2 (Hv & Hf & HW). unfold do_write. destruct (so_write OK (e_w s1) (e_w s2) t HW) as [[H1 H2]|[Hs HD]].
  - left. rewrite H1 in *. destruct (sink E2 (tick (e_w s2)) t); (split; [|reflexivity]); (split; [exact Hv|split; [exact Hf|exact H2]]).
  - right. split; [|intros S; rewrite Hs in S; discriminate S]. destruct (sink E1 (tick (e_w s1)) t), (sink E2 (tick (e_w s2)) t); exact HD.
Qed.
Definition evsim (ev1 ev2 : est -> stmt -> est * ires) : Prop := forall st, fsim (fun s => ev1 s st) (fun s => ev2 s st).
Lemma fsim_then b1 b2 (c1 c2 : ires -> est -> est * ires) : fsim b1 b2 -> (forall r, fsim (c1 r) (c2 r)) ->
  (forall s r, ~ goes r -> e_w (fst (c1 r s)) = e_w s /\ ~ goes (snd (c1 r s))) ->
  fsim (fun s => let '(s', r) := b1 s in c1 r s') (fun s => let '(s', r) := b2 s in c2 r s').
Proof.
  intros [B1 B2 BQ] Hc Hs. split.
  - intros s. specialize (B1 s). destruct (b1 s) as [s' r]. eapply appended_trans; [exact B1|apply (fs_1 _ _ (Hc r))].
  - intros s. specialize (B2 s). destruct (b2 s) as [s' r]. eapply appended_trans; [exact B2|apply (fs_2 _ _ (Hc r))].
  - intros s1 s2 H. apply (qsim_bind _ _ (fun s r => c1 r s) (fun s r => c2 r s)); [intros r; apply (Hc r)..|intros _; exact Hs|intros x1 x2 r; apply (fs_q _ _ (Hc r))|apply BQ; exact H].
Qed.
Lemma fsim_ext b1 b2 b1' b2' : (forall s, b1 s = b1' s) -> (forall s, b2 s = b2' s) -> fsim b1 b2 -> fsim b1' b2'.
Proof.
  intros H1 H2 [B1 B2 BQ]. split; [intros s; rewrite <- H1; apply B1|intros s; rewrite <- H2; apply B2|]. intros s1 s2 H. rewrite <- H1, <- H2. apply BQ. exact H.
Qed.
Lemma run_list_sim ev1 ev2 l : evsim ev1 ev2 -> fsim (fun s => run_list ev1 s l) (fun s => run_list ev2 s l).
Proof.
  intros He. induction l as [|st l IH]; [apply fsim_end|].
  apply (fsim_ext (fun s => let '(s', r) := ev1 s st in match r with IOk => run_list ev1 s' l | _ => (s', r) end) (fun s => let '(s', r) := ev2 s st in match r with IOk => run_list ev2 s' l | _ => (s', r) end));
  [intros s; cbn [run_list]; destruct (ev1 s st) as [s' []]; reflexivity|intros s; cbn [run_list]; destruct (ev2 s st) as [s' []]; reflexivity|].
  apply (fsim_then _ _ (fun r s' => match r with IOk => run_list ev1 s' l | _ => (s', r) end) (fun r s' => match r with IOk => run_list ev2 s' l | _ => (s', r) end) (He st)).
  - intros r. destruct r; first [exact IH|apply fsim_end].
  - intros s r Hr. destruct r; try (split; [reflexivity|exact Hr]). elim Hr. left. reflexivity.
Qed.
Lemma while_sim ev1 ev2 ke1 ke2 c b : evsim ev1 ev2 -> budgets ke1 ke2 -> forall k1 k2, budgets k1 k2 ->
  fsim (while_loop ev1 ke1 E1 k1 c b) (while_loop ev2 ke2 E2 k2 c b).
Proof.
  intros He Hke. induction k1 as [|k1 IH]; intros k2 Hk.
  - destruct (Bool.bool_dec stop true) as [S|S]; [|unfold budgets in Hk; apply Bool.not_true_is_false in S; rewrite S in Hk; subst k2; apply fsim_end].
    apply fsim_fuel; [exact S|]. clear Hk. induction k2 as [|k2 IH]; [intros s; apply appended_refl|].
    intros s. cbn [while_loop]. unfold with_expr. destruct (eval_expr ke2 E2 (e_vars s) (e_fs s) c (e_w s)) as [w q] eqn:Q. apply eval_calm, silent_appended in Q. destruct q as [v|e|p|]; try exact Q.
    destruct (as_boolean v) as [[]|e|p|]; try exact Q. eapply appended_trans; [exact Q|]. pose proof (fs_2 _ _ (run_list_sim ev1 ev2 b He) (with_w s w)) as R.
    destruct (run_list ev2 (with_w s w) b) as [s' r]. destruct r; try exact R; (eapply appended_trans; [exact R|apply IH]).
  - destruct k2 as [|k2]; [apply budgets_le in Hk; lia|]. apply budgets_pred in Hk. cbn [while_loop]. apply with_expr_sim; [exact Hke|]. intros v. destruct (as_boolean v) as [[]|e|p|]; try apply fsim_end.
    set (K := fun ev ke E k r (s' : est) => match r with IOk | IContinue => while_loop ev ke E k c b s' | IBreak => (s', IOk) | r => (s', r) end).
    apply (fsim_ext (fun s => let '(s', r) := run_list ev1 s b in K ev1 ke1 E1 k1 r s') (fun s => let '(s', r) := run_list ev2 s b in K ev2 ke2 E2 k2 r s'));
    [intros s; destruct (run_list ev1 s b) as [s' []]; reflexivity|intros s; destruct (run_list ev2 s b) as [s' []]; reflexivity|].
    apply fsim_then; [apply run_list_sim; exact He|..].
    + intros r. destruct r; cbn [K]; first [apply IH; exact Hk|apply fsim_end].
    + intros s r Hr. destruct r; cbn [K]; try (split; [reflexivity|exact Hr]); elim Hr; unfold goes; auto.
Qed.
Lemma insert_sim x v : fsim (est_insert x v) (est_insert x v).
Proof.
  split; [intros s; unfold est_insert; destruct (vars_insert x v (e_vars s)); apply appended_refl..|].
  intros s1 s2 (Hv & Hf & HW). unfold est_insert. rewrite Hv. destruct (vars_insert x v (e_vars s2)); left; (split; [|reflexivity]); repeat split; assumption.
Qed.
Lemma for_sim ev1 ev2 x b items : evsim ev1 ev2 -> fsim (for_loop ev1 x b items) (for_loop ev2 x b items).
Proof.
  intros He. induction items as [|v items IH]; [apply fsim_end|]. cbn [for_loop].
  set (K := fun ev r (s' : est) => match r with IOk | IContinue => for_loop ev x b items s' | IBreak => (s', IOk) | r => (s', r) end).
  set (L := fun ev r (s' : est) => match r with IOk => let '(s2, r2) := run_list ev s' b in K ev r2 s2 | r => (s', r) end).
  assert (X : forall ev s, (let '(s', r) := est_insert x v s in L ev r s') = for_loop ev x b (v :: items) s).
  { intros ev s. cbn [for_loop]. destruct (est_insert x v s) as [s' []]; reflexivity. }
  apply (fsim_ext _ _ _ _ (X ev1) (X ev2)). apply fsim_then; [apply insert_sim|..].
  - intros r. destruct r; cbn [L]; try apply fsim_end. apply fsim_then; [apply run_list_sim; exact He|..].
    + intros r. destruct r; cbn [K]; first [exact IH|apply fsim_end].
    + intros s r Hr. destruct r; cbn [K]; try (split; [reflexivity|exact Hr]); elim Hr; unfold goes; auto.
  - intros s r Hr. destruct r; cbn [L]; try (split; [reflexivity|exact Hr]). elim Hr; left; reflexivity.
Qed.
Lemma in_scope_sim b1 b2 : fsim b1 b2 -> fsim (fun s => in_scope s b1) (fun s => in_scope s b2).
Proof.
  intros [B1 B2 BQ]. unfold in_scope. split.
  - intros s. specialize (B1 (with_vars s (push_scope (e_vars s)))). destruct (b1 _) as [s' r]. destruct (pop_scope (e_vars s')); exact B1.
  - intros s. specialize (B2 (with_vars s (push_scope (e_vars s)))). destruct (b2 _) as [s' r]. destruct (pop_scope (e_vars s')); exact B2.
  - intros s1 s2 (Hv & Hf & HW). specialize (BQ (with_vars s1 (push_scope (e_vars s1))) (with_vars s2 (push_scope (e_vars s2)))). rewrite Hv in *.
    destruct BQ as [[(H1 & H2 & H3) H4]|[H1 H2]]; [repeat split; assumption|..].
    + destruct (b1 _) as [x1 r1], (b2 _) as [x2 r2]. cbn [fst snd] in *. subst r2. rewrite H1. destruct (pop_scope (e_vars x2)); left; (split; [|reflexivity]); repeat split; assumption.
    + destruct (b1 _) as [x1 r1], (b2 _) as [x2 r2]. cbn [fst snd] in *. right. split; [destruct (pop_scope (e_vars x1)), (pop_scope (e_vars x2)); exact H1|].
      intros S. specialize (H2 S). destruct (pop_scope (e_vars x1)); [exact H2|intros [?|[?|?]]; discriminate].
Qed.
Lemma stmt_sim inter n1 : forall n2, budgets n1 n2 -> evsim (eval_stmt n1 E1 inter) (eval_stmt n2 E2 inter).
Proof.
  assert (G : forall E n st, egrows (fun s => eval_stmt n E inter s st)).
  { intros E n st s. destruct (eval_stmt n E inter s st) as [s' r] eqn:H. exact (eval_stmt_q E inter appended silent_appended appended_trans n s st s' r (fun _ => do_write_appended E) H). }
  induction n1 as [|n1 IH]; intros n2 Hn st.
  - destruct (Bool.bool_dec stop true) as [S|S]; [|unfold budgets in Hn; apply Bool.not_true_is_false in S; rewrite S in Hn; subst n2; apply fsim_end]. cbn [eval_stmt]. apply fsim_fuel; [exact S|apply G].
  - destruct n2 as [|n2]; [apply budgets_le in Hn; lia|]. apply budgets_pred in Hn. specialize (IH n2 Hn).
    destruct st as [lhs rhs|c tb fb|c b|i rg b| | | | |e|e|e]; cbn [eval_stmt].
    + apply with_expr_sim; [exact Hn|]. intros v.
      assert (X : fsim (fun u => let '(w, r) := lhs_assign n1 E1 (e_vars u) (e_fs u) lhs (fun _ => Ok v) (e_w u) in match r with Ok vs => (mk_est vs (e_fs u) w, IOk) | _ => (with_w u w, ires_of r) end)
                       (fun u => let '(w, r) := lhs_assign n2 E2 (e_vars u) (e_fs u) lhs (fun _ => Ok v) (e_w u) in match r with Ok vs => (mk_est vs (e_fs u) w, IOk) | _ => (with_w u w, ires_of r) end)).
      { split; [intros u; destruct (lhs_assign _ _ (e_vars u) (e_fs u) lhs _ (e_w u)) as [w r] eqn:Hl; apply lhs_calm, silent_appended in Hl; destruct r; exact Hl..|].
        intros s1 s2 (Hv & Hf & HW). rewrite Hv, Hf. pose proof (sm_p _ _ (sim_lhs n1 n2 (e_vars s2) (e_fs s2) lhs Hn (fun _ => Ok v)) _ _ HW) as HS.
        destruct (lhs_assign n1 E1 (e_vars s2) (e_fs s2) lhs (fun _ => Ok v) (e_w s1)) as [w1 r1], (lhs_assign n2 E2 (e_vars s2) (e_fs s2) lhs (fun _ => Ok v) (e_w s2)) as [w2 r2].
        destruct HS as [[H1 H2]|[H1 H2]]; cbn [fst snd] in *.
        - subst r2. left. destruct r1; (split; [|reflexivity]); repeat split; assumption.
        - right. split; [destruct r1, r2; exact H1|]. intros S. specialize (H2 S). destruct r1; [elim (H2 a eq_refl)|..]; intros [?|[?|?]]; discriminate. }
      destruct lhs; try exact X. apply insert_sim.
    + apply in_scope_sim. apply with_expr_sim; [exact Hn|]. intros v. destruct (as_boolean v) as [bb|e|p|]; try apply fsim_end. apply run_list_sim. exact IH.
    + apply in_scope_sim. apply while_sim; assumption.
    + apply in_scope_sim. destruct i; try apply fsim_end. apply with_expr_sim; [exact Hn|]. intros v. destruct (as_vec v) as [bb|e|p|]; try apply fsim_end. apply for_sim. exact IH.
    + apply fsim_end.
    + apply fsim_end.
    + apply write_sim.
    + apply fsim_end.
    + apply with_expr_sim; [exact Hn|]. intros v. destruct (as_string true v) as [p|e0|p|]; try apply fsim_end.
      split; [intros u; destruct (fs_new _ p (e_w u)) as [w r] eqn:Hl; apply fs_new_calm, silent_appended in Hl; destruct r; exact Hl..|].
      intros s1 s2 (Hv & Hf & HW). pose proof (sm_p _ _ (sim_open p) _ _ HW) as HS. destruct (fs_new E1 p (e_w s1)) as [w1 r1], (fs_new E2 p (e_w s2)) as [w2 r2].
      destruct HS as [[H1 H2]|[H1 H2]]; cbn [fst snd] in *.
      * subst r2. left. destruct r1; (split; [|reflexivity]); repeat split; assumption.
      * right. split; [destruct r1, r2; exact H1|]. intros S. specialize (H2 S). destruct r1; [elim (H2 a eq_refl)|..]; intros [?|[?|?]]; discriminate.
    + apply with_expr_sim; [exact Hn|]. intros v. rewrite (so_oc OK). pose proof (print_text_mono n1 n2 (overflow_checks E2) v (budgets_le _ _ Hn)) as HP. unfold rmono in HP.
      destruct (Bool.bool_dec stop true) as [S|S].
      * destruct (print_text n1 (overflow_checks E2) v) as [t|x|p|] eqn:HT; try (rewrite HP by discriminate; first [apply write_sim|apply fsim_end]).
        cbn [ires_of]. apply fsim_fuel; [exact S|]. destruct (print_text n2 (overflow_checks E2) v); try (intros s; apply appended_refl). apply write_sim.
      * apply Bool.not_true_is_false in S. assert (n1 = n2) as -> by (unfold budgets in Hn; rewrite S in Hn; exact Hn). destruct (print_text n2 (overflow_checks E2) v); first [apply write_sim|apply fsim_end].
    + apply with_expr_sim; [exact Hn|]. intros v. destruct inter; [apply write_sim|apply fsim_end].
Qed.

(** ** Commands *)
Definition rsim (r1 r2 : rt) : Prop := r_sem r1 = r_sem r2 /\ esim (r_eval r1) (r_eval r2).
Definition rgoes (q : eres) : Prop := q = ROk \/ exists e, q = RErr e.
Lemma rt_eval_sim inter n1 n2 r1 r2 cmd : budgets n1 n2 -> rsim r1 r2 ->
  let p1 := rt_eval n1 E1 inter r1 cmd in let p2 := rt_eval n2 E2 inter r2 cmd in
  (rsim (fst p1) (fst p2) /\ snd p1 = snd p2) \/ D (e_w (r_eval (fst p1))) (e_w (r_eval (fst p2))).
Proof.
  intros Hn (Hr & HS). unfold rt_eval. destruct (parse cmd) as [l|e|p|]; try (left; split; [split; assumption|reflexivity]).
  rewrite Hr. destruct (analyze (r_sem r2) l) as [sem' [[]|e|p|]]; try (left; split; [split; [reflexivity|assumption]|reflexivity]).
  unfold eval_prog. pose proof (fs_q _ _ (run_list_sim _ _ l (stmt_sim inter n1 n2 Hn)) _ _ HS) as HQ.
  destruct (run_list (eval_stmt n1 E1 inter) (r_eval r1) l) as [s1 q1], (run_list (eval_stmt n2 E2 inter) (r_eval r2) l) as [s2 q2]. cbv zeta. cbn [fst snd r_eval] in *.
  destruct HQ as [[H1 H2]|[H1 H2]]; cbn [fst snd] in *.
  - left. subst q2. split; [split; [reflexivity|exact H1]|reflexivity].
  - right. exact H1.
Qed.
End Sim.
