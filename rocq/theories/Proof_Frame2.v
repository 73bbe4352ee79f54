(** Proofs for C73: what a command depends on. *)
From Verif Require Import Base Ast Pom Parse Structs Definitions Value Variables Semantics Fs Eval Runtime Lib Spec_Vars Spec_Run Spec_Session Spec_Safe Spec_Frame
  Proof_Vars Proof_Run Proof_Session Proof_Frame.
Require Import Lia.
Arguments s_ s%string_scope.

Section Vars.
Context (X : list str).
(** agreement, scope by scope *)
Definition magree {A} (m1 m2 : scope A) : Prop := forall x, In x X -> assoc x m1 = assoc x m2.
Definition vagree {A} : vars A -> vars A -> Prop := Forall2 magree.
Lemma agree_iff {A} (v1 v2 : vars A) : agree X v1 v2 <-> vagree v1 v2.
Proof.
  revert v2. induction v1 as [|m1 v1 IH]; intros [|m2 v2]; split; intros H.
  - constructor.
  - split; [reflexivity|]. intros; reflexivity.
  - destruct H as [H _]. discriminate.
  - inversion H.
  - destruct H as [H _]. discriminate.
  - inversion H.
  - destruct H as [Hl Hb]. constructor; [intros x Hx; exact (Hb x Hx 0)|]. apply IH. split; [cbn in Hl; lia|]. intros x Hx j. exact (Hb x Hx (S j)).
  - inversion_clear H as [|? ? ? ? Hm Hv]. apply IH in Hv. destruct Hv as [Hl Hb]. split; [cbn; lia|]. intros x Hx [|j]; [exact (Hm x Hx)|exact (Hb x Hx j)].
Qed.
Lemma vagree_get {A} (v1 v2 : vars A) x : vagree v1 v2 -> In x X -> vars_get x v1 = vars_get x v2.
Proof. induction 1 as [|m1 m2 v1 v2 Hm _ IH]; intros Hx; cbn [vars_get]; [reflexivity|]. rewrite (Hm x Hx). destruct (assoc x m2); [reflexivity|exact (IH Hx)]. Qed.
Lemma magree_insert {A} (m1 m2 : scope A) x a : magree m1 m2 -> magree (scope_insert x a m1) (scope_insert x a m2).
Proof.
  intros Hm y Hy. destruct (list_eq_dec N.eq_dec y x) as [->|Hn]; [rewrite !assoc_insert_eq; reflexivity|]. rewrite !assoc_insert_neq by exact Hn. exact (Hm y Hy).
Qed.
Definition orel {A} (R : A -> A -> Prop) (a b : option A) : Prop :=
  match a, b with Some a, Some b => R a b | None, None => True | _, _ => False end.
Lemma vagree_replace {A} (v1 v2 : vars A) x a : vagree v1 v2 -> In x X -> orel vagree (vars_replace x a v1) (vars_replace x a v2).
Proof.
  induction 1 as [|m1 m2 v1 v2 Hm Hv IH]; intros Hx; cbn [vars_replace orel]; [exact I|]. rewrite (Hm x Hx). destruct (assoc x m2).
  - constructor; [apply magree_insert; exact Hm|exact Hv].
  - specialize (IH Hx). destruct (vars_replace x a v1), (vars_replace x a v2); cbn [orel] in *; try tauto. constructor; assumption.
Qed.
Lemma vagree_insert {A} (v1 v2 : vars A) x a : vagree v1 v2 -> In x X -> orel vagree (vars_insert x a v1) (vars_insert x a v2).
Proof.
  intros H Hx. unfold vars_insert. pose proof (vagree_replace v1 v2 x a H Hx) as P. destruct (vars_replace x a v1), (vars_replace x a v2); cbn [orel] in *; try tauto.
  destruct H as [|m1 m2 v1 v2 Hm Hv]; [exact I|]. constructor; [apply magree_insert; exact Hm|exact Hv].
Qed.
Lemma vagree_push {A} (v1 v2 : vars A) : vagree v1 v2 -> vagree (push_scope v1) (push_scope v2).
Proof. intros H. constructor; [intros y _; reflexivity|exact H]. Qed.
Lemma vagree_pop {A} (v1 v2 : vars A) : vagree v1 v2 -> orel vagree (pop_scope v1) (pop_scope v2).
Proof. intros [|m1 m2 v1' v2' _ H]; [exact I|exact H]. Qed.

(** ** The analyser *)
Lemma analyze_expr_agree v1 v2 e : vagree v1 v2 -> incl (reads e) X -> analyze_expr v1 e = analyze_expr v2 e.
Proof.
  intros Hv. induction e as [y| | | |e IH|e f IHe IHf|e i IHe IHi|f args IHf IHa|op l r IHl IHr|op e IH|t e IHt IHe] using expr_ind'; cbn [analyze_expr reads]; intros Hi; try reflexivity.
  - rewrite (vagree_get v1 v2 y Hv); [reflexivity|]. apply Hi. left. reflexivity.
  - apply IH. exact Hi.
  - destruct f; try reflexivity. apply IHe. exact Hi.
  - rewrite IHe, IHi; [reflexivity|..]; intros y Hy; apply Hi; apply in_or_app; tauto.
  - rewrite IHf by (intros y Hy; apply Hi; apply in_or_app; tauto). destruct (analyze_expr v2 f); cbn; try reflexivity.
    assert (Ha : incl (flat_map reads args) X) by (intros y Hy; apply Hi; apply in_or_app; tauto). clear -IHa Ha. induction IHa as [|a0 l Ha0 Hl IH]; [reflexivity|].
    rewrite Ha0 by (intros y Hy; apply Ha; cbn; apply in_or_app; tauto). destruct (analyze_expr v2 a0); cbn; try reflexivity. apply IH. intros y Hy; apply Ha; cbn; apply in_or_app; tauto.
  - rewrite IHl, IHr; [reflexivity|..]; intros y Hy; apply Hi; apply in_or_app; tauto.
  - apply IH. exact Hi.
  - destruct t; try reflexivity. rewrite IHe by exact Hi. reflexivity.
Qed.
Definition sagree (s1 s2 : sem) : Prop := vagree (s_vars s1) (s_vars s2) /\ s_depth s1 = s_depth s2.
Definition spagree (p1 p2 : sem * res unit) : Prop := sagree (fst p1) (fst p2) /\ snd p1 = snd p2.
Lemma sbind_agree p1 p2 k1 k2 : spagree p1 p2 -> (forall s1 s2, sagree s1 s2 -> spagree (k1 s1) (k2 s2)) -> spagree (sbind p1 k1) (sbind p2 k2).
Proof. intros [H1 H2] Hk. unfold sbind. rewrite H2. destruct (snd p2) eqn:Hs; [apply Hk; exact H1|..]; (split; [exact H1|congruence]). Qed.
Lemma pure_agree s1 s2 e : sagree s1 s2 -> incl (reads e) X -> spagree (s1, analyze_expr (s_vars s1) e) (s2, analyze_expr (s_vars s2) e).
Proof. intros H Hi. split; [exact H|]. apply analyze_expr_agree; [apply H|exact Hi]. Qed.
Lemma sem_insert_agree x s1 s2 : sagree s1 s2 -> In x X -> spagree (sem_insert x s1) (sem_insert x s2).
Proof.
  intros [Hv Hd] Hx. unfold sem_insert. pose proof (vagree_insert (s_vars s1) (s_vars s2) x tt Hv Hx) as P.
  destruct (vars_insert x tt (s_vars s1)), (vars_insert x tt (s_vars s2)); cbn [orel] in P; try tauto; (split; [|reflexivity]); split; assumption.
Qed.
Lemma sem_pop_agree d p1 p2 : spagree p1 p2 -> spagree (sem_pop d p1) (sem_pop d p2).
Proof.
  destruct p1 as [s1 r1], p2 as [s2 r2]. intros [[Hv Hd] Hr]. cbn [fst snd] in *. subst r2. unfold sem_pop. pose proof (vagree_pop _ _ Hv) as P.
  destruct (pop_scope (s_vars s1)), (pop_scope (s_vars s2)); cbn [orel] in P; try tauto; (split; [|reflexivity]); split; cbn; congruence || assumption.
Qed.
Lemma list_agree l : Forall (fun st => forall s1 s2, sagree s1 s2 -> spagree (analyze_stmt s1 st) (analyze_stmt s2 st)) l ->
  forall s1 s2, sagree s1 s2 -> spagree (analyze_stmts s1 l) (analyze_stmts s2 l).
Proof.
  unfold analyze_stmts. induction 1 as [|st l Hst _ IH]; intros s1 s2 H; cbn [analyze_list]; [split; [exact H|reflexivity]|]. apply sbind_agree; [apply Hst; exact H|exact IH].
Qed.
Lemma flat_incl {A} (f : A -> list str) l a : incl (flat_map f l) X -> In a l -> incl (f a) X.
Proof. intros H Ha y Hy. apply H. apply in_flat_map. eauto. Qed.
Lemma mentions_list l : incl (flat_map reads (flat_map exprs l)) X -> forall st, In st l -> incl (mentions st) X.
Proof. intros H st Hin y Hy. apply H. unfold mentions in Hy. apply in_flat_map in Hy. destruct Hy as (e & He & Hy). apply in_flat_map. exists e. split; [apply in_flat_map; eauto|exact Hy]. Qed.
Lemma incl_l {A} (a b c : list A) : incl (a ++ b) c -> incl a c. Proof. intros H y Hy. apply H. apply in_or_app. tauto. Qed.
Lemma incl_r {A} (a b c : list A) : incl (a ++ b) c -> incl b c. Proof. intros H y Hy. apply H. apply in_or_app. tauto. Qed.
Lemma analyze_stmt_agree st : incl (mentions st) X -> forall s1 s2, sagree s1 s2 -> spagree (analyze_stmt s1 st) (analyze_stmt s2 st).
Proof.
  unfold mentions. induction st as [lhs e|c tb fb IHt IHf|c b IH|i rg b IH| | | | |e|e|e] using stmt_ind'; cbn [exprs flat_map]; intros Hi s1 s2 H; rewrite !analyze_stmt_eq.
  - rewrite app_nil_r in Hi. apply sbind_agree.
    + pose proof (pure_agree s1 s2 lhs H (incl_l _ _ _ Hi)) as P. destruct lhs; try exact P. apply sem_insert_agree; [exact H|]. apply Hi. left. reflexivity.
    + intros u1 u2 Hu. apply pure_agree; [exact Hu|exact (incl_r _ _ _ Hi)].
  - rewrite flat_map_app in Hi. pose proof (incl_l _ _ _ Hi) as Hc. pose proof (incl_l _ _ _ (incl_r _ _ _ Hi)) as Ht. pose proof (incl_r _ _ _ (incl_r _ _ _ Hi)) as Hf.
    apply sem_pop_agree. destruct H as [Hv Hd]. apply sbind_agree; [apply pure_agree; [split; [apply vagree_push; exact Hv|exact Hd]|exact Hc]|]. intros u1 u2 Hu.
    apply sbind_agree; [apply list_agree; [|exact Hu]|intros t1 t2 Hq; apply list_agree; [|exact Hq]]; rewrite Forall_forall in *; intros st Hst; [exact (IHt st Hst (mentions_list _ Ht st Hst))|exact (IHf st Hst (mentions_list _ Hf st Hst))].
  - pose proof (incl_l _ _ _ Hi) as Hc. pose proof (incl_r _ _ _ Hi) as Hb. apply sem_pop_agree. destruct H as [Hv Hd].
    apply sbind_agree; [apply pure_agree; [split; [apply vagree_push; exact Hv|cbn; congruence]|exact Hc]|]. intros u1 u2 Hu. apply list_agree; [|exact Hu]. rewrite Forall_forall in *. intros st Hst. apply IH; [exact Hst|]. apply (mentions_list _ Hb); assumption.
  - pose proof (incl_l _ _ _ Hi) as Hc. pose proof (incl_l _ _ _ (incl_r _ _ _ Hi)) as Hr. pose proof (incl_r _ _ _ (incl_r _ _ _ Hi)) as Hb. apply sem_pop_agree. destruct H as [Hv Hd].
    assert (H1 : sagree (mk_sem (push_scope (s_vars s1)) (s_depth s1 + 1)) (mk_sem (push_scope (s_vars s2)) (s_depth s2 + 1))) by (split; [apply vagree_push; exact Hv|cbn; congruence]).
    destruct i; try (split; [exact H1|reflexivity]). apply sbind_agree; [apply sem_insert_agree; [exact H1|apply Hc; left; reflexivity]|]. intros u1 u2 Hu.
    apply sbind_agree; [apply pure_agree; assumption|]. intros t1 t2 Hq. apply list_agree; [|exact Hq]. rewrite Forall_forall in *. intros st Hst. apply IH; [exact Hst|]. apply (mentions_list _ Hb); assumption.
  - split; [exact H|]. destruct H as [_ Hd]. cbn [snd]. rewrite Hd. reflexivity.
  - split; [exact H|]. destruct H as [_ Hd]. cbn [snd]. rewrite Hd. reflexivity.
  - split; [exact H|reflexivity].
  - split; [exact H|reflexivity].
  - split; [exact H|reflexivity].
  - apply pure_agree; [exact H|]. rewrite app_nil_r in Hi. exact Hi.
  - apply pure_agree; [exact H|]. rewrite app_nil_r in Hi. exact Hi.
Qed.

(** ** Expressions *)
Section Run.
Context (E1 E2 : env) (b1 b2 : world) (HE : same_future E1 (tick b1) E2 (tick b2)).
Definition wsim (w1 w2 : world) : Prop := same_since b1 b2 w1 w2.
Lemma wsim_event ev w1 w2 : wsim w1 w2 -> wsim (log_event w1 ev) (log_event w2 ev).
Proof. intros (evs & out & -> & ->). exists (evs ++ [ev]), out. unfold log_event. cbn [w_log w_out]. rewrite !app_assoc. auto. Qed.
Lemma wsim_tick w1 w2 : wsim w1 w2 -> exists n, tick w1 = tick b1 + n /\ tick w2 = tick b2 + n.
Proof. intros (evs & out & -> & ->). exists (length evs). unfold tick. cbn [w_log]. rewrite !app_length. auto. Qed.
Lemma wsim_ioctl w1 w2 fd k : wsim w1 w2 -> ioctl E1 (tick w1) fd k = ioctl E2 (tick w2) fd k.
Proof. intros H. destruct (wsim_tick _ _ H) as (n & -> & ->). apply (sf_ioctl _ _ _ _ HE). Qed.
Lemma wsim_open w1 w2 p : wsim w1 w2 -> open_path E1 (tick w1) p = open_path E2 (tick w2) p.
Proof. intros H. destruct (wsim_tick _ _ H) as (n & -> & ->). apply (sf_open _ _ _ _ HE). Qed.
Lemma wsim_sink w1 w2 t : wsim w1 w2 -> sink E1 (tick w1) t = sink E2 (tick w2) t.
Proof. intros H. destruct (wsim_tick _ _ H) as (n & -> & ->). apply (sf_sink _ _ _ _ HE). Qed.
Lemma wsim_write w1 w2 ev t : wsim w1 w2 -> wsim (mk_world (w_log w1 ++ [ev]) (w_out w1 ++ t)) (mk_world (w_log w2 ++ [ev]) (w_out w2 ++ t)).
Proof. intros (evs & out & -> & ->). exists (evs ++ [ev]), (out ++ t). cbn [w_log w_out]. rewrite !app_assoc. auto. Qed.

Definition rrel {A} (R : A -> A -> Prop) (a b : res A) : Prop :=
  match a, b with Ok a, Ok b => R a b | Err a, Err b => a = b | Panic a, Panic b => a = b | Fuel, Fuel => True | _, _ => False end.
Definition msim {A} (R : A -> A -> Prop) (m1 m2 : M A) : Prop :=
  forall w1 w2, wsim w1 w2 -> rrel R (snd (m1 w1)) (snd (m2 w2)) /\ wsim (fst (m1 w1)) (fst (m2 w2)).
Lemma rrel_eq {A} (r : res A) : rrel eq r r. Proof. destruct r; cbn; auto. Qed.
Lemma msim_ret {A} (r : res A) : msim eq (mret r) (mret r).
Proof. intros w1 w2 H. split; [apply rrel_eq|exact H]. Qed.
Lemma msim_bind {A B} R (m1 m2 : M A) (g1 g2 : A -> M B) : msim eq m1 m2 -> (forall a, msim R (g1 a) (g2 a)) -> msim R (mbind m1 g1) (mbind m2 g2).
Proof.
  intros Hm Hg w1 w2 H. unfold mbind. destruct (Hm w1 w2 H) as [H1 H2]. destruct (m1 w1) as [u1 r1], (m2 w2) as [u2 r2]. cbn [fst snd] in *.
  destruct r1, r2; cbn [rrel] in H1; try tauto; subst; [exact (Hg _ _ _ H2)|..]; (split; [cbn; auto|exact H2]).
Qed.
Lemma msim_event {A} R ev (m1 m2 : M A) : msim R m1 m2 -> msim R (fun w => m1 (log_event w ev)) (fun w => m2 (log_event w ev)).
Proof. intros Hm w1 w2 H. apply Hm. apply wsim_event. exact H. Qed.
Lemma msim_search fd retry K : forall key ret coll, msim eq (search_loop K E1 fd retry key ret coll) (search_loop K E2 fd retry key ret coll).
Proof.
  induction K as [|K IH]; intros key ret coll w1 w2 H; cbn [search_loop]; [split; [exact I|exact H]|].
  rewrite (wsim_ioctl _ _ fd key H), (sf_checks _ _ _ _ HE). pose proof (wsim_event (EvIoctl fd key) _ _ H) as H2.
  destruct (ioctl E2 (tick w2) fd key) as [nr buf|nr buf|]; [| |split; [apply rrel_eq|exact H2]];
  (destruct (extract (overflow_checks E2) (Z.to_nat nr) buf 0 ret coll) as [[ret' coll']| | |]; [|split; [apply rrel_eq|exact H2]..];
   destruct (negb retry || (nr =? 0)%Z); [split; [apply rrel_eq|exact H2]|]; destruct (largest ret') as [m|]; [|split; [apply rrel_eq|exact H2]];
   destruct (try_into_u 8 (h_type m)); [|split; [apply rrel_eq|exact H2]..]; destruct (h_offset m + 1 <? 2 ^ 64)%Z; [|split; [apply rrel_eq|exact H2]]; exact (IH _ _ _ _ _ H2)).
Qed.
Lemma msim_decode oc cs : msim eq (decode_chunks oc cs) (decode_chunks oc cs).
Proof.
  induction cs as [|[h b] cs IH]; cbn [decode_chunks]; [apply msim_ret|]. destruct (find _ STRUCTS) as [s|].
  - apply (msim_bind eq (mret (from_bytes oc s (Some (h_objectid h, h_type h, h_offset h)) b))); [apply msim_ret|intros v]. apply msim_bind; [exact IH|intros vs; apply msim_ret].
  - apply (msim_event eq (EvWarn (h_objectid h) (h_type h) (h_offset h)) (decode_chunks oc cs)). exact IH.
Qed.
Lemma msim_eval_search K f tree key : msim eq (eval_search K E1 f tree key) (eval_search K E2 f tree key).
Proof.
  unfold eval_search. rewrite (sf_checks _ _ _ _ HE). apply msim_bind; [apply msim_ret|intros [[n ky] fl]]. apply msim_bind; [apply msim_ret|intros _]. destruct f as [f|]; [|apply msim_ret].
  apply msim_bind; [apply msim_ret|intros sk]. apply msim_bind; [|intros cs; apply msim_bind; [apply msim_decode|intros vs; apply msim_ret]].
  unfold fs_search. destruct f; [apply msim_search|apply msim_ret].
Qed.
Lemma cast_same f t z : eval_cast E1 f t z = eval_cast E2 f t z.
Proof. unfold eval_cast. rewrite (sf_checks _ _ _ _ HE). reflexivity. Qed.
Lemma msim_expr K vs1 vs2 f e : vagree vs1 vs2 -> incl (reads e) X -> msim eq (eval_expr K E1 vs1 f e) (eval_expr K E2 vs2 f e).
Proof.
  intros Hv. pose proof (sf_checks _ _ _ _ HE) as Hoc.
  induction e as [y| | | |e IH|e fld IHe IHf|e i IHe IHi|f0 args IHf IHa|op l r IHl IHr|op e IH|t e IHt IHe] using expr_ind'; cbn [eval_expr reads]; intros Hi; try apply msim_ret.
  - rewrite (vagree_get vs1 vs2 y Hv) by (apply Hi; left; reflexivity). apply msim_ret.
  - apply IH. exact Hi.
  - apply msim_bind; [apply IHe; exact Hi|intros v]. apply msim_bind; [apply msim_ret|intros [[nm ky] fl]]. destruct fld; apply msim_ret.
  - pose proof (IHe (incl_l _ _ _ Hi)) as P1. pose proof (IHi (incl_r _ _ _ Hi)) as P2.
    repeat (first [apply msim_ret|apply msim_bind; [first [exact P1|exact P2|apply msim_ret]|intros ?]]).
  - apply msim_bind; [apply IHf; exact (incl_l _ _ _ Hi)|intros fv]. apply msim_bind; [apply msim_ret|intros fn].
    assert (Ha : Forall (fun a => msim eq (eval_expr K E1 vs1 f a) (eval_expr K E2 vs2 f a)) args).
    { rewrite Forall_forall in *. intros a Hin. apply IHa; [exact Hin|]. exact (flat_incl reads args a (incl_r _ _ _ Hi) Hin). }
    clear IHa Hi IHf. rewrite Hoc.
    destruct fn; repeat match goal with |- msim _ match ?l with [] => _ | _ => _ end _ => destruct l end; try apply msim_ret;
    repeat match goal with H : Forall _ (_ :: _) |- _ => inversion_clear H end;
    repeat (first [apply msim_ret|apply msim_eval_search|apply msim_bind; [first [assumption|apply msim_ret]|intros ?]]).
    match goal with a : (_ * _ * _)%type |- _ => destruct a as [[nm ky] fl] end. destruct ky as [[[? ?] ?]|]; apply msim_ret.
  - pose proof (IHl (incl_l _ _ _ Hi)) as P1. pose proof (IHr (incl_r _ _ _ Hi)) as P2.
    destruct op; repeat (first [apply msim_ret|apply msim_bind; [first [exact P1|exact P2|apply msim_ret]|intros ?]]);
    match goal with |- context [if ?x then _ else _] => destruct x end;
    repeat (first [apply msim_ret|apply msim_bind; [first [exact P1|exact P2|apply msim_ret]|intros ?]]).
  - rewrite Hoc. apply msim_bind; [apply IH; exact Hi|intros v; apply msim_ret].
  - apply msim_bind; [apply IHe; exact Hi|intros v]. apply msim_bind; [apply msim_ret|intros z]. rewrite cast_same. destruct (z <? 0)%Z; apply msim_ret.
Qed.
Lemma msim_lhs K vs1 vs2 f e : vagree vs1 vs2 -> incl (reads e) X -> forall g, msim vagree (lhs_assign K E1 vs1 f e g) (lhs_assign K E2 vs2 f e g).
Proof.
  intros Hv. assert (N : forall (r : error), msim (@vagree value) (mret (Err r)) (mret (Err r))) by (intros r w1 w2 H; split; [reflexivity|exact H]).
  induction e as [y| | | |e IH|e IHe fld IHf|e IHe i IHi| | | | ]; cbn [reads lhs_assign]; intros Hi g; try apply N.
  - assert (Hy : In y X) by (apply Hi; left; reflexivity). rewrite (vagree_get vs1 vs2 y Hv Hy). intros w1 w2 H. split; [|exact H]. cbn [mret snd].
    destruct (vars_get y vs2) as [v|]; [|reflexivity]. cbn [ok_or bind]. destruct (g v) as [v'| | |]; [|reflexivity|reflexivity|exact I]. cbn [bind].
    pose proof (vagree_replace vs1 vs2 y v' Hv Hy) as P. destruct (vars_replace y v' vs1), (vars_replace y v' vs2); cbn [orel] in P; try tauto; exact P || reflexivity.
  - destruct fld; try apply N. apply IHe. exact Hi.
  - apply msim_bind; [apply msim_expr; [exact Hv|exact (incl_r _ _ _ Hi)]|intros v]. apply msim_bind; [apply msim_ret|intros z]. apply IHe. exact (incl_l _ _ _ Hi).
Qed.
Lemma msim_open p : msim eq (fs_new E1 p) (fs_new E2 p).
Proof. intros w1 w2 H. unfold fs_new. cbn [fst snd]. rewrite (wsim_open _ _ p H). split; [apply rrel_eq|]. apply wsim_event. exact H. Qed.

(** ** Statements *)
Definition esim (s1 s2 : est) : Prop := vagree (e_vars s1) (e_vars s2) /\ e_fs s1 = e_fs s2 /\ wsim (e_w s1) (e_w s2).
Definition psim (p1 p2 : est * ires) : Prop := snd p1 = snd p2 /\ esim (fst p1) (fst p2).
Definition evsim (ev1 ev2 : est -> stmt -> est * ires) (st : stmt) : Prop := forall s1 s2, esim s1 s2 -> psim (ev1 s1 st) (ev2 s2 st).
Lemma psim_same s1 s2 r : esim s1 s2 -> psim (s1, r) (s2, r). Proof. intros H. split; [reflexivity|exact H]. Qed.
Lemma with_expr_sim k s1 s2 e c1 c2 : esim s1 s2 -> incl (reads e) X -> (forall u1 u2 v, esim u1 u2 -> psim (c1 u1 v) (c2 u2 v)) -> psim (with_expr k E1 s1 e c1) (with_expr k E2 s2 e c2).
Proof.
  intros (Hv & Hf & Hw) Hi Hc. unfold with_expr. rewrite Hf. destruct (msim_expr k _ _ (e_fs s2) e Hv Hi _ _ Hw) as [H1 H2].
  destruct (eval_expr k E1 (e_vars s1) (e_fs s2) e (e_w s1)) as [w1 r1], (eval_expr k E2 (e_vars s2) (e_fs s2) e (e_w s2)) as [w2 r2]. cbn [fst snd] in *.
  assert (HS : esim (with_w s1 w1) (with_w s2 w2)) by (repeat split; assumption).
  destruct r1, r2; cbn [rrel] in H1; try tauto; subst; [apply Hc; exact HS|..]; (split; [reflexivity|exact HS]).
Qed.
Lemma write_sim s1 s2 t : esim s1 s2 -> psim (do_write E1 s1 t) (do_write E2 s2 t).
Proof.
  intros (Hv & Hf & Hw). unfold do_write. rewrite (wsim_sink _ _ t Hw). destruct (sink E2 (tick (e_w s2)) t); (split; [reflexivity|]); (split; [exact Hv|]); (split; [exact Hf|]); apply wsim_write; exact Hw.
Qed.
Lemma run_list_sim ev1 ev2 l : Forall (evsim ev1 ev2) l -> forall s1 s2, esim s1 s2 -> psim (run_list ev1 s1 l) (run_list ev2 s2 l).
Proof.
  induction 1 as [|st l He _ IH]; intros s1 s2 H; [apply psim_same; exact H|]. cbn [run_list]. fold (run_list ev1) (run_list ev2). destruct (He s1 s2 H) as [H1 H2].
  destruct (ev1 s1 st) as [u1 r1], (ev2 s2 st) as [u2 r2]. cbn [fst snd] in *. subst r2. destruct r1; [apply IH; exact H2|..]; (split; [reflexivity|exact H2]).
Qed.
Lemma while_sim ev1 ev2 ke k c b : Forall (evsim ev1 ev2) b -> incl (reads c) X -> forall s1 s2, esim s1 s2 -> psim (while_loop ev1 ke E1 k c b s1) (while_loop ev2 ke E2 k c b s2).
Proof.
  intros He Hc. induction k as [|k IH]; intros s1 s2 H; cbn [while_loop]; [apply psim_same; exact H|]. apply with_expr_sim; [exact H|exact Hc|]. intros u1 u2 v Hu.
  destruct (as_boolean v) as [[]|x|p|]; try (apply psim_same; exact Hu). destruct (run_list_sim ev1 ev2 b He u1 u2 Hu) as [H1 H2].
  destruct (run_list ev1 u1 b) as [t1 r1], (run_list ev2 u2 b) as [t2 r2]. cbn [fst snd] in *. subst r2. destruct r1; try (apply IH; exact H2); (split; [reflexivity|exact H2]).
Qed.
Lemma insert_sim x v s1 s2 : In x X -> esim s1 s2 -> psim (est_insert x v s1) (est_insert x v s2).
Proof.
  intros Hx (Hv & Hf & Hw). unfold est_insert. pose proof (vagree_insert _ _ x v Hv Hx) as P. destruct (vars_insert x v (e_vars s1)), (vars_insert x v (e_vars s2)); cbn [orel] in P; try tauto;
  (split; [reflexivity|]); repeat split; assumption.
Qed.
Lemma for_sim ev1 ev2 x b items : In x X -> Forall (evsim ev1 ev2) b -> forall s1 s2, esim s1 s2 -> psim (for_loop ev1 x b items s1) (for_loop ev2 x b items s2).
Proof.
  intros Hx He. induction items as [|v items IH]; intros s1 s2 H; cbn [for_loop]; [apply psim_same; exact H|]. destruct (insert_sim x v s1 s2 Hx H) as [H1 H2].
  destruct (est_insert x v s1) as [u1 r1], (est_insert x v s2) as [u2 r2]. cbn [fst snd] in *. subst r2. destruct r1; try (split; [reflexivity|exact H2]).
  destruct (run_list_sim ev1 ev2 b He u1 u2 H2) as [H3 H4]. destruct (run_list ev1 u1 b) as [t1 r1], (run_list ev2 u2 b) as [t2 r2]. cbn [fst snd] in *. subst r2.
  destruct r1; try (apply IH; exact H4); (split; [reflexivity|exact H4]).
Qed.
Lemma in_scope_sim s1 s2 c1 c2 : esim s1 s2 -> (forall u1 u2, esim u1 u2 -> psim (c1 u1) (c2 u2)) -> psim (in_scope s1 c1) (in_scope s2 c2).
Proof.
  intros (Hv & Hf & Hw) Hb. unfold in_scope. destruct (Hb (with_vars s1 (push_scope (e_vars s1))) (with_vars s2 (push_scope (e_vars s2)))) as [H1 H2]; [repeat split; [apply vagree_push; exact Hv|assumption|assumption]|].
  destruct (c1 (with_vars s1 (push_scope (e_vars s1)))) as [u1 r1], (c2 (with_vars s2 (push_scope (e_vars s2)))) as [u2 r2]. cbn [fst snd] in *. subst r2. destruct H2 as (H2 & H3 & H4).
  pose proof (vagree_pop _ _ H2) as P. destruct (pop_scope (e_vars u1)), (pop_scope (e_vars u2)); cbn [orel] in P; try tauto; (split; [reflexivity|]); repeat split; assumption.
Qed.
Lemma stmt_sim inter n : forall st, incl (mentions st) X -> evsim (eval_stmt n E1 inter) (eval_stmt n E2 inter) st.
Proof.
  induction n as [|n IH]; intros st Hi s1 s2 H; [apply psim_same; exact H|].
  assert (IHl : forall l, incl (flat_map reads (flat_map exprs l)) X -> Forall (evsim (eval_stmt n E1 inter) (eval_stmt n E2 inter)) l).
  { intros l Hl. apply Forall_forall. intros st' Hst. apply IH. exact (mentions_list l Hl st' Hst). }
  unfold mentions in Hi.
  destruct st as [lhs rhs|c tb fb|c b|i rg b| | | | |e|e|e]; cbn [eval_stmt exprs flat_map] in *; try (apply psim_same; exact H).
  - rewrite app_nil_r in Hi. apply with_expr_sim; [exact H|exact (incl_r _ _ _ Hi)|]. intros u u' v Hu.
    assert (G : psim (let '(w, r) := lhs_assign n E1 (e_vars u) (e_fs u) lhs (fun _ => Ok v) (e_w u) in match r with Ok vs => (mk_est vs (e_fs u) w, IOk) | _ => (with_w u w, ires_of r) end)
                     (let '(w, r) := lhs_assign n E2 (e_vars u') (e_fs u') lhs (fun _ => Ok v) (e_w u') in match r with Ok vs => (mk_est vs (e_fs u') w, IOk) | _ => (with_w u' w, ires_of r) end)).
    { destruct Hu as (Hv & Hf & Hw). rewrite Hf. destruct (msim_lhs n _ _ (e_fs u') lhs Hv (incl_l _ _ _ Hi) (fun _ => Ok v) _ _ Hw) as [H1 H2].
      destruct (lhs_assign n E1 (e_vars u) (e_fs u') lhs (fun _ => Ok v) (e_w u)) as [w1 r], (lhs_assign n E2 (e_vars u') (e_fs u') lhs (fun _ => Ok v) (e_w u')) as [w1' r']. cbn [fst snd] in *.
      destruct r, r'; cbn [rrel] in H1; try tauto; subst; (split; [reflexivity|]); repeat split; assumption. }
    destruct lhs; try exact G. apply insert_sim; [|exact Hu]. apply Hi. left. reflexivity.
  - rewrite flat_map_app in Hi. pose proof (incl_l _ _ _ Hi) as Hc. pose proof (incl_l _ _ _ (incl_r _ _ _ Hi)) as Ht. pose proof (incl_r _ _ _ (incl_r _ _ _ Hi)) as Hf.
    apply in_scope_sim; [exact H|]. intros u u' Hu. apply with_expr_sim; [exact Hu|exact Hc|]. intros y y' v Hx. destruct (as_boolean v) as [[]|e|p|]; try (apply psim_same; exact Hx); apply run_list_sim; auto.
  - pose proof (incl_l _ _ _ Hi) as Hc. pose proof (incl_r _ _ _ Hi) as Hb. apply in_scope_sim; [exact H|]. intros u u' Hu. apply while_sim; auto.
  - pose proof (incl_l _ _ _ Hi) as Hc. pose proof (incl_l _ _ _ (incl_r _ _ _ Hi)) as Hr. pose proof (incl_r _ _ _ (incl_r _ _ _ Hi)) as Hb.
    apply in_scope_sim; [exact H|]. intros u u' Hu. destruct i; try (apply psim_same; exact Hu). apply with_expr_sim; [exact Hu|exact Hr|]. intros y y' v Hx.
    destruct (as_vec v) as [bb|e|p|]; try (apply psim_same; exact Hx). apply for_sim; auto. apply Hc. left. reflexivity.
  - apply write_sim. exact H.
  - rewrite app_nil_r in Hi. apply with_expr_sim; [exact H|exact Hi|]. intros u u' v Hu. destruct (as_string true v) as [p|e0|p|]; try (apply psim_same; exact Hu).
    destruct Hu as (Hv & Hf & Hw). destruct (msim_open p _ _ Hw) as [H1 H2]. destruct (fs_new E1 p (e_w u)) as [w1 r], (fs_new E2 p (e_w u')) as [w1' r']. cbn [fst snd] in *.
    destruct r, r'; cbn [rrel] in H1; try tauto; subst; (split; [reflexivity|]); repeat split; assumption.
  - rewrite app_nil_r in Hi. rewrite (sf_checks _ _ _ _ HE). apply with_expr_sim; [exact H|exact Hi|]. intros u u' v Hu. destruct (print_text n (overflow_checks E2) v); try (apply psim_same; exact Hu). apply write_sim. exact Hu.
  - rewrite app_nil_r in Hi. apply with_expr_sim; [exact H|exact Hi|]. intros u u' v Hu. destruct inter; [apply write_sim; exact Hu|apply psim_same; exact Hu].
Qed.
(** ** Commands *)
Lemma command_agree n inter r1 r2 cmd l : parse cmd = Ok l -> incl (flat_map mentions l) X -> agree_on X r1 r2 -> wsim (seen r1) (seen r2) ->
  snd (rt_eval n E1 inter r1 cmd) = snd (rt_eval n E2 inter r2 cmd) /\
  agree_on X (fst (rt_eval n E1 inter r1 cmd)) (fst (rt_eval n E2 inter r2 cmd)) /\
  wsim (seen (fst (rt_eval n E1 inter r1 cmd))) (seen (fst (rt_eval n E2 inter r2 cmd))).
Proof.
  intros Hp Hi [Hk Hd Hv Hf] Hw. unfold rt_eval. rewrite Hp. pose proof Hk as Hk'. apply agree_iff in Hk'. pose proof Hv as Hv'. apply agree_iff in Hv'.
  assert (Ha : spagree (analyze (r_sem r1) l) (analyze (r_sem r2) l)).
  { apply list_agree; [|split; assumption]. apply Forall_forall. intros st Hst. apply analyze_stmt_agree. exact (flat_incl mentions l st Hi Hst). }
  destruct (analyze (r_sem r1) l) as [m1 a1], (analyze (r_sem r2) l) as [m2 a2]. destruct Ha as [[Hm Hmd] Ha]. cbn [fst snd] in *. subst a2. apply agree_iff in Hm.
  destruct a1; try (split; [reflexivity|]; split; [constructor; assumption|exact Hw]). unfold eval_prog.
  destruct (run_list_sim (eval_stmt n E1 inter) (eval_stmt n E2 inter) l) with (s1 := r_eval r1) (s2 := r_eval r2) as [H1 H2].
  - apply Forall_forall. intros st Hst. apply stmt_sim. exact (flat_incl mentions l st Hi Hst).
  - split; [exact Hv'|]. split; [exact Hf|exact Hw].
  - destruct (run_list (eval_stmt n E1 inter) (r_eval r1) l) as [s1 q1], (run_list (eval_stmt n E2 inter) (r_eval r2) l) as [s2 q2]. cbn [fst snd] in *. subst q2.
    destruct H2 as (H2 & H3 & H4). apply agree_iff in H2. split; [reflexivity|]. split; [constructor; assumption|exact H4].
Qed.
Lemma commands_agree n inter cmds : Forall (fun cmd => forall l, parse cmd = Ok l -> incl (flat_map mentions l) X) cmds ->
  forall r1 r2, agree_on X r1 r2 -> wsim (seen r1) (seen r2) ->
  snd (entering n E1 inter r1 cmds) = snd (entering n E2 inter r2 cmds) /\
  agree_on X (fst (entering n E1 inter r1 cmds)) (fst (entering n E2 inter r2 cmds)) /\
  wsim (seen (fst (entering n E1 inter r1 cmds))) (seen (fst (entering n E2 inter r2 cmds))).
Proof.
  induction 1 as [|cmd cmds Hc _ IH]; intros r1 r2 Ha Hw; cbn [entering]; [split; [reflexivity|split; assumption]|].
  assert (H : snd (rt_eval n E1 inter r1 cmd) = snd (rt_eval n E2 inter r2 cmd) /\ agree_on X (fst (rt_eval n E1 inter r1 cmd)) (fst (rt_eval n E2 inter r2 cmd)) /\
     wsim (seen (fst (rt_eval n E1 inter r1 cmd))) (seen (fst (rt_eval n E2 inter r2 cmd)))).
  { destruct (parse cmd) as [l|e|p|] eqn:Hp; [exact (command_agree n inter r1 r2 cmd l Hp (Hc l eq_refl) Ha Hw)|..]; unfold rt_eval; rewrite Hp; (split; [reflexivity|split; assumption]). }
  destruct (rt_eval n E1 inter r1 cmd) as [u1 a1], (rt_eval n E2 inter r2 cmd) as [u2 a2]. cbn [fst snd] in *. destruct H as (-> & H2 & H3). specialize (IH u1 u2 H2 H3).
  destruct (entering n E1 inter u1 cmds) as [t1 l1], (entering n E2 inter u2 cmds) as [t2 l2]. cbn [fst snd] in *. destruct IH as (-> & H4 & H5). split; [reflexivity|split; assumption].
Qed.
End Run.
End Vars.
