(** Proofs for C87: renaming variables. *)
From Verif Require Import Base Ast Pom Parse Structs Definitions Value Variables Semantics Fs Eval Runtime Lib Spec_Vars Spec_Run Spec_Session Spec_Safe Spec_Frame Spec_Rename
  Proof_Vars Proof_Run Proof_Session Proof_Frame Proof_Frame2 Proof_Nv.
Require Import Lia.
Arguments s_ s%string_scope.

Definition ren_err (r : str -> str) (e : error) : error := match e with EUnknownVariable x => EUnknownVariable (r x) | _ => e end.
Lemma ren_err_nve r e : nve e -> ren_err r e = e. Proof. destruct e; cbn; tauto. Qed.

Section Vars.
Context (X : list str) (r : str -> str) (Hr : one_to_one X r).
(** agreement, scope by scope *)
Definition mag {A} (m1 m2 : scope A) : Prop := forall x, In x X -> assoc x m1 = assoc (r x) m2.
Definition vag {A} : vars A -> vars A -> Prop := Forall2 mag.
Lemma agree_via_iff {A} (v1 v2 : vars A) : agree_via X r v1 v2 <-> vag v1 v2.
Proof.
  revert v2. induction v1 as [|m1 v1 IH]; intros [|m2 v2]; split; intros H.
  - constructor.
  - split; [reflexivity|]. intros x _ j. unfold binding. destruct j; reflexivity.
  - destruct H as [H _]. discriminate.
  - inversion H.
  - destruct H as [H _]. discriminate.
  - inversion H.
  - destruct H as [Hl Hb]. constructor; [intros x Hx; exact (Hb x Hx 0)|]. apply IH. split; [cbn in Hl; lia|]. intros x Hx j. exact (Hb x Hx (S j)).
  - inversion_clear H as [|? ? ? ? Hm Hv]. apply IH in Hv. destruct Hv as [Hl Hb]. split; [cbn; lia|]. intros x Hx [|j]; [exact (Hm x Hx)|exact (Hb x Hx j)].
Qed.
Lemma vag_get {A} (v1 v2 : vars A) x : vag v1 v2 -> In x X -> vars_get x v1 = vars_get (r x) v2.
Proof. induction 1 as [|m1 m2 v1 v2 Hm _ IH]; intros Hx; cbn [vars_get]; [reflexivity|]. rewrite (Hm x Hx). destruct (assoc (r x) m2); [reflexivity|exact (IH Hx)]. Qed.
Lemma mag_insert {A} (m1 m2 : scope A) x a : In x X -> mag m1 m2 -> mag (scope_insert x a m1) (scope_insert (r x) a m2).
Proof.
  intros Hx Hm y Hy. destruct (list_eq_dec N.eq_dec y x) as [->|Hn]; [rewrite !assoc_insert_eq; reflexivity|].
  rewrite assoc_insert_neq by exact Hn. rewrite assoc_insert_neq by (intros E; apply Hn; exact (Hr y x Hy Hx E)). exact (Hm y Hy).
Qed.
Lemma vag_replace {A} (v1 v2 : vars A) x a : vag v1 v2 -> In x X -> orel vag (vars_replace x a v1) (vars_replace (r x) a v2).
Proof.
  induction 1 as [|m1 m2 v1 v2 Hm Hv IH]; intros Hx; cbn [vars_replace orel]; [exact I|]. rewrite (Hm x Hx). destruct (assoc (r x) m2).
  - constructor; [apply mag_insert; assumption|exact Hv].
  - specialize (IH Hx). destruct (vars_replace x a v1), (vars_replace (r x) a v2); cbn [orel] in *; try tauto. constructor; assumption.
Qed.
Lemma vag_insert {A} (v1 v2 : vars A) x a : vag v1 v2 -> In x X -> orel vag (vars_insert x a v1) (vars_insert (r x) a v2).
Proof.
  intros H Hx. unfold vars_insert. pose proof (vag_replace v1 v2 x a H Hx) as P. destruct (vars_replace x a v1), (vars_replace (r x) a v2); cbn [orel] in *; try tauto.
  destruct H as [|m1 m2 v1 v2 Hm Hv]; [exact I|]. constructor; [apply mag_insert; assumption|exact Hv].
Qed.
Lemma vag_push {A} (v1 v2 : vars A) : vag v1 v2 -> vag (push_scope v1) (push_scope v2).
Proof. intros H. constructor; [intros y _; reflexivity|exact H]. Qed.
Lemma vag_pop {A} (v1 v2 : vars A) : vag v1 v2 -> orel vag (pop_scope v1) (pop_scope v2).
Proof. intros [|m1 m2 v1' v2' _ H]; [exact I|exact H]. Qed.

(** results that are equal but for the renamed variable *)
Definition rr {A} (R : A -> A -> Prop) (a b : res A) : Prop :=
  match a, b with Ok a, Ok b => R a b | Err a, Err b => b = ren_err r a | Panic a, Panic b => a = b | Fuel, Fuel => True | _, _ => False end.
Lemma rr_nv {A} (q : res A) : nv q -> rr eq q q.
Proof. destruct q; cbn; auto. intros H. symmetry. apply ren_err_nve. exact H. Qed.
Lemma rr_bind {A B} (a b : res A) (f g : A -> res B) : rr eq a b -> (forall x, rr eq (f x) (g x)) -> rr eq (bind a f) (bind b g).
Proof. destruct a, b; cbn; try tauto. intros ->. auto. Qed.

(** ** The analyser *)
Lemma analyze_expr_ren v1 v2 e : vag v1 v2 -> incl (reads e) X -> rr eq (analyze_expr v1 e) (analyze_expr v2 (rename r e)).
Proof.
  intros Hv. induction e as [y| | | |e IH|e f IHe IHf|e i IHe IHi|f args IHf IHa|op l rt IHl IHr|op e IH|t e IHt IHe] using expr_ind'; cbn [analyze_expr reads rename]; intros Hi; try reflexivity.
  - rewrite (vag_get v1 v2 y Hv) by (apply Hi; left; reflexivity). destruct (vars_get (r y) v2); reflexivity.
  - apply IH. exact Hi.
  - destruct f; try reflexivity. apply IHe. exact Hi.
  - apply rr_bind; [apply IHe|intros _; apply IHi]; intros y Hy; apply Hi; apply in_or_app; tauto.
  - apply rr_bind; [apply IHf; intros y Hy; apply Hi; apply in_or_app; tauto|]. intros _.
    assert (Ha : incl (flat_map reads args) X) by (intros y Hy; apply Hi; apply in_or_app; tauto). clear -IHa Ha. induction IHa as [|a0 l Ha0 Hl IH]; [reflexivity|].
    apply rr_bind; [apply Ha0; intros y Hy; apply Ha; cbn; apply in_or_app; tauto|]. intros _. apply IH. intros y Hy; apply Ha; cbn; apply in_or_app; tauto.
  - apply rr_bind; [apply IHl|intros _; apply IHr]; intros y Hy; apply Hi; apply in_or_app; tauto.
  - apply IH. exact Hi.
  - destruct t; try reflexivity. apply rr_bind; [apply rr_nv; nvs|]. intros _. apply IHe; exact Hi.
Qed.
Definition sag (s1 s2 : sem) : Prop := vag (s_vars s1) (s_vars s2) /\ s_depth s1 = s_depth s2.
Definition spag (p1 p2 : sem * res unit) : Prop := sag (fst p1) (fst p2) /\ rr eq (snd p1) (snd p2).
Lemma sbind_ren p1 p2 k1 k2 : spag p1 p2 -> (forall s1 s2, sag s1 s2 -> spag (k1 s1) (k2 s2)) -> spag (sbind p1 k1) (sbind p2 k2).
Proof.
  intros [H1 H2] Hk. unfold sbind, spag. destruct p1 as [s1 q1], p2 as [s2 q2]. cbn [fst snd] in *. destruct q1, q2; cbn [rr] in H2; try tauto; [apply Hk; exact H1|..]; cbn [fst snd]; (split; [exact H1|exact H2]).
Qed.
Lemma pure_ren s1 s2 e : sag s1 s2 -> incl (reads e) X -> spag (s1, analyze_expr (s_vars s1) e) (s2, analyze_expr (s_vars s2) (rename r e)).
Proof. intros H Hi. split; [exact H|]. apply analyze_expr_ren; [apply H|exact Hi]. Qed.
Lemma sem_insert_ren x s1 s2 : sag s1 s2 -> In x X -> spag (sem_insert x s1) (sem_insert (r x) s2).
Proof.
  intros [Hv Hd] Hx. unfold sem_insert. pose proof (vag_insert (s_vars s1) (s_vars s2) x tt Hv Hx) as P.
  destruct (vars_insert x tt (s_vars s1)), (vars_insert (r x) tt (s_vars s2)); cbn [orel] in P; try tauto; (split; [|reflexivity]); split; assumption.
Qed.
Lemma sem_pop_ren d p1 p2 : spag p1 p2 -> spag (sem_pop d p1) (sem_pop d p2).
Proof.
  destruct p1 as [s1 r1], p2 as [s2 r2]. intros [[Hv Hd] Hq]. cbn [fst snd] in *. unfold sem_pop. pose proof (vag_pop _ _ Hv) as P.
  destruct (pop_scope (s_vars s1)), (pop_scope (s_vars s2)); cbn [orel] in P; try tauto; (split; [split; cbn; congruence || assumption|exact Hq || reflexivity]).
Qed.
Lemma list_ren l : Forall (fun st => forall s1 s2, sag s1 s2 -> spag (analyze_stmt s1 st) (analyze_stmt s2 (rename_stmt r st))) l ->
  forall s1 s2, sag s1 s2 -> spag (analyze_stmts s1 l) (analyze_stmts s2 (map (rename_stmt r) l)).
Proof.
  unfold analyze_stmts. induction 1 as [|st l Hst _ IH]; intros s1 s2 H; cbn [analyze_list map]; [split; [exact H|reflexivity]|]. apply sbind_ren; [apply Hst; exact H|exact IH].
Qed.
Lemma analyze_stmt_ren st : incl (mentions st) X -> forall s1 s2, sag s1 s2 -> spag (analyze_stmt s1 st) (analyze_stmt s2 (rename_stmt r st)).
Proof.
  unfold mentions. induction st as [lhs e|c tb fb IHt IHf|c b IH|i rg b IH| | | | |e|e|e] using stmt_ind'; cbn [exprs flat_map rename_stmt]; intros Hi s1 s2 H; rewrite !analyze_stmt_eq.
  - rewrite app_nil_r in Hi. apply sbind_ren.
    + pose proof (pure_ren s1 s2 lhs H (incl_l _ _ _ Hi)) as P. destruct lhs; try exact P. cbn [rename]. apply sem_insert_ren; [exact H|]. apply Hi. left. reflexivity.
    + intros u1 u2 Hu. apply pure_ren; [exact Hu|exact (incl_r _ _ _ Hi)].
  - rewrite flat_map_app in Hi. pose proof (incl_l _ _ _ Hi) as Hc. pose proof (incl_l _ _ _ (incl_r _ _ _ Hi)) as Ht. pose proof (incl_r _ _ _ (incl_r _ _ _ Hi)) as Hf.
    apply sem_pop_ren. destruct H as [Hv Hd]. apply sbind_ren; [apply pure_ren; [split; [apply vag_push; exact Hv|exact Hd]|exact Hc]|]. intros u1 u2 Hu.
    apply sbind_ren; [apply list_ren; [|exact Hu]|intros t1 t2 Hq; apply list_ren; [|exact Hq]]; rewrite Forall_forall in *; intros st Hst; [exact (IHt st Hst (mentions_list X _ Ht st Hst))|exact (IHf st Hst (mentions_list X _ Hf st Hst))].
  - pose proof (incl_l _ _ _ Hi) as Hc. pose proof (incl_r _ _ _ Hi) as Hb. apply sem_pop_ren. destruct H as [Hv Hd].
    apply sbind_ren; [apply pure_ren; [split; [apply vag_push; exact Hv|cbn; congruence]|exact Hc]|]. intros u1 u2 Hu. apply list_ren; [|exact Hu]. rewrite Forall_forall in *. intros st Hst. apply IH; [exact Hst|]. apply (mentions_list X _ Hb); assumption.
  - pose proof (incl_l _ _ _ Hi) as Hc. pose proof (incl_l _ _ _ (incl_r _ _ _ Hi)) as Hg. pose proof (incl_r _ _ _ (incl_r _ _ _ Hi)) as Hb. apply sem_pop_ren. destruct H as [Hv Hd].
    assert (H1 : sag (mk_sem (push_scope (s_vars s1)) (s_depth s1 + 1)) (mk_sem (push_scope (s_vars s2)) (s_depth s2 + 1))) by (split; [apply vag_push; exact Hv|cbn; congruence]).
    destruct i; cbn [rename]; try (split; [exact H1|reflexivity]). apply sbind_ren; [apply sem_insert_ren; [exact H1|apply Hc; left; reflexivity]|]. intros u1 u2 Hu.
    apply sbind_ren; [apply pure_ren; assumption|]. intros t1 t2 Hq. apply list_ren; [|exact Hq]. rewrite Forall_forall in *. intros st Hst. apply IH; [exact Hst|]. apply (mentions_list X _ Hb); assumption.
  - split; [exact H|]. destruct H as [_ Hd]. cbn [snd]. rewrite Hd. apply rr_nv. nvs.
  - split; [exact H|]. destruct H as [_ Hd]. cbn [snd]. rewrite Hd. apply rr_nv. nvs.
  - split; [exact H|reflexivity].
  - split; [exact H|reflexivity].
  - split; [exact H|]. destruct e; reflexivity.
  - apply pure_ren; [exact H|]. rewrite app_nil_r in Hi. exact Hi.
  - apply pure_ren; [exact H|]. rewrite app_nil_r in Hi. exact Hi.
Qed.

(** ** Expressions *)
Section Run.
Context (E1 E2 : env) (b1 b2 : world) (HE : same_future E1 (tick b1) E2 (tick b2)).
Notation ws := (wsim b1 b2).
Definition ms {A} (R : A -> A -> Prop) (m1 m2 : M A) : Prop :=
  forall w1 w2, ws w1 w2 -> rr R (snd (m1 w1)) (snd (m2 w2)) /\ ws (fst (m1 w1)) (fst (m2 w2)).
Lemma ms_ret {A} (q : res A) : nv q -> ms eq (mret q) (mret q).
Proof. intros Hq w1 w2 H. split; [apply rr_nv; exact Hq|exact H]. Qed.
Lemma ms_bind {A B} R (m1 m2 : M A) (g1 g2 : A -> M B) : ms eq m1 m2 -> (forall a, ms R (g1 a) (g2 a)) -> ms R (mbind m1 g1) (mbind m2 g2).
Proof.
  intros Hm Hg w1 w2 H. unfold mbind. destruct (Hm w1 w2 H) as [H1 H2]. destruct (m1 w1) as [u1 r1], (m2 w2) as [u2 r2]. cbn [fst snd] in *.
  destruct r1, r2; cbn [rr] in H1; try tauto; subst; [exact (Hg _ _ _ H2)|..]; (split; [cbn; auto|exact H2]).
Qed.
(** computations without variables *)
Lemma ms_of_msim {A} (m1 m2 : M A) : msim b1 b2 eq m1 m2 -> nvm m1 -> ms eq m1 m2.
Proof.
  intros Hm Hn w1 w2 H. destruct (Hm w1 w2 H) as [H1 H2]. split; [|exact H2]. specialize (Hn w1). destruct (snd (m1 w1)), (snd (m2 w2)); cbn in *; try tauto.
  subst. symmetry. apply ren_err_nve. exact Hn.
Qed.
Lemma ms_eval_search K f tree key : ms eq (eval_search K E1 f tree key) (eval_search K E2 f tree key).
Proof. apply ms_of_msim; [apply msim_eval_search; exact HE|apply nvm_eval_search]. Qed.
Lemma ms_expr K vs1 vs2 f e : vag vs1 vs2 -> incl (reads e) X -> ms eq (eval_expr K E1 vs1 f e) (eval_expr K E2 vs2 f (rename r e)).
Proof.
  intros Hv. pose proof (sf_checks _ _ _ _ HE) as Hoc.
  assert (RI : forall v, ms eq (mret (as_integer v)) (mret (as_integer v))) by (intros v; apply ms_ret, nv_as_integer).
  assert (RB : forall v, ms eq (mret (as_boolean v)) (mret (as_boolean v))) by (intros v; apply ms_ret, nv_as_boolean).
  assert (RV : forall v, ms eq (mret (as_vec v)) (mret (as_vec v))) by (intros v; apply ms_ret, nv_as_vec).
  assert (RS : forall v, ms eq (mret (as_struct v)) (mret (as_struct v))) by (intros v; apply ms_ret, nv_as_struct).
  assert (RT : forall n v, ms eq (mret (try_into_u n v)) (mret (try_into_u n v))) by (intros n v; apply ms_ret, nv_try).
  assert (RO : forall A (a : A), ms eq (mret (Ok a)) (mret (Ok a))) by (intros A a; apply ms_ret; exact I).
  induction e as [y| | | |e IH|e fld IHe IHf|e i IHe IHi|f0 args IHf IHa|op a b IHl IHr|op e IH|t e IHt IHe] using expr_ind'; cbn [eval_expr reads rename]; intros Hi; try apply RO.
  - rewrite (vag_get vs1 vs2 y Hv) by (apply Hi; left; reflexivity). intros w1 w2 H. split; [|exact H]. destruct (vars_get (r y) vs2); reflexivity.
  - apply IH. exact Hi.
  - apply ms_bind; [apply IHe; exact Hi|intros v]. apply ms_bind; [apply RS|intros [[nm ky] fl]]. destruct fld; apply ms_ret; first [apply nv_get_field|exact I].
  - pose proof (IHe (incl_l _ _ _ Hi)) as P1. pose proof (IHi (incl_r _ _ _ Hi)) as P2.
    apply ms_bind; [exact P1|intros v]. apply ms_bind; [apply RV|intros l]. apply ms_bind; [exact P2|intros iv]. apply ms_bind; [apply RI|intros z]. apply ms_bind; [apply RT|intros u]. apply ms_ret. nvs.
  - apply ms_bind; [apply IHf; exact (incl_l _ _ _ Hi)|intros fv]. apply ms_bind; [apply ms_ret, nv_as_function|intros fn].
    assert (Ha : Forall (fun a => ms eq (eval_expr K E1 vs1 f a) (eval_expr K E2 vs2 f (rename r a))) args).
    { rewrite Forall_forall in *. intros a Hin. apply IHa; [exact Hin|]. exact (flat_incl X reads args a (incl_r _ _ _ Hi) Hin). }
    clear IHa Hi IHf. rewrite Hoc.
    assert (RE : forall A (er : error), nve er -> @ms A eq (mret (Err er)) (mret (Err er))) by (intros A er Her; apply ms_ret; exact Her).
    destruct fn; destruct args as [|a1 [|a2 [|a3 [|a4 [|a5 rest]]]]]; cbn [map];
    repeat match goal with H : Forall _ (_ :: _) |- _ => inversion_clear H end;
    repeat match goal with
    | |- ms eq (mret (Err _)) _ => apply RE; exact I
    | |- ms eq (mret (Ok _)) _ => apply RO
    | |- ms eq (mret (make_search_key _ _ _ _ _)) _ => apply ms_ret, nv_search_key
    | |- ms eq (eval_search _ _ _ _ _) _ => apply ms_eval_search
    | |- ms eq (mbind (eval_expr _ _ _ _ _) _) _ => apply ms_bind; [assumption|intros ?]
    | |- ms eq (mbind (mret (as_integer _)) _) _ => apply ms_bind; [apply RI|intros ?]
    | |- ms eq (mbind (mret (as_vec _)) _) _ => apply ms_bind; [apply RV|intros ?]
    | |- ms eq (mbind (mret (as_struct _)) _) _ => apply ms_bind; [apply RS|intros ?]
    end.
    + match goal with a : (_ * _ * _)%type |- _ => destruct a as [[nm ky] fl] end. destruct ky as [[[? ?] ?]|]; [apply ms_ret, nv_disk_key|apply RE; exact I].
    + apply ms_ret. nvs.
  - pose proof (IHl (incl_l _ _ _ Hi)) as P1. pose proof (IHr (incl_r _ _ _ Hi)) as P2.
    destruct op; repeat (first [apply RO|apply ms_ret, nv_plus|apply ms_ret, nv_int_op|apply ms_bind; [first [exact P1|exact P2|apply RI|apply RB]|intros ?]]);
    match goal with |- context [if ?x then _ else _] => destruct x end;
    repeat (first [apply RO|apply ms_bind; [first [exact P1|exact P2|apply RB]|intros ?]]).
  - rewrite Hoc. apply ms_bind; [apply IH; exact Hi|intros v; apply ms_ret, nv_unop].
  - apply ms_bind; [apply IHe; exact Hi|intros v]. apply ms_bind; [apply RI|intros z]. rewrite (cast_same E1 E2 b1 b2 HE). destruct (z <? 0)%Z; apply ms_ret; first [apply nv_cast|exact I].
Qed.
Lemma ms_lhs K vs1 vs2 f e : vag vs1 vs2 -> incl (reads e) X -> forall g, (forall v, nv (g v)) -> ms vag (lhs_assign K E1 vs1 f e g) (lhs_assign K E2 vs2 f (rename r e) g).
Proof.
  intros Hv. assert (N : forall (er : error), nve er -> ms (@vag value) (mret (Err er)) (mret (Err er))) by (intros er Her w1 w2 H; split; [symmetry; apply ren_err_nve; exact Her|exact H]).
  induction e as [y| | | |e IH|e IHe fld IHf|e IHe i IHi| | | | ]; cbn [reads lhs_assign rename]; intros Hi g Hg; try (apply N; exact I).
  - assert (Hy : In y X) by (apply Hi; left; reflexivity). rewrite (vag_get vs1 vs2 y Hv Hy). intros w1 w2 H. split; [|exact H]. cbn [mret snd].
    destruct (vars_get (r y) vs2) as [v|]; [|reflexivity]. cbn [ok_or bind]. specialize (Hg v). destruct (g v) as [v'| | |]; [|symmetry; apply ren_err_nve; exact Hg|reflexivity|exact I]. cbn [bind].
    pose proof (vag_replace vs1 vs2 y v' Hv Hy) as P. destruct (vars_replace y v' vs1), (vars_replace (r y) v' vs2); cbn [orel] in P; try tauto; exact P || reflexivity.
  - destruct fld; try (apply N; exact I). apply IHe; [exact Hi|]. intros v. destruct v; try exact I.
    match goal with |- nv (match assoc_update ?k ?g ?l with _ => _ end) => pose proof (nv_assoc_update k g l) as HA; destruct (assoc_update k g l) end; [|exact I].
    apply nv_bind; [apply HA; exact Hg|intros; exact I].
  - apply ms_bind; [apply ms_expr; [exact Hv|exact (incl_r _ _ _ Hi)]|intros v]. apply ms_bind; [apply ms_ret, nv_as_integer|intros z]. apply IHe; [exact (incl_l _ _ _ Hi)|].
    intros v'. destruct v'; try exact I. apply nv_bind; [apply nv_try|intros ?]. nvs. apply Hg.
Qed.
Lemma ms_open p : ms eq (fs_new E1 p) (fs_new E2 p).
Proof. apply ms_of_msim; [apply msim_open; exact HE|apply nvm_open]. Qed.

(** ** Statements *)
Definition ir (a b : ires) : Prop := match a with IErr e => b = IErr (ren_err r e) | _ => a = b end.
Lemma ir_nv {A} (q : res A) : nv q -> ir (ires_of q) (ires_of q).
Proof. destruct q; cbn; auto. intros H. rewrite ren_err_nve by exact H. reflexivity. Qed.
Definition es (s1 s2 : est) : Prop := vag (e_vars s1) (e_vars s2) /\ e_fs s1 = e_fs s2 /\ ws (e_w s1) (e_w s2).
Definition ps (p1 p2 : est * ires) : Prop := ir (snd p1) (snd p2) /\ es (fst p1) (fst p2).
Definition evs (ev1 ev2 : est -> stmt -> est * ires) (st : stmt) : Prop := forall s1 s2, es s1 s2 -> ps (ev1 s1 st) (ev2 s2 (rename_stmt r st)).
Lemma ps_same s1 s2 q : es s1 s2 -> ir q q -> ps (s1, q) (s2, q). Proof. intros H Hq. split; [exact Hq|exact H]. Qed.
Lemma with_expr_ren k s1 s2 e c1 c2 : es s1 s2 -> incl (reads e) X -> (forall u1 u2 v, es u1 u2 -> ps (c1 u1 v) (c2 u2 v)) -> ps (with_expr k E1 s1 e c1) (with_expr k E2 s2 (rename r e) c2).
Proof.
  intros (Hv & Hf & Hw) Hi Hc. unfold with_expr. rewrite Hf. destruct (ms_expr k _ _ (e_fs s2) e Hv Hi _ _ Hw) as [H1 H2].
  destruct (eval_expr k E1 (e_vars s1) (e_fs s2) e (e_w s1)) as [w1 r1], (eval_expr k E2 (e_vars s2) (e_fs s2) (rename r e) (e_w s2)) as [w2 r2]. cbn [fst snd] in *.
  assert (HS : es (with_w s1 w1) (with_w s2 w2)) by (repeat split; assumption).
  destruct r1, r2; cbn [rr] in H1; try tauto; subst; [apply Hc; exact HS|..]; (split; [reflexivity|exact HS]).
Qed.
Lemma write_ren s1 s2 t : es s1 s2 -> ps (do_write E1 s1 t) (do_write E2 s2 t).
Proof.
  intros (Hv & Hf & Hw). unfold do_write. rewrite (wsim_sink E1 E2 b1 b2 HE _ _ t Hw). destruct (sink E2 (tick (e_w s2)) t); (split; [reflexivity|]); (split; [exact Hv|]); (split; [exact Hf|]); apply wsim_write; exact Hw.
Qed.
Lemma run_list_ren ev1 ev2 l : Forall (evs ev1 ev2) l -> forall s1 s2, es s1 s2 -> ps (run_list ev1 s1 l) (run_list ev2 s2 (map (rename_stmt r) l)).
Proof.
  induction 1 as [|st l He _ IH]; intros s1 s2 H; [apply ps_same; [exact H|reflexivity]|]. cbn [run_list map]. fold (run_list ev1) (run_list ev2). destruct (He s1 s2 H) as [H1 H2].
  destruct (ev1 s1 st) as [u1 r1], (ev2 s2 (rename_stmt r st)) as [u2 r2]. cbn [fst snd] in *. destruct r1; cbn [ir] in H1; subst r2; [apply IH; exact H2|..]; (split; [reflexivity|exact H2]).
Qed.
Lemma while_ren ev1 ev2 ke k c b : Forall (evs ev1 ev2) b -> incl (reads c) X -> forall s1 s2, es s1 s2 -> ps (while_loop ev1 ke E1 k c b s1) (while_loop ev2 ke E2 k (rename r c) (map (rename_stmt r) b) s2).
Proof.
  intros He Hc. induction k as [|k IH]; intros s1 s2 H; cbn [while_loop]; [apply ps_same; [exact H|reflexivity]|]. apply with_expr_ren; [exact H|exact Hc|]. intros u1 u2 v Hu.
  pose proof (ir_nv _ (nv_as_boolean v)) as HB. destruct (as_boolean v) as [[]|x|p|]; try (apply ps_same; [exact Hu|exact HB || reflexivity]). destruct (run_list_ren ev1 ev2 b He u1 u2 Hu) as [H1 H2].
  destruct (run_list ev1 u1 b) as [t1 r1], (run_list ev2 u2 (map (rename_stmt r) b)) as [t2 r2]. cbn [fst snd] in *. destruct r1; cbn [ir] in H1; subst r2; try (apply IH; exact H2); (split; [reflexivity|exact H2]).
Qed.
Lemma insert_ren x v s1 s2 : In x X -> es s1 s2 -> ps (est_insert x v s1) (est_insert (r x) v s2).
Proof.
  intros Hx (Hv & Hf & Hw). unfold est_insert. pose proof (vag_insert _ _ x v Hv Hx) as P. destruct (vars_insert x v (e_vars s1)), (vars_insert (r x) v (e_vars s2)); cbn [orel] in P; try tauto;
  (split; [reflexivity|]); repeat split; assumption.
Qed.
Lemma for_ren ev1 ev2 x b items : In x X -> Forall (evs ev1 ev2) b -> forall s1 s2, es s1 s2 -> ps (for_loop ev1 x b items s1) (for_loop ev2 (r x) (map (rename_stmt r) b) items s2).
Proof.
  intros Hx He. induction items as [|v items IH]; intros s1 s2 H; cbn [for_loop]; [apply ps_same; [exact H|reflexivity]|]. destruct (insert_ren x v s1 s2 Hx H) as [H1 H2].
  destruct (est_insert x v s1) as [u1 r1], (est_insert (r x) v s2) as [u2 r2]. cbn [fst snd] in *. destruct r1; cbn [ir] in H1; subst r2; try (split; [reflexivity|exact H2]).
  destruct (run_list_ren ev1 ev2 b He u1 u2 H2) as [H3 H4]. destruct (run_list ev1 u1 b) as [t1 r1], (run_list ev2 u2 (map (rename_stmt r) b)) as [t2 r2]. cbn [fst snd] in *.
  destruct r1; cbn [ir] in H3; subst r2; try (apply IH; exact H4); (split; [reflexivity|exact H4]).
Qed.
Lemma in_scope_ren s1 s2 c1 c2 : es s1 s2 -> (forall u1 u2, es u1 u2 -> ps (c1 u1) (c2 u2)) -> ps (in_scope s1 c1) (in_scope s2 c2).
Proof.
  intros (Hv & Hf & Hw) Hb. unfold in_scope. destruct (Hb (with_vars s1 (push_scope (e_vars s1))) (with_vars s2 (push_scope (e_vars s2)))) as [H1 H2]; [repeat split; [apply vag_push; exact Hv|assumption|assumption]|].
  destruct (c1 (with_vars s1 (push_scope (e_vars s1)))) as [u1 r1], (c2 (with_vars s2 (push_scope (e_vars s2)))) as [u2 r2]. cbn [fst snd] in *. destruct H2 as (H2 & H3 & H4).
  pose proof (vag_pop _ _ H2) as P. destruct (pop_scope (e_vars u1)), (pop_scope (e_vars u2)); cbn [orel] in P; try tauto; (split; [exact H1 || reflexivity|]); repeat split; assumption.
Qed.
Lemma stmt_ren inter n : forall st, incl (mentions st) X -> evs (eval_stmt n E1 inter) (eval_stmt n E2 inter) st.
Proof.
  induction n as [|n IH]; intros st Hi s1 s2 H; [apply ps_same; [exact H|reflexivity]|].
  assert (IHl : forall l, incl (flat_map reads (flat_map exprs l)) X -> Forall (evs (eval_stmt n E1 inter) (eval_stmt n E2 inter)) l).
  { intros l Hl. apply Forall_forall. intros st' Hst. apply IH. exact (mentions_list X l Hl st' Hst). }
  unfold mentions in Hi.
  destruct st as [lhs rhs|c tb fb|c b|i rg b| | | | |e|e|e]; cbn [eval_stmt exprs flat_map rename_stmt] in *; try (apply ps_same; [exact H|reflexivity]).
  - rewrite app_nil_r in Hi. apply with_expr_ren; [exact H|exact (incl_r _ _ _ Hi)|]. intros u u' v Hu.
    assert (G : ps (let '(w, r) := lhs_assign n E1 (e_vars u) (e_fs u) lhs (fun _ => Ok v) (e_w u) in match r with Ok vs => (mk_est vs (e_fs u) w, IOk) | _ => (with_w u w, ires_of r) end)
                     (let '(w, r) := lhs_assign n E2 (e_vars u') (e_fs u') (rename r lhs) (fun _ => Ok v) (e_w u') in match r with Ok vs => (mk_est vs (e_fs u') w, IOk) | _ => (with_w u' w, ires_of r) end)).
    { destruct Hu as (Hv & Hf & Hw). rewrite Hf. destruct (ms_lhs n _ _ (e_fs u') lhs Hv (incl_l _ _ _ Hi) (fun _ => Ok v) (fun _ => I) _ _ Hw) as [H1 H2].
      destruct (lhs_assign n E1 (e_vars u) (e_fs u') lhs (fun _ => Ok v) (e_w u)) as [w1 q], (lhs_assign n E2 (e_vars u') (e_fs u') (rename r lhs) (fun _ => Ok v) (e_w u')) as [w1' q']. cbn [fst snd] in *.
      destruct q, q'; cbn [rr] in H1; try tauto; subst; (split; [reflexivity|]); repeat split; assumption. }
    destruct lhs; try exact G. cbn [rename]. apply insert_ren; [|exact Hu]. apply Hi. left. reflexivity.
  - rewrite flat_map_app in Hi. pose proof (incl_l _ _ _ Hi) as Hc. pose proof (incl_l _ _ _ (incl_r _ _ _ Hi)) as Ht. pose proof (incl_r _ _ _ (incl_r _ _ _ Hi)) as Hf.
    apply in_scope_ren; [exact H|]. intros u u' Hu. apply with_expr_ren; [exact Hu|exact Hc|]. intros y y' v Hx. pose proof (ir_nv _ (nv_as_boolean v)) as HB.
    destruct (as_boolean v) as [[]|e|p|]; try (apply ps_same; [exact Hx|exact HB]); apply run_list_ren; auto.
  - pose proof (incl_l _ _ _ Hi) as Hc. pose proof (incl_r _ _ _ Hi) as Hb. apply in_scope_ren; [exact H|]. intros u u' Hu. apply while_ren; auto.
  - pose proof (incl_l _ _ _ Hi) as Hc. pose proof (incl_l _ _ _ (incl_r _ _ _ Hi)) as Hg. pose proof (incl_r _ _ _ (incl_r _ _ _ Hi)) as Hb.
    apply in_scope_ren; [exact H|]. intros u u' Hu. destruct i; cbn [rename]; try (apply ps_same; [exact Hu|reflexivity]). apply with_expr_ren; [exact Hu|exact Hg|]. intros y y' v Hx.
    pose proof (ir_nv _ (nv_as_vec v)) as HB. destruct (as_vec v) as [bb|e|p|]; try (apply ps_same; [exact Hx|exact HB]). apply for_ren; auto. apply Hc. left. reflexivity.
  - apply write_ren. exact H.
  - rewrite app_nil_r in Hi. apply with_expr_ren; [exact H|exact Hi|]. intros u u' v Hu. pose proof (ir_nv _ (nv_as_string true v)) as HB. destruct (as_string true v) as [p|e0|p|]; try (apply ps_same; [exact Hu|exact HB]).
    destruct Hu as (Hv & Hf & Hw). destruct (ms_open p _ _ Hw) as [H1 H2]. destruct (fs_new E1 p (e_w u)) as [w1 q], (fs_new E2 p (e_w u')) as [w1' q']. cbn [fst snd] in *.
    destruct q, q'; cbn [rr] in H1; try tauto; subst; (split; [reflexivity|]); repeat split; assumption.
  - rewrite app_nil_r in Hi. rewrite (sf_checks _ _ _ _ HE). apply with_expr_ren; [exact H|exact Hi|]. intros u u' v Hu. pose proof (ir_nv _ (nv_print n (overflow_checks E2) v)) as HB.
    destruct (print_text n (overflow_checks E2) v); try (apply ps_same; [exact Hu|exact HB]). apply write_ren. exact Hu.
  - rewrite app_nil_r in Hi. apply with_expr_ren; [exact H|exact Hi|]. intros u u' v Hu. destruct inter; [apply write_ren; exact Hu|apply ps_same; [exact Hu|reflexivity]].
Qed.
(** ** Commands *)
Lemma command_ren n inter r1 r2 c1 c2 : renamed_command X r c1 c2 -> agree_on_via X r r1 r2 -> ws (seen r1) (seen r2) ->
  snd (rt_eval n E2 inter r2 c2) = rename_result r (snd (rt_eval n E1 inter r1 c1)) /\
  agree_on_via X r (fst (rt_eval n E1 inter r1 c1)) (fst (rt_eval n E2 inter r2 c2)) /\
  ws (seen (fst (rt_eval n E1 inter r1 c1))) (seen (fst (rt_eval n E2 inter r2 c2))).
Proof.
  intros Hc Ha Hw. pose proof Ha as [Hk Hd Hv Hf]. unfold rt_eval. destruct Hc as [(l & Hp1 & Hi & Hp2)|[-> ->]]; [|split; [reflexivity|split; assumption]].
  rewrite Hp1, Hp2. pose proof Hk as Hk'. apply agree_via_iff in Hk'. pose proof Hv as Hv'. apply agree_via_iff in Hv'.
  assert (Han : spag (analyze (r_sem r1) l) (analyze (r_sem r2) (map (rename_stmt r) l))).
  { apply list_ren; [|split; assumption]. apply Forall_forall. intros st Hst. apply analyze_stmt_ren. exact (flat_incl X mentions l st Hi Hst). }
  destruct (analyze (r_sem r1) l) as [m1 a1], (analyze (r_sem r2) (map (rename_stmt r) l)) as [m2 a2]. destruct Han as [[Hm Hmd] Han]. cbn [fst snd] in *. apply agree_via_iff in Hm.
  destruct a1, a2; cbn [rr] in Han; try tauto; subst; try (split; [try reflexivity; destruct e; reflexivity|]; split; [constructor; assumption|exact Hw]). unfold eval_prog.
  destruct (run_list_ren (eval_stmt n E1 inter) (eval_stmt n E2 inter) l) with (s1 := r_eval r1) (s2 := r_eval r2) as [H1 H2].
  - apply Forall_forall. intros st Hst. apply stmt_ren. exact (flat_incl X mentions l st Hi Hst).
  - split; [exact Hv'|]. split; [exact Hf|exact Hw].
  - destruct (run_list (eval_stmt n E1 inter) (r_eval r1) l) as [s1 q1], (run_list (eval_stmt n E2 inter) (r_eval r2) (map (rename_stmt r) l)) as [s2 q2]. cbn [fst snd] in *.
    destruct H2 as (H2 & H3 & H4). apply agree_via_iff in H2. split; [|split; [constructor; assumption|exact H4]].
    destruct q1; cbn [ir] in H1; subst q2; try reflexivity. destruct e; reflexivity.
Qed.
Lemma commands_ren n inter cmds1 cmds2 : Forall2 (renamed_command X r) cmds1 cmds2 ->
  forall r1 r2, agree_on_via X r r1 r2 -> ws (seen r1) (seen r2) ->
  snd (entering n E2 inter r2 cmds2) = map (rename_result r) (snd (entering n E1 inter r1 cmds1)) /\
  agree_on_via X r (fst (entering n E1 inter r1 cmds1)) (fst (entering n E2 inter r2 cmds2)) /\
  ws (seen (fst (entering n E1 inter r1 cmds1))) (seen (fst (entering n E2 inter r2 cmds2))).
Proof.
  induction 1 as [|c1 c2 cmds1 cmds2 Hc _ IH]; intros r1 r2 Ha Hw; cbn [entering]; [split; [reflexivity|split; assumption]|].
  pose proof (command_ren n inter r1 r2 c1 c2 Hc Ha Hw) as H.
  destruct (rt_eval n E1 inter r1 c1) as [u1 a1], (rt_eval n E2 inter r2 c2) as [u2 a2]. cbn [fst snd] in *. destruct H as (-> & H2 & H3). specialize (IH u1 u2 H2 H3).
  destruct (entering n E1 inter u1 cmds1) as [t1 l1], (entering n E2 inter u2 cmds2) as [t2 l2]. cbn [fst snd map] in *. destruct IH as (-> & H4 & H5). split; [reflexivity|split; assumption].
Qed.
End Run.

(** ** Fresh debuggers *)
Lemma assoc_fold {A B} (name : A -> str) (mk : A -> B) l m x :
  ~ In x (map name l) ->
  assoc x (fold_left (fun m a => scope_insert (name a) (mk a) m) l m) = assoc x m.
Proof.
  revert m. induction l as [|a l IH]; intros m Hx; [reflexivity|]. cbn [fold_left map] in *. rewrite IH by (intros H; apply Hx; right; exact H).
  apply assoc_insert_neq. intros ->. apply Hx. left. reflexivity.
Qed.
Lemma new_undefined {A} (mc : Z -> A) mf x j : ~ predefined x -> binding (vars_new mc mf) j x = None.
Proof.
  intros Hx. unfold vars_new, binding. destruct j as [|[|j]]; try reflexivity. cbn [nth_error].
  rewrite (assoc_fold func_name mf FUNCTIONS) by (intros H; apply Hx; right; exact H).
  rewrite (assoc_fold fst (fun c => mc (snd c)) CONSTANTS) by (intros H; apply Hx; left; exact H). reflexivity.
Qed.
Lemma predefined_dec x : predefined x \/ ~ predefined x.
Proof.
  unfold predefined. destruct (in_dec (list_eq_dec N.eq_dec) x (map fst CONSTANTS)); [tauto|]. destruct (in_dec (list_eq_dec N.eq_dec) x (map func_name FUNCTIONS)); tauto.
Qed.
Lemma new_via {A} (mc : Z -> A) mf : (forall x, In x X -> predefined x -> r x = x) -> (forall x, In x X -> ~ predefined x -> ~ predefined (r x)) ->
  agree_via X r (vars_new mc mf) (vars_new mc mf).
Proof.
  intros H1 H2. split; [reflexivity|]. intros x Hx j. destruct (predefined_dec x) as [Hp|Hp]; [rewrite (H1 x Hx Hp); reflexivity|].
  rewrite !new_undefined by auto. reflexivity.
Qed.
Lemma fresh_via E : (forall x, In x X -> predefined x -> r x = x) -> (forall x, In x X -> ~ predefined x -> ~ predefined (r x)) -> agree_on_via X r (rt_new E) (rt_new E).
Proof.
  intros H1 H2. constructor; try reflexivity; [apply new_via; assumption|].
  replace (e_vars (r_eval (rt_new E))) with (vars_new VInt VFun); [apply new_via; assumption|].
  cbn. unfold eval_new. destruct (getcwd E); [|reflexivity]. destruct (fs_new E s _); reflexivity.
Qed.
End Vars.
