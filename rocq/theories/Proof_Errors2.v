(** C84: reported errors against Spec_Errors; statements. *)
From Verif Require Import Base Ast Structs Definitions Value Variables Fs Eval Errors Lib Spec_Arith Spec_Vars Spec_Search Spec_Text Spec_Run Spec_Lang Spec_Exec Spec_Errors
  Proof_Arith Proof_Vars Proof_Run Proof_Search2 Proof_Session Proof_Text Proof_Lang Proof_Exec Proof_Errors.
Require Import Lia ZArith.
Arguments s_ s%string_scope.

(** ** One expression of a given kind *)
Lemma fails_iff E s e kd w m : Spec_Errors.expr_fails E s e kd w m <->
  (exists er, evals E s e w (Err er) /\ message er = m) \/
  (exists v, evals E s e w (Ok v) /\ ~ has_kind kd v /\ m = expected_text (kind_word kd) (short_display v)).
Proof.
  unfold Spec_Errors.expr_fails. rewrite evals_reports. split.
  - intros H. inversion H; subst.
    + left. assumption.
    + right. exists v. split; [apply evals_value; assumption|]. split; [assumption|]. match goal with HH : described _ _ |- _ => apply described_fun in HH; subst end. reflexivity.
    + match goal with HH : reports_first _ _ _ [] _ _ _ |- _ => inversion HH end.
  - intros [H|(v & H1 & H2 & ->)]; [apply rf_fails; exact H|]. eapply rf_kind; [apply evals_value; exact H1|exact H2|apply described_short].
Qed.
Lemma fails_any E s e w m : Spec_Errors.expr_fails E s e KAny w m <-> exists er, evals E s e w (Err er) /\ message er = m.
Proof. rewrite fails_iff. split; [intros [H|(v & _ & H & _)]; [exact H|elim H; constructor]|auto]. Qed.

(** ** Places *)
Lemma place_text k E vs f e : forall w w' er, find_place k E vs f e w = (w', Err er) -> place_reports E vs f e w w' (message er).
Proof.
  induction e; intros w w' er H; cbn [find_place] in H; unfold mret in H; try discriminate H;
    try (injection H as <- <-; first [apply pl_value; eauto 6|constructor]; fail).
  - destruct e2; try (injection H as <- <-; apply pl_field_ident; discriminate).
    apply mbind_err in H. destruct H as [(w1 & p & H1 & H2)|H1]; [discriminate H2|]. apply pl_field. apply IHe1. exact H1.
  - apply mbind_err in H. destruct H as [(w1 & iv & H1 & H2)|H1].
    + pose proof (ev_gives _ _ _ _ _ _ _ _ H1) as G. apply mbind_err in H2. destruct H2 as [(w2 & z & H3 & H4)|H3].
      * destruct iv; try discriminate H3. injection H3 as <- <-. apply mbind_err in H4. destruct H4 as [(w3 & p & H5 & H6)|H5]; [discriminate H6|].
        eapply pl_index_of; [exact G|]. apply IHe1. exact H5.
      * assert (Hk : ~ has_kind KInt iv) by (intros Hk; inversion Hk; subst; discriminate H3).
        assert (Hm : w1 = w' /\ message er = expected_text (kind_word KInt) (short_display iv)) by (destruct iv; try discriminate H3; injection H3 as <- <-; split; reflexivity).
        destruct Hm as [<- ->]. apply pl_index. eapply rf_kind; [exact G|exact Hk|apply described_short].
    + apply pl_index. apply rf_fails. eapply eval_reports. exact H1.
Qed.
Lemma place_text_back E vs f e w w' m : place_reports E vs f e w w' m -> exists K, forall k, K <= k -> exists er, find_place k E vs f e w = (w', Err er) /\ message er = m.
Proof.
  intros H. induction H as [e n w w' m H [K IH]|e x w Hx|e i w w' m Hi|e i z w w1 w' m Hi H [K IH]|e w He| | | |].
  - exists K. intros k Hk. destruct (IH k Hk) as (er & H1 & H2). cbn [find_place]. unfold mbind. rewrite H1. eauto.
  - exists 0. intros k _. destruct x; try (eexists; split; reflexivity). elim (Hx _ eq_refl).
  - inversion Hi; subst.
    + match goal with HH : reports _ _ _ _ _ _ _ |- _ => apply reports_complete in HH; destruct HH as [K HH]; exists K; intros k Hk; destruct (HH k Hk) as (er & H1 & H2) end.
      cbn [find_place]. unfold mbind. rewrite H1. eauto.
    + match goal with HH : gives _ _ _ _ _ _ _ |- _ => apply gives_up in HH; destruct HH as [K HH]; exists K; intros k Hk; specialize (HH k Hk) end.
      match goal with HH : described _ _ |- _ => apply described_fun in HH; subst end.
      cbn [find_place]. unfold mbind. match goal with HH : eval_expr _ _ _ _ _ _ = _ |- _ => rewrite HH end. unfold mret.
      destruct v; try (eexists; split; reflexivity). match goal with HH : ~ has_kind _ _ |- _ => elim HH; constructor end.
    + match goal with HH : reports_first _ _ _ [] _ _ _ |- _ => inversion HH end.
  - apply gives_up in Hi. destruct Hi as [K0 Hi]. exists (Nat.max K K0). intros k Hk. destruct (IH k ltac:(lia)) as (er & H1 & H2).
    cbn [find_place]. unfold mbind, mret. rewrite Hi by lia. cbn [as_integer]. rewrite H1. eauto.
  - exists 0. intros k _. destruct He as [[z ->]|[[b ->]|[[t ->]|[a ->]]]]; eexists; split; reflexivity.
  - exists 0. intros k _. eexists; split; reflexivity.
  - exists 0. intros k _. eexists; split; reflexivity.
  - exists 0. intros k _. eexists; split; reflexivity.
  - exists 0. intros k _. eexists; split; reflexivity.
Qed.
Lemma find_place_up k k' E vs f e : forall w w' er, k <= k' -> find_place k E vs f e w = (w', Err er) -> find_place k' E vs f e w = (w', Err er).
Proof.
  induction e; intros wa wb er Hle H; cbn [find_place] in H |- *; try exact H.
  - destruct e2; try exact H. apply mbind_err in H. destruct H as [(w1 & p & H1 & H2)|H1]; [discriminate H2|]. unfold mbind. rewrite (IHe1 _ _ _ Hle H1). reflexivity.
  - apply mbind_err in H. destruct H as [(w1 & p & H1 & H2)|H1].
    + unfold mbind at 1. rewrite (eval_expr_mono k k' E vs f e2 Hle _ _ _ H1); [|discriminate]. apply mbind_err in H2. destruct H2 as [(w2 & z & H3 & H4)|H3].
      * unfold mbind at 1. unfold mret in H3. unfold mret at 1. injection H3 as <- ->. apply mbind_err in H4. destruct H4 as [(w3 & q & H5 & H6)|H5]; [discriminate H6|].
        unfold mbind. rewrite (IHe1 _ _ _ Hle H5). reflexivity.
      * unfold mret in H3. unfold mbind at 1. unfold mret at 1. injection H3 as <- ->. reflexivity.
    + unfold mbind at 1. rewrite (eval_expr_mono k k' E vs f e2 Hle _ _ _ H1); [reflexivity|discriminate].
Qed.
Lemma path_text leaf p : forall old er, path_apply p (fun _ => Ok leaf) old = Err er -> path_reports old p (message er).
Proof.
  induction p as [|st p IH]; intros old er; cbn [path_apply]; [discriminate|].
  set (g := path_apply p (fun _ => Ok leaf)) in *. destruct st as [z|n]; cbn [step_apply].
  - destruct old as [y|y|y|l h|y|y y1 y2]; try (intros [= <-]; apply pp_index; intros Hk; inversion Hk).
    unfold try_into_u. destruct (Z.leb_spec 0 z) as [H0|H0]; destruct (Z.ltb_spec z (2 ^ 64)) as [H1|H1]; cbn [andb bind]; try (intros [= <-]; apply pp_range; lia).
    destruct (Z.ltb_spec z (zlen l)) as [H2|H2]; [|intros [= <-]; apply pp_no_element; lia].
    destruct (nth_error l (Z.to_nat z)) as [x|] eqn:En.
    2:{ apply nth_error_None in En. unfold zlen in H2. lia. }
    cbn [ok_or bind]. destruct (g x) as [x'|er'|pp|] eqn:Eg; try discriminate. cbn [bind]. intros [= <-].
    destruct (nth_error_split' _ _ _ En) as [Hs Hl]. rewrite Hs. apply pp_in_element; [unfold zlen; lia|exact H1|]. apply IH. exact Eg.
  - destruct old as [y|y|y|l h|y|nm key ms]; try (intros [= <-]; apply pp_field; intros Hk; inversion Hk).
    pose proof (update_here n g ms) as Hu. destruct (assoc_update n g ms) as [r|].
    + destruct Hu as (l1 & a & l2 & -> & Hn & ->). destruct (g a) as [a'|er'|pp|] eqn:Eg; try discriminate. cbn [bind]. intros [= <-].
      apply pp_in_field; [exact Hn|]. apply IH. exact Eg.
    + intros [= <-]. apply pp_no_field. exact Hu.
Qed.
Lemma path_text_back leaf old p m : path_reports old p m -> exists er, path_apply p (fun _ => Ok leaf) old = Err er /\ message er = m.
Proof.
  intros H. induction H; cbn [path_apply]; try set (g := path_apply p (fun _ => Ok leaf)) in *; cbn [step_apply].
  - destruct v; try (eexists; split; reflexivity). match goal with HH : ~ has_kind _ _ |- _ => elim HH; constructor end.
  - pose proof (update_here n g ms) as Hu. destruct (assoc_update n g ms) as [r|]; [|eexists; split; reflexivity].
    exfalso. destruct Hu as (l1 & a & l2 & -> & _ & _). apply H. rewrite map_app, in_app_iff. right. left. reflexivity.
  - destruct IHpath_reports as (er & H1 & H2). pose proof (update_here n g (f1 ++ (n, a) :: f2)) as Hu.
    destruct (assoc_update n g (f1 ++ (n, a) :: f2)) as [r|].
    + destruct Hu as (l1 & b & l2 & He & Hn & ->). apply split_unique in He; [|assumption|assumption]. destruct He as (<- & <- & <-). rewrite H1. cbn [bind]. eauto.
    + exfalso. apply Hu. rewrite map_app, in_app_iff. right. left. reflexivity.
  - destruct v; try (eexists; split; reflexivity). match goal with HH : ~ has_kind _ _ |- _ => elim HH; constructor end.
  - unfold try_into_u. destruct (Z.leb_spec 0 z); destruct (Z.ltb_spec z (2 ^ 64)); cbn [andb bind]; try (exfalso; lia); eexists; split; reflexivity.
  - unfold try_into_u. assert (0 <= zlen l)%Z by (unfold zlen; lia). destruct (Z.leb_spec 0 z); [|lia]. destruct (Z.ltb_spec z (2 ^ 64)); [|lia]. cbn [andb bind].
    destruct (Z.ltb_spec z (zlen l)); [lia|]. eexists; split; reflexivity.
  - destruct IHpath_reports as (er & H2 & H3). subst z. unfold try_into_u. destruct (Z.leb_spec 0 (zlen l1)); [|unfold zlen in *; lia]. destruct (Z.ltb_spec (zlen l1) (2 ^ 64)); [|lia]. cbn [andb bind].
    destruct (Z.ltb_spec (zlen l1) (zlen (l1 ++ a :: l2))) as [Hlt|Hlt]; [|unfold zlen in Hlt; rewrite app_length in Hlt; cbn [length] in Hlt; lia].
    assert (En : nth_error (l1 ++ a :: l2) (Z.to_nat (zlen l1)) = Some a) by (unfold zlen; rewrite Nat2Z.id, nth_error_app2, Nat.sub_diag by lia; reflexivity).
    rewrite En. cbn [ok_or bind]. rewrite H2. cbn [bind]. eauto.
Qed.

(** ** From the interpreter to the rules *)
Section Sound.
Variable E : env.
Variable inter : bool.
Definition fsound (st : stmt) : Prop := forall s s' er, runs E inter s st s' (IErr er) -> fails E inter s st s' (message er).
Lemma expr_split n s e c s' er : with_expr n E s e c = (s', IErr er) ->
  (exists w v, has_value E s e w v /\ c (with_w s w) v = (s', IErr er)) \/ (exists w, Spec_Errors.expr_fails E s e KAny w (message er) /\ s' = with_w s w).
Proof.
  unfold with_expr. destruct (eval_expr n E (e_vars s) (e_fs s) e (e_w s)) as [w [v|er'|p|]] eqn:Ee; intros H; try discriminate.
  - left. exists w, v. split; [|exact H]. apply evals_value. split; [discriminate|]. exists n. exact Ee.
  - right. injection H as <- <-. exists w. split; [|reflexivity]. apply fails_any. exists er'. split; [|reflexivity]. split; [discriminate|]. exists n. exact Ee.
Qed.
Lemma write_split s txt s' er : do_write E s txt = (s', IErr er) -> write_fails E s txt s' /\ message er = None.
Proof.
  intros H. split; [eapply write_cases; [exact H|reflexivity]|]. unfold do_write in H. destruct (sink E (tick (e_w s)) txt); [discriminate|]. injection H as _ <-. reflexivity.
Qed.
Lemma assign_text lhs e : fsound (SAssign lhs e).
Proof.
  intros s s' er [_ [n H]]. destruct n as [|n]; [discriminate|]. cbn [eval_stmt] in H. change (with_expr n E s e (assign_body E lhs n) = (s', IErr er)) in H.
  destruct (expr_split _ _ _ _ _ _ H) as [(w & v & Hv & Hc)|(w & He & ->)]; [|apply fl_assign; exact He].
  assert (Hid : (exists x, lhs = EIdent x) \/ forall x, lhs <> EIdent x) by (destruct lhs; [left; eauto|..]; right; discriminate).
  destruct Hid as [[x ->]|Hx].
  - cbn [assign_body] in Hc. unfold est_insert in Hc. destruct (vars_insert x v (e_vars (with_w s w))); discriminate Hc.
  - destruct (find_place n E (e_vars (with_w s w)) (e_fs (with_w s w)) lhs (e_w (with_w s w))) as [w' rp] eqn:Ep.
    rewrite (assign_body_eq E lhs n (with_w s w) v w' rp Hx Ep) in Hc. cbn [e_vars e_fs e_w with_w] in Ep, Hc. destruct rp as [[x p]|er'|pp|]; try discriminate Hc.
    + assert (Hd : denotes E (e_vars s) (e_fs s) lhs w w' (Some (x, p))) by (eapply place_sound; [exact Ep|reflexivity]).
      unfold store in Hc. cbn [fst snd] in Hc. destruct (vars_get_binding x (e_vars s)) as [(i & Hi & Hg)|[Hu Hg]]; rewrite Hg in Hc.
      * destruct (binding (e_vars s) i x) as [old|] eqn:Eb; [|elim (proj1 Hi); exact Eb]. cbn [ok_or bind] in Hc.
        destruct (path_apply p (fun _ => Ok v) old) as [new|er'|pp|] eqn:Epa; cbn [bind] in Hc; try discriminate Hc.
        -- destruct (vars_replace x new (e_vars s)); discriminate Hc.
        -- injection Hc as <- <-. change (with_w (with_w s w) w') with (with_w s w'). eapply fl_store; try eassumption. eapply path_text. exact Epa.
      * injection Hc as <- <-. change (with_w (with_w s w) w') with (with_w s w'). change (message (EUnknownVariable x)) with (Some (s_ "Unknown variable: " ++ x)). eapply fl_unknown; eassumption.
    + injection Hc as <- <-. change (with_w (with_w s w) w') with (with_w s w'). eapply fl_target; [exact Hx|exact Hv|]. eapply place_text. exact Ep.
Qed.
Lemma simple_text st : match st with SIf _ _ _ | SWhile _ _ | SFor _ _ _ => True | _ => fsound st end.
Proof.
  destruct st; try exact I; try apply assign_text; intros s s' er [_ [n H]]; (destruct n as [|n]; [discriminate|]); cbn [eval_stmt] in H; try discriminate H.
  - apply write_split in H. destruct H as [H ->]. constructor. exact H.
  - destruct (expr_split _ _ _ _ _ _ H) as [(w & v & Hv & Hc)|(w & He & ->)]; [|apply fl_path; exact He].
    destruct v as [z|p|b|l h|g|nm key ms]; cbn [as_string] in Hc;
      try (injection Hc as <- <-; eapply fl_path_type; [exact Hv|discriminate|apply described_short]).
    destruct (fs_new E (escape true p) (e_w (with_w s w))) as [w' [f|er'|pp|]] eqn:Ef; try discriminate Hc; injection Hc as <- <-.
    change (with_w (with_w s w) w') with (with_w s w'). eapply fl_open; eassumption.
  - destruct (expr_split _ _ _ _ _ _ H) as [(w & v & Hv & Hc)|(w & He & ->)]; [|apply fl_print; exact He].
    destruct (print_text n (overflow_checks E) v) as [txt|er'|pp|] eqn:Ep; try discriminate Hc.
    + apply write_split in Hc. destruct Hc as [Hc ->]. eapply fl_print_write; [exact Hv| |exact Hc].
      destruct v as [z|p|b|l [|]|g|nm key ms]; cbn [print_text] in Ep; try (injection Ep as <-; apply pr_other; discriminate).
      * injection Ep as <-. apply pr_str.
      * eapply pr_hist. exact Ep.
    + injection Hc as <- <-. destruct v as [z|p|b|l [|]|g|nm key ms]; cbn [print_text] in Ep; try discriminate. eapply fl_hist; eassumption.
  - destruct (expr_split _ _ _ _ _ _ H) as [(w & v & Hv & Hc)|(w & He & ->)]; [|apply fl_expr; exact He].
    destruct inter eqn:Ei; [|discriminate Hc]. apply write_split in Hc. destruct Hc as [Hc ->]. eapply fl_expr_write; [reflexivity|exact Hv|exact Hc].
Qed.
Lemma run_exec s st s' r q : runs E inter s st s' r -> ends r = Some q -> executes E inter s st s' q.
Proof. intros H Hq. apply exec_iff. eauto. Qed.
Lemma run_exec_list s l s' r q : runs_list E inter s l s' r -> ends r = Some q -> executes_list E inter s l s' q.
Proof. intros H Hq. apply exec_list_iff. eauto. Qed.
Lemma list_text l : Forall fsound l -> forall s s' er, runs_list E inter s l s' (IErr er) -> fails_list E inter s l s' (message er).
Proof.
  intros Hl. induction Hl as [|st l Hs Hl IH]; intros s s' er H.
  - apply runs_list_nil in H. destruct H as [_ H]. discriminate H.
  - apply runs_list_cons in H. destruct H as [(s1 & H1 & H2)|[Hr H]].
    + eapply ff_later; [eapply run_exec; [exact H1|reflexivity]|]. apply IH. exact H2.
    + apply ff_here. apply Hs. exact H.
Qed.
Lemma while_text c b : Forall fsound b -> forall s s' r, whiles E inter c b s s' r -> forall er, r = IErr er -> loop_fails E inter c b s s' (message er).
Proof.
  intros Hb s s' r H. induction H; intros er Hr; try discriminate Hr.
  - destruct (goes_on_ends _ H1) as (q' & Hq' & Hg). eapply lf_later; [apply evals_value; eassumption|eapply run_exec_list; eassumption|exact Hg|auto].
  - subst q. eapply lf_body; [apply evals_value; eassumption|]. apply list_text; assumption.
  - injection Hr as <-. apply lf_condition. apply fails_iff. right. exists v. split; [assumption|]. split; [apply not_bool; assumption|reflexivity].
  - injection Hr as <-. apply lf_condition. apply fails_iff. left. eauto.
Qed.
Lemma for_text x b : Forall fsound b -> forall items s s' r, iterates E inter x b items s s' r -> forall er, r = IErr er -> each_fails E inter x b items s s' (message er).
Proof.
  intros Hb items s s' r H. induction H; intros er Hr; try discriminate Hr.
  - destruct (goes_on_ends _ H1) as (q' & Hq' & Hg). eapply ef_later; [eassumption|eapply run_exec_list; eassumption|exact Hg|auto].
  - subst q. eapply ef_body; [eassumption|]. apply list_text; assumption.
Qed.
Lemma stmt_text st : fsound st.
Proof.
  induction st as [lhs e|c tb fb IHt IHf|c b IH|i rg b IH| | | | |e|e|e] using stmt_ind'.
  all: try exact (simple_text (SAssign lhs e)); try exact (simple_text SBreak); try exact (simple_text SContinue); try exact (simple_text SHelp);
    try exact (simple_text SQuit); try exact (simple_text (SFilesystem e)); try exact (simple_text (SPrint e)); try exact (simple_text (SExpr e)).
  - intros s s' er H. apply runs_if in H. destruct H as (s1 & -> & [(w & t & Hc & Hb)|[(w & v & Hc & Hv & -> & Hr)|[(w & er' & Hc & -> & Hr)|(w & p & Hc & -> & Hr)]]]); try discriminate Hr.
    + eapply fl_if; [apply evals_value; exact Hc|]. destruct t; apply list_text; assumption.
    + injection Hr as ->. change (leave (with_w (enter s) w)) with (with_w s w). apply fl_condition. apply fails_iff. right. exists v. split; [exact Hc|]. split; [apply not_bool; exact Hv|reflexivity].
    + injection Hr as ->. change (leave (with_w (enter s) w)) with (with_w s w). apply fl_condition. apply fails_iff. left. eauto.
  - intros s s' er H. apply runs_while in H. destruct H as (s1 & H & ->). apply fl_while. eapply while_text; [exact IH|exact H|reflexivity].
  - intros s s' er H. assert (Hid : (exists x, i = EIdent x) \/ forall x, i <> EIdent x) by (destruct i; [left; eauto|..]; right; discriminate).
    destruct Hid as [[x ->]|Hx].
    + apply runs_for in H. destruct H as (s1 & -> & [(w & items & h & Hc & Hb)|[(w & v & Hc & Hv & -> & Hr)|[(w & er' & Hc & -> & Hr)|(w & p & Hc & -> & Hr)]]]); try discriminate Hr.
      * eapply fl_for; [apply evals_value; exact Hc|]. eapply for_text; [exact IH|exact Hb|reflexivity].
      * injection Hr as ->. change (leave (with_w (enter s) w)) with (with_w s w). apply fl_range. apply fails_iff. right. exists v. split; [exact Hc|]. split; [apply not_array; exact Hv|reflexivity].
      * injection Hr as ->. change (leave (with_w (enter s) w)) with (with_w s w). apply fl_range. apply fails_iff. left. eauto.
    + destruct H as [_ [n H]]. destruct n as [|n]; [discriminate|]. cbn [eval_stmt] in H.
      assert (Hn : (s, IErr EForIdent) = (s', IErr er)).
      { rewrite <- H. destruct i; try (elim (Hx _ eq_refl)); destruct s; reflexivity. }
      injection Hn as <- <-. apply fl_for_name. exact Hx.
Qed.
Lemma stmts_text l : Forall fsound l.
Proof. induction l; constructor; [apply stmt_text|assumption]. Qed.
End Sound.

(** ** From the rules to the interpreter *)
Scheme fails_ind4 := Induction for fails Sort Prop
  with fails_list_ind4 := Induction for fails_list Sort Prop
  with loop_fails_ind4 := Induction for loop_fails Sort Prop
  with each_fails_ind4 := Induction for each_fails Sort Prop.
Combined Scheme fails_mind from fails_ind4, fails_list_ind4, loop_fails_ind4, each_fails_ind4.
Section Complete.
Variable E : env.
Variable inter : bool.
Definition fcomplete s st s' m : Prop := exists er, runs E inter s st s' (IErr er) /\ message er = m.
Lemma fof_step s st s' er m : (exists n, eval_stmt (S n) E inter s st = (s', IErr er)) -> message er = m -> fcomplete s st s' m.
Proof. intros [n H] Hm. exists er. split; [|exact Hm]. split; [discriminate|]. exists (S n). exact H. Qed.
Lemma fof_expr s st e w v c s' er m : (forall n, eval_stmt (S n) E inter s st = with_expr n E s e (c n)) ->
  has_value E s e w v -> (exists K, forall k, K <= k -> c k (with_w s w) v = (s', IErr er)) -> message er = m -> fcomplete s st s' m.
Proof. intros Hst Hv Hc Hq. destruct (expr_runs E s e w v c s' _ Hv Hc) as [n Hn]. eapply fof_step; [exists n; rewrite Hst; exact Hn|exact Hq]. Qed.
Lemma fof_error s st e w c m : (forall n, eval_stmt (S n) E inter s st = with_expr n E s e (c n)) ->
  Spec_Errors.expr_fails E s e KAny w m -> fcomplete s st (with_w s w) m.
Proof.
  intros Hst H. apply fails_any in H. destruct H as (er & [_ [n H]] & Hm). apply fof_step with (er := er); [|exact Hm]. exists n. rewrite Hst. unfold with_expr. rewrite H. reflexivity.
Qed.
Lemma fof_writes s txt s' : write_fails E s txt s' -> do_write E s txt = (s', IErr EWrite).
Proof. intros H. unfold write_fails in H. inversion H; subst. unfold do_write, tick. match goal with HH : sink _ _ _ = _ |- _ => rewrite HH end. reflexivity. Qed.
Lemma fof_assign s lhs e w v w' s' er : has_value E s e w v -> (forall x, lhs <> EIdent x) ->
  (exists K, forall k, K <= k -> exists rp, find_place k E (e_vars s) (e_fs s) lhs w = (w', rp) /\
     match rp with
     | Ok p => match store (e_vars s) (fun _ => Ok v) p with Ok vs => (mk_est vs (e_fs s) w', IOk) | r => (with_w s w', ires_of r) end
     | Err e => (with_w s w', IErr e) | Panic p => (with_w s w', IPanic p) | Fuel => (with_w s w', IFuel)
     end = (s', IErr er)) -> fcomplete s (SAssign lhs e) s' (message er).
Proof.
  intros Hv Hx [K H]. apply (fof_expr s _ e w v (assign_body E lhs) s' er); [reflexivity|exact Hv| |reflexivity]. exists K. intros k Hk.
  destruct (H k Hk) as (rp & Hp & Hr). rewrite (assign_body_eq E lhs k (with_w s w) v w' rp Hx Hp). exact Hr.
Qed.
Lemma place_some k vs f e w w' x p : forall rp, find_place k E vs f e w = (w', rp) -> showsp rp = Some (Some (x, p)) -> rp = Ok (x, p).
Proof. intros rp _ H. destruct rp; try discriminate. injection H as ->. reflexivity. Qed.
Notation fs_body := (fun (_ : nat) s v => match as_string true v with Ok p => let '(w, r) := fs_new E p (e_w s) in match r with Ok f => (mk_est (e_vars s) (Some f) w, IOk) | _ => (with_w s w, ires_of r) end | r => (s, ires_of r) end).
Notation print_body := (fun n s v => match print_text n (overflow_checks E) v with Ok txt => do_write E s (txt ++ nl) | r => (s, ires_of r) end).
Notation expr_body := (fun (_ : nat) s v => if inter then do_write E s (display v ++ nl) else (s, IOk)).
Lemma all_text :
  (forall s st s' m, fails E inter s st s' m -> fcomplete s st s' m) /\
  (forall s l s' m, fails_list E inter s l s' m -> exists er, runs_list E inter s l s' (IErr er) /\ message er = m) /\
  (forall c b s s' m, loop_fails E inter c b s s' m -> exists er, whiles E inter c b s s' (IErr er) /\ message er = m) /\
  (forall x b items s s' m, each_fails E inter x b items s s' m -> exists er, iterates E inter x b items s s' (IErr er) /\ message er = m).
Proof.
  apply (fails_mind E inter (fun s st s' m _ => fcomplete s st s' m)
    (fun s l s' m _ => exists er, runs_list E inter s l s' (IErr er) /\ message er = m)
    (fun c b s s' m _ => exists er, whiles E inter c b s s' (IErr er) /\ message er = m)
    (fun x b items s s' m _ => exists er, iterates E inter x b items s s' (IErr er) /\ message er = m)).
  - intros lhs e s w m He. eapply (fof_error s _ e w (assign_body E lhs)); [reflexivity|exact He].
  - intros lhs e s w v w' m Hx Hv Hp. apply place_text_back in Hp. destruct Hp as [K Hp]. destruct (Hp K (le_n K)) as (er & H1 & <-).
    apply fof_assign with (w := w) (v := v) (w' := w'); [exact Hv|exact Hx|]. exists K. intros k Hk. exists (Err er). split; [|reflexivity].
    destruct (Hp k Hk) as (er' & H1' & _). assert (He : er' = er); [|subst; exact H1']. clear - H1 H1' Hk.
    rewrite (find_place_up _ _ _ _ _ _ _ _ _ Hk H1) in H1'. congruence.
  - intros lhs e s w v w' x p Hx Hv Hd Hu. change (Some (s_ "Unknown variable: " ++ x)) with (message (EUnknownVariable x)). apply place_complete in Hd. destruct Hd as [K Hd].
    apply fof_assign with (w := w) (v := v) (w' := w'); [exact Hv|exact Hx|]. exists K. intros k Hk. destruct (Hd k Hk) as (rp & H1 & H2).
    assert (rp = Ok (x, p)) by (destruct rp; try discriminate; injection H2 as ->; reflexivity). subst rp. exists (Ok (x, p)). split; [exact H1|].
    unfold store. cbn [fst snd]. rewrite (proj2 (vars_get_none _ _) Hu). reflexivity.
  - intros lhs e s w v w' x p i old m Hx Hv Hd Hi Hb Hp. apply (path_text_back v) in Hp. destruct Hp as (er & Hp & <-). apply place_complete in Hd. destruct Hd as [K Hd].
    apply fof_assign with (w := w) (v := v) (w' := w'); [exact Hv|exact Hx|]. exists K. intros k Hk. destruct (Hd k Hk) as (rp & H1 & H2).
    assert (rp = Ok (x, p)) by (destruct rp; try discriminate; injection H2 as ->; reflexivity). subst rp. exists (Ok (x, p)). split; [exact H1|].
    unfold store. cbn [fst snd]. rewrite (vars_get_innermost _ _ _ Hi), Hb. cbn [ok_or bind]. rewrite Hp. reflexivity.
  - intros c tb fb s w m He. apply fails_iff in He. destruct He as [(er & He & Hm)|(v & Hv & Hk & ->)].
    + exists er. split; [|exact Hm]. apply runs_if. exists (with_w (enter s) w). split; [reflexivity|]. right. right. left. eauto.
    + exists (expected "boolean" v). split; [|reflexivity]. apply runs_if. exists (with_w (enter s) w). split; [reflexivity|]. right. left. exists w, v. split; [exact Hv|]. split; [apply not_bool; exact Hk|auto].
  - intros c tb fb s w t s' m Hc _ (er & Hr & Hm). exists er. split; [|exact Hm]. apply runs_if. exists s'. split; [reflexivity|]. left. exists w, t. split; [apply evals_value; exact Hc|exact Hr].
  - intros c b s s' m _ (er & Hr & Hm). exists er. split; [|exact Hm]. apply runs_while. eauto.
  - intros x r0 b s w m He. apply fails_iff in He. destruct He as [(er & He & Hm)|(v & Hv & Hk & ->)].
    + exists er. split; [|exact Hm]. apply runs_for. exists (with_w (enter s) w). split; [reflexivity|]. right. right. left. eauto.
    + exists (expected "array" v). split; [|reflexivity]. apply runs_for. exists (with_w (enter s) w). split; [reflexivity|]. right. left. exists w, v. split; [exact Hv|]. split; [apply not_array; exact Hk|auto].
  - intros x r0 b s w items h s' m Hc _ (er & Hr & Hm). exists er. split; [|exact Hm]. apply runs_for. exists s'. split; [reflexivity|]. left. exists w, items, h. split; [apply evals_value; exact Hc|exact Hr].
  - intros i r0 b s Hx. apply (fof_step s (SFor i r0 b) s EForIdent); [|reflexivity]. exists 0. cbn [eval_stmt]. destruct i; try (elim (Hx _ eq_refl)); destruct s; reflexivity.
  - intros s s' Hw. apply fof_writes in Hw. eapply fof_step; [exists 0; exact Hw|reflexivity].
  - intros e s w m He. eapply (fof_error s _ e w fs_body); [reflexivity|exact He].
  - intros e s w v t Hv Hn Hd. apply described_fun in Hd. subst t.
    eapply (fof_expr s _ e w v fs_body (with_w s w) (expected "string" v)); [reflexivity|exact Hv|exists 0; intros k _; destruct v; try reflexivity; elim (Hn _ eq_refl)|reflexivity].
  - intros e s w path w' er Hv Hf.
    eapply (fof_expr s _ e w _ fs_body); [reflexivity|exact Hv|exists 0; intros k _; cbn [as_string e_w with_w]; rewrite Hf; reflexivity|reflexivity].
  - intros e s w m He. eapply (fof_error s _ e w print_body); [reflexivity|exact He].
  - intros e s w l k0 er Hv Hh.
    eapply (fof_expr s _ e w _ print_body); [reflexivity|exact Hv|exists k0; intros k Hk; assert (Ht : as_hist k (overflow_checks E) l = Err er) by (rewrite (as_hist_mono k0 k _ _ Hk); [exact Hh|rewrite Hh; discriminate]); cbn [print_text]; rewrite Ht; reflexivity|reflexivity].
  - intros e s w v txt s' Hv Hp Hw. apply fof_writes in Hw.
    eapply (fof_expr s _ e w v print_body s' EWrite); [reflexivity|exact Hv| |reflexivity].
    assert (Ht : exists K, forall k, K <= k -> print_text k (overflow_checks E) v = Ok txt).
    { inversion Hp as [k0 l txt0 Hh|str0|v0 Hn1 Hn2]; subst.
      - exists k0. intros k Hk. cbn [print_text]. rewrite (as_hist_mono k0 k _ _ Hk); [exact Hh|rewrite Hh; discriminate].
      - exists 0. reflexivity.
      - exists 0. intros k _. destruct v as [z|p|b|l [|]|g|nm key ms]; try reflexivity; [elim (Hn2 _ eq_refl)|elim (Hn1 _ eq_refl)]. }
    destruct Ht as [K Ht]. exists K. intros k Hk. rewrite Ht by exact Hk. exact Hw.
  - intros e s w m He. eapply (fof_error s _ e w expr_body); [reflexivity|exact He].
  - intros e s w v s' Hi Hv Hw. apply fof_writes in Hw.
    eapply (fof_expr s _ e w v expr_body s' EWrite); [reflexivity|exact Hv| |reflexivity]. exists 0. intros k _. rewrite Hi. exact Hw.
  - intros s st l s' m _ (er & Hr & Hm). exists er. split; [|exact Hm]. apply runs_list_cons. right. split; [discriminate|exact Hr].
  - intros s st l s1 s' m Hx _ (er & Hr & Hm). exists er. split; [|exact Hm]. apply runs_list_cons. left. apply exec_iff in Hx. destruct Hx as (r1 & H1 & Hq1).
    assert (r1 = IOk) by (destruct r1; discriminate || reflexivity). subst r1. eauto.
  - intros c b s w m He. apply fails_iff in He. destruct He as [(er & He & Hm)|(v & Hv & Hk & ->)].
    + exists er. split; [|exact Hm]. apply wh_cond_err. exact He.
    + exists (expected "boolean" v). split; [|reflexivity]. eapply wh_not_bool; [exact Hv|]. apply not_bool. exact Hk.
  - intros c b s w s' m Hv _ (er & Hr & Hm). exists er. split; [|exact Hm]. eapply wh_abort; [apply evals_value; exact Hv|exact Hr|discriminate|discriminate|discriminate].
  - intros c b s w s1 q s' m Hv Hx Hg _ (er & Hr & Hm). exists er. split; [|exact Hm]. apply exec_list_iff in Hx. destruct Hx as (r1 & H1 & Hq1).
    eapply wh_again; [apply evals_value; exact Hv|exact H1| |exact Hr]. eapply ends_goes_on; eassumption.
  - intros x b v items s s1 s' m Ha _ (er & Hr & Hm). exists er. split; [|exact Hm]. eapply it_abort; [exact Ha|exact Hr|discriminate|discriminate|discriminate].
  - intros x b v items s s1 s2 q s' m Ha Hx Hg _ (er & Hr & Hm). exists er. split; [|exact Hm]. apply exec_list_iff in Hx. destruct Hx as (r1 & H1 & Hq1).
    eapply it_next; [exact Ha|exact H1| |exact Hr]. eapply ends_goes_on; eassumption.
Qed.
End Complete.
Lemma stmt_fails_iff E inter s st s' m : (exists er, runs E inter s st s' (IErr er) /\ message er = m) <-> fails E inter s st s' m.
Proof. split; [intros (er & H & <-); apply stmt_text; exact H|apply all_text]. Qed.
Lemma list_fails_iff E inter s l s' m : (exists er, runs_list E inter s l s' (IErr er) /\ message er = m) <-> fails_list E inter s l s' m.
Proof. split; [intros (er & H & <-); apply list_text; [apply stmts_text|exact H]|apply all_text]. Qed.
