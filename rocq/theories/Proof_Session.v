From Verif Require Import Base Ast Pom Parse Structs Definitions Value Variables Semantics Fs Eval Runtime Lib Spec_Vars Proof_Vars Spec_Session.

(** induction over statements with nested lists *)
Section StmtInd.
Variable P : stmt -> Prop.
Hypothesis Hassign : forall l e, P (SAssign l e).
Hypothesis Hif : forall c tb fb, Forall P tb -> Forall P fb -> P (SIf c tb fb).
Hypothesis Hwhile : forall c b, Forall P b -> P (SWhile c b).
Hypothesis Hfor : forall i r b, Forall P b -> P (SFor i r b).
Hypothesis Hbreak : P SBreak.
Hypothesis Hcontinue : P SContinue.
Hypothesis Hhelp : P SHelp.
Hypothesis Hquit : P SQuit.
Hypothesis Hfs : forall e, P (SFilesystem e).
Hypothesis Hprint : forall e, P (SPrint e).
Hypothesis Hexpr : forall e, P (SExpr e).
Fixpoint stmt_ind' (st : stmt) : P st :=
  let all := fix all (l : list stmt) : Forall P l :=
    match l with [] => Forall_nil P | x :: l' => Forall_cons x (stmt_ind' x) (all l') end in
  match st with
  | SAssign l e => Hassign l e
  | SIf c tb fb => Hif c tb fb (all tb) (all fb)
  | SWhile c b => Hwhile c b (all b)
  | SFor i r b => Hfor i r b (all b)
  | SBreak => Hbreak
  | SContinue => Hcontinue
  | SHelp => Hhelp
  | SQuit => Hquit
  | SFilesystem e => Hfs e
  | SPrint e => Hprint e
  | SExpr e => Hexpr e
  end.
End StmtInd.

Section ExprInd.
Variable P : expr -> Prop.
Hypothesis Hident : forall x, P (EIdent x).
Hypothesis Hint : forall z, P (EInt z).
Hypothesis Hbool : forall b, P (EBool b).
Hypothesis Hstr : forall s, P (EStr s).
Hypothesis Hparen : forall e, P e -> P (EParen e).
Hypothesis Hfield : forall e f, P e -> P f -> P (EField e f).
Hypothesis Hindex : forall e i, P e -> P i -> P (EIndex e i).
Hypothesis Hcall : forall f args, P f -> Forall P args -> P (ECall f args).
Hypothesis Hbin : forall op l r, P l -> P r -> P (EBin op l r).
Hypothesis Hun : forall op e, P e -> P (EUn op e).
Hypothesis Hcast : forall t e, P t -> P e -> P (ECast t e).
Fixpoint expr_ind' (e : expr) : P e :=
  let all := fix all (l : list expr) : Forall P l :=
    match l with [] => Forall_nil P | x :: l' => Forall_cons x (expr_ind' x) (all l') end in
  match e with
  | EIdent x => Hident x
  | EInt z => Hint z
  | EBool b => Hbool b
  | EStr s => Hstr s
  | EParen e => Hparen e (expr_ind' e)
  | EField e f => Hfield e f (expr_ind' e) (expr_ind' f)
  | EIndex e i => Hindex e i (expr_ind' e) (expr_ind' i)
  | ECall f args => Hcall f args (expr_ind' f) (all args)
  | EBin op l r => Hbin op l r (expr_ind' l) (expr_ind' r)
  | EUn op e => Hun op e (expr_ind' e)
  | ECast t e => Hcast t e (expr_ind' t) (expr_ind' e)
  end.
End ExprInd.

(** ** The analyser *)
Lemma analyze_stmt_eq s st :
  analyze_stmt s st =
  match st with
  | SAssign lhs rhs =>
    sbind (match lhs with
           | EIdent x => sem_insert x s
           | _ => (s, analyze_expr (s_vars s) lhs)
           end)
          (fun s => (s, analyze_expr (s_vars s) rhs))
  | SIf c tb fb =>
    let s1 := mk_sem (push_scope (s_vars s)) (s_depth s) in
    sem_pop 0
      (sbind (s1, analyze_expr (s_vars s1) c)
             (fun s => sbind (analyze_stmts s tb) (fun s => analyze_stmts s fb)))
  | SWhile c b =>
    let s1 := mk_sem (push_scope (s_vars s)) (s_depth s + 1) in
    sem_pop 1 (sbind (s1, analyze_expr (s_vars s1) c) (fun s => analyze_stmts s b))
  | SFor i r b =>
    let s1 := mk_sem (push_scope (s_vars s)) (s_depth s + 1) in
    sem_pop 1
      (match i with
       | EIdent x =>
         sbind (sem_insert x s1)
               (fun s => sbind (s, analyze_expr (s_vars s) r) (fun s => analyze_stmts s b))
       | _ => (s1, Err EForTemp)
       end)
  | SBreak => (s, ensure (0 <? s_depth s)%Z (EJumpOutsideLoop (s_ "break")))
  | SContinue => (s, ensure (0 <? s_depth s)%Z (EJumpOutsideLoop (s_ "continue")))
  | SHelp | SQuit => (s, Ok tt)
  | SFilesystem e => (s, match e with EStr _ => Ok tt | _ => Err EFilesystemArg end)
  | SPrint e => (s, analyze_expr (s_vars s) e)
  | SExpr e => (s, analyze_expr (s_vars s) e)
  end.
Proof. destruct st; reflexivity. Qed.

Lemma analyze_stmts_cons s x l :
  analyze_stmts s (x :: l) = sbind (analyze_stmt s x) (fun s' => analyze_stmts s' l).
Proof. reflexivity. Qed.
Lemma analyze_stmts_nil s : analyze_stmts s [] = (s, Ok tt).
Proof. reflexivity. Qed.

Lemma sbind_inv p k s' r :
  sbind p k = (s', r) ->
  (exists s1 u, p = (s1, Ok u) /\ k s1 = (s', r)) \/ (p = (s', r) /\ forall u, r <> Ok u).
Proof.
  unfold sbind. destruct p as [s1 [u|e|q|]]; cbn; intros H; [left; eauto|..];
    right; (split; [exact H|]); inversion H; subst; discriminate.
Qed.

(** nothing panics or runs out of budget, the depth is restored, scopes only grow *)
Definition no_crash {A} (r : res A) : Prop := match r with Panic _ | Fuel => False | _ => True end.

Lemma analyze_expr_no_crash v e : no_crash (analyze_expr v e).
Proof.
  induction e as [x| | | |e IH|e f IHe IHf|e i IHe IHi|f args IHf IHa|op l r IHl IHr|op e IH|t e IHt IHe] using expr_ind'; cbn [analyze_expr];
    try exact I; try exact IH.
  - destruct (vars_get x v); exact I.
  - destruct f; try exact I; exact IHe.
  - destruct (analyze_expr v e); cbn; auto.
  - destruct (analyze_expr v f); cbn; auto.
    induction IHa as [|a0 l Ha Hl IH]; cbn; [exact I|]. destruct (analyze_expr v a0); cbn; auto.
  - destruct (analyze_expr v l); cbn; auto.
  - destruct t; try exact I. destruct (existsb _ STRUCTS); cbn; [exact IHe|exact I].
Qed.

Definition sgood (s s' : sem) (r : res unit) : Prop :=
  s_depth s' = s_depth s /\ grows (s_vars s) (s_vars s') /\ no_crash r.

Definition sgood' (st : stmt) (s s' : sem) (r : res unit) : Prop :=
  sgood s s' r /\ (is_block st -> scope_names (s_vars s') = scope_names (s_vars s)).

Lemma sgood_list l : Forall (fun st => forall s s' r, s_vars s <> [] -> analyze_stmt s st = (s', r) -> sgood' st s s' r) l ->
  forall s s' r, s_vars s <> [] -> analyze_stmts s l = (s', r) -> sgood s s' r.
Proof.
  induction 1 as [|x l Hx Hl IH]; intros s s' r Hne H.
  - rewrite analyze_stmts_nil in H. inversion H; subst. split; [reflexivity|]. split; [apply grows_refl|exact I].
  - rewrite analyze_stmts_cons in H. apply sbind_inv in H. destruct H as [(s1 & u & H1 & H)|[H _]].
    + apply Hx in H1; [|exact Hne]. destruct H1 as ((D1 & G1 & _) & _).
      apply IH in H; [|destruct (s_vars s); [congruence|destruct (s_vars s1); [contradiction|discriminate]]].
      destruct H as (D2 & G2 & N). split; [congruence|]. split; [eapply grows_trans; eassumption|exact N].
    + apply Hx in H; [apply H|assumption].
Qed.

Lemma sem_insert_good x s s' r : s_vars s <> [] -> sem_insert x s = (s', r) ->
  r = Ok tt /\ sgood s s' r /\ vars_insert x tt (s_vars s) = Some (s_vars s').
Proof.
  unfold sem_insert. intros Hne H. pose proof (vars_insert_spec x tt (s_vars s)) as Hs.
  destruct (vars_insert x tt (s_vars s)) as [v|] eqn:Hi; [|congruence]. inversion H; subst. split; [reflexivity|].
  split; [|reflexivity]. split; [reflexivity|]. split; [eapply grows_insert; exact Hi|exact I].
Qed.

Lemma sem_pop_good d s s1 r1 s' r :
  sem_pop d (s1, r1) = (s', r) -> s_depth s1 = (s_depth s + d)%Z -> grows (push_scope (s_vars s)) (s_vars s1) ->
  no_crash r1 -> r = r1 /\ s_depth s' = s_depth s /\ scope_names (s_vars s') = scope_names (s_vars s) /\ s_vars s' = tl (s_vars s1).
Proof.
  intros H Hd Hg Hn. unfold sem_pop in H. destruct (s_vars s1) as [|m v]; [contradiction|]. cbn in H.
  inversion H; subst. cbn in *. split; [reflexivity|]. split; [lia|]. split; [apply Hg|reflexivity].
Qed.

Lemma block_good d s s1 r1 s' r :
  sem_pop d (s1, r1) = (s', r) ->
  sgood (mk_sem (push_scope (s_vars s)) (s_depth s + d)) s1 r1 ->
  r = r1 /\ sgood s s' r /\ scope_names (s_vars s') = scope_names (s_vars s).
Proof.
  intros H (D & G & N). destruct (sem_pop_good d s s1 r1 s' r H D G N) as (-> & D' & Hn & _).
  split; [reflexivity|]. split; [|exact Hn]. split; [exact D'|]. split; [apply grows_same; exact Hn|exact N].
Qed.

Lemma sgood_refl s r : no_crash r -> sgood s s r.
Proof. intros H. split; [reflexivity|]. split; [apply grows_refl|exact H]. Qed.
Lemma sgood_trans s1 s2 s3 r2 r3 : sgood s1 s2 r2 -> sgood s2 s3 r3 -> sgood s1 s3 r3.
Proof.
  intros (D1 & G1 & _) (D2 & G2 & N2). split; [congruence|]. split; [eapply grows_trans; eassumption|exact N2].
Qed.
Lemma grows_ne {A} (v v' : vars A) : v <> [] -> grows v v' -> v' <> [].
Proof. destruct v, v'; cbn; congruence || tauto. Qed.

Lemma block_good' st d s s1 r1 s' r :
  sem_pop d (s1, r1) = (s', r) ->
  sgood (mk_sem (push_scope (s_vars s)) (s_depth s + d)) s1 r1 -> sgood' st s s' r.
Proof. intros H Hg. destruct (block_good d s s1 r1 s' r H Hg) as (_ & H1 & H2). split; [exact H1|intros _; exact H2]. Qed.

Lemma analyze_stmt_good' st : forall s s' r, s_vars s <> [] -> analyze_stmt s st = (s', r) -> sgood' st s s' r.
Proof.
  induction st as [lhs e|c tb fb IHt IHf|c b IH|i rg b IH| | | | |e|e|e] using stmt_ind'; intros s s' r Hne H;
    rewrite analyze_stmt_eq in H.
  - split; [|intros []]. assert (Hp : forall p s' r, sbind p (fun s => (s, analyze_expr (s_vars s) e)) = (s', r) ->
       sgood s (fst p) (snd p) -> sgood s s' r).
    { clear. intros [s1 r1] s' r H Hp. cbn in Hp. apply sbind_inv in H. destruct H as [(s2 & u & H1 & H2)|[H1 _]].
      - inversion H1; subst. inversion H2; subst. eapply sgood_trans; [exact Hp|]. apply sgood_refl, analyze_expr_no_crash.
      - inversion H1; subst. exact Hp. }
    destruct lhs; try (eapply Hp; [exact H|]; cbn [fst snd]; apply sgood_refl, analyze_expr_no_crash).
    eapply Hp; [exact H|]. destruct (sem_insert x s) as [s1 r1] eqn:Hi. apply (sem_insert_good _ _ _ _ Hne) in Hi. apply Hi.
  - cbn zeta in H.
    match type of H with sem_pop _ ?p = _ => destruct p as [s1 r1] eqn:Hb end.
    rewrite <- (Z.add_0_r (s_depth s)) in Hb.
    eapply block_good'; [exact H|].
    apply sbind_inv in Hb. destruct Hb as [(s2 & u & H1 & H2)|[H1 _]].
    2: { inversion H1; subst. apply sgood_refl, analyze_expr_no_crash. }
    injection H1 as <- _. apply sbind_inv in H2. destruct H2 as [(s3 & u' & H3 & H4)|[H3 _]].
    + apply (sgood_list _ IHt) in H3; [|discriminate].
      apply (sgood_list _ IHf) in H4; [|eapply grows_ne; [|apply H3]; discriminate].
      eapply sgood_trans; eassumption.
    + apply (sgood_list _ IHt) in H3; [exact H3|discriminate].
  - cbn zeta in H. match type of H with sem_pop _ ?p = _ => destruct p as [s1 r1] eqn:Hb end.
    eapply block_good'; [exact H|].
    apply sbind_inv in Hb. destruct Hb as [(s2 & u & H1 & H2)|[H1 _]].
    + injection H1 as <- _. apply (sgood_list _ IH) in H2; [exact H2|discriminate].
    + inversion H1; subst. apply sgood_refl, analyze_expr_no_crash.
  - cbn zeta in H. match type of H with sem_pop _ ?p = _ => destruct p as [s1 r1] eqn:Hb end.
    eapply block_good'; [exact H|].
    destruct i; try (inversion Hb; subst; apply sgood_refl; exact I).
    apply sbind_inv in Hb. destruct Hb as [(s2 & u & H1 & H2)|[H1 _]].
    + apply sem_insert_good in H1; [|discriminate]. destruct H1 as (_ & G1 & _).
      apply sbind_inv in H2. destruct H2 as [(s3 & u' & H3 & H4)|[H3 _]].
      * injection H3 as <- _. apply (sgood_list _ IH) in H4; [|eapply grows_ne; [|apply G1]; discriminate].
        eapply sgood_trans; eassumption.
      * inversion H3; subst. eapply sgood_trans; [exact G1|]. apply sgood_refl, analyze_expr_no_crash.
    + apply sem_insert_good in H1; [apply H1|discriminate].
  - split; [|intros []]. inversion H; subst. apply sgood_refl. destruct (0 <? s_depth s')%Z; exact I.
  - split; [|intros []]. inversion H; subst. apply sgood_refl. destruct (0 <? s_depth s')%Z; exact I.
  - split; [|intros []]. inversion H; subst. apply sgood_refl. exact I.
  - split; [|intros []]. inversion H; subst. apply sgood_refl. exact I.
  - split; [|intros []]. inversion H; subst. apply sgood_refl. destruct e; exact I.
  - split; [|intros []]. inversion H; subst. apply sgood_refl, analyze_expr_no_crash.
  - split; [|intros []]. inversion H; subst. apply sgood_refl, analyze_expr_no_crash.
Qed.

Lemma analyze_stmt_good st s s' r : s_vars s <> [] -> analyze_stmt s st = (s', r) -> sgood s s' r.
Proof. intros Hne H. apply (analyze_stmt_good' st s s' r Hne H). Qed.

Lemma analyze_good l s s' r : s_vars s <> [] -> analyze s l = (s', r) -> sgood s s' r.
Proof. apply sgood_list. apply Forall_forall. intros st _. apply analyze_stmt_good'. Qed.

(** ** Names: analyser and evaluator agree *)
Definition knows {A} (v : vars A) (x : str) : Prop := vars_get x v <> None.

Lemma knows_names {A} (v : vars A) x : knows v x <-> exists l, In l (scope_names v) /\ In x l.
Proof.
  unfold knows. induction v as [|m v IH]; cbn.
  - split; [congruence|intros (l & [] & _)].
  - destruct (assoc x m) eqn:Hm.
    + split; [|discriminate]. intros _. exists (map fst m). split; [left; reflexivity|].
      apply assoc_In. congruence.
    + rewrite IH. split.
      * intros (l & Hl & Hx). exists l. split; [right; exact Hl|exact Hx].
      * intros (l & [<-|Hl] & Hx); [|eauto]. exfalso. apply assoc_In in Hx. congruence.
Qed.

Lemma knows_same {A B} (v : vars A) (v' : vars B) x : scope_names v = scope_names v' -> knows v x <-> knows v' x.
Proof. intros H. rewrite !knows_names, H. tauto. Qed.

Lemma knows_grows {A} (v v' : vars A) x : grows v v' -> knows v x -> knows v' x.
Proof.
  intros Hg. rewrite !knows_names. intros (l & Hl & Hx).
  destruct v as [|m v]; [destruct Hl|]. destruct v' as [|m' v']; [contradiction|].
  destruct Hg as [[t Ht] Hn]. cbn in Hl. destruct Hl as [<-|Hl].
  - exists (map fst m'). split; [left; reflexivity|]. rewrite Ht. apply in_or_app. auto.
  - exists l. split; [|exact Hx]. right. change (In l (scope_names v')). rewrite Hn. exact Hl.
Qed.

Lemma knows_insert {A} x (a : A) v v' y : vars_insert x a v = Some v' -> knows v' y <-> knows v y \/ y = x.
Proof.
  intros H. unfold knows. destruct (str_dec y x) as [->|Hn].
  - rewrite (vars_get_insert_eq _ _ _ _ H). split; [auto|intros _; discriminate].
  - rewrite (vars_get_insert_neq _ _ _ _ _ Hn H). tauto.
Qed.

(** names assigned by a list of statements in its own scope *)
Definition assigns (x : str) (l : list stmt) : Prop := exists e, In (SAssign (EIdent x) e) l.

Lemma assigns_cons x st l : assigns x (st :: l) <-> (exists e, st = SAssign (EIdent x) e) \/ assigns x l.
Proof.
  unfold assigns. cbn. split.
  - intros (e & [H|H]); eauto.
  - intros [(e & ->)|(e & H)]; eauto.
Qed.

(** evaluator: only assigned names are new *)
Lemma eval_stmt_names n E inter s st s' r x :
  eval_stmt n E inter s st = (s', r) -> knows (e_vars s') x ->
  knows (e_vars s) x \/ exists e, st = SAssign (EIdent x) e.
Proof.
  intros H Hk. assert (Hsame : scope_names (e_vars s') = scope_names (e_vars s) -> knows (e_vars s) x)
    by (intros Hs; rewrite <- (knows_same _ _ x Hs); exact Hk).
  destruct st as [lhs e|c tb fb|c b|i rg b| | | | |e|e|e]; try (left; apply Hsame; eapply block_names; [exact H|exact I]);
    (destruct n as [|n]; [inversion H; subst; left; exact Hk|]); cbn [eval_stmt] in H;
    try (inversion H; subst; left; exact Hk).
  - unfold with_expr in H.
    destruct (eval_expr n E (e_vars s) (e_fs s) e (e_w s)) as [w [v|er|p|]]; try (inversion H; subst; left; exact Hk).
    assert (Hl : forall q, (let '(w, r) := lhs_assign n E (e_vars (with_w s w)) (e_fs (with_w s w)) lhs q
          (e_w (with_w s w)) in
          match r with Ok vs => (mk_est vs (e_fs (with_w s w)) w, IOk) | _ => (with_w (with_w s w) w, ires_of r) end)
          = (s', r) -> knows (e_vars s) x).
    { intros q Hq. destruct (lhs_assign n E _ _ lhs q _) as [w2 [vs|er|p|]] eqn:He;
          inversion Hq; subst; try exact Hk. apply Hsame. cbn. eapply lhs_assign_names; exact He. }
    destruct lhs as [y| | | | | | | | | |]; try (left; apply (Hl (fun _ => Ok v)); exact H).
    unfold est_insert in H. destruct (vars_insert y v (e_vars (with_w s w))) as [vs|] eqn:Hi; inversion H; subst; [|left; exact Hk].
    apply (knows_insert _ _ _ _ _ Hi) in Hk. destruct Hk as [Hk| ->]; [left; exact Hk|right; eauto].
  - left. apply do_write_vars in H. rewrite <- H; exact Hk.
  - left. unfold with_expr in H.
    destruct (eval_expr n E (e_vars s) (e_fs s) e (e_w s)) as [w [v|er|p|]]; try (inversion H; subst; exact Hk).
    destruct (as_string true v); try (inversion H; subst; exact Hk).
    destruct (fs_new E a _) as [w2 [fs2|er|p|]]; inversion H; subst; exact Hk.
  - left. unfold with_expr in H.
    destruct (eval_expr n E (e_vars s) (e_fs s) e (e_w s)) as [w [v|er|p|]]; try (inversion H; subst; exact Hk).
    destruct (print_text _ _ v); try (inversion H; subst; exact Hk). apply do_write_vars in H. rewrite H in Hk. exact Hk.
  - left. unfold with_expr in H.
    destruct (eval_expr n E (e_vars s) (e_fs s) e (e_w s)) as [w [v|er|p|]]; try (inversion H; subst; exact Hk).
    destruct inter; [|inversion H; subst; exact Hk]. apply do_write_vars in H. rewrite H in Hk. exact Hk.
Qed.

Lemma run_list_names n E inter l : forall s s' r x,
  run_list (eval_stmt n E inter) s l = (s', r) -> knows (e_vars s') x -> knows (e_vars s) x \/ assigns x l.
Proof.
  induction l as [|st l IH]; intros s s' r x H Hk; cbn [run_list] in H; [inversion H; subst; auto|].
  rewrite assigns_cons. destruct (eval_stmt n E inter s st) as [s1 r1] eqn:Hs.
  assert (H1 : knows (e_vars s1) x -> knows (e_vars s) x \/ (exists e, st = SAssign (EIdent x) e))
    by (eapply eval_stmt_names; exact Hs).
  destruct r1; try (inversion H; subst; tauto). apply (IH _ _ _ x) in H; tauto.
Qed.

(** analyser: an accepted list makes all its assigned names known *)
Lemma analyze_knows l : forall s s' x, s_vars s <> [] ->
  analyze_stmts s l = (s', Ok tt) -> knows (s_vars s) x \/ assigns x l -> knows (s_vars s') x.
Proof.
  induction l as [|st l IH]; intros s s' x Hne H Hk.
  - rewrite analyze_stmts_nil in H. inversion H; subst. destruct Hk as [Hk|[e []]]; exact Hk.
  - rewrite analyze_stmts_cons in H. apply sbind_inv in H. destruct H as [(s1 & [] & H1 & H)|[_ H]]; [|elim (H tt); reflexivity].
    pose proof (analyze_stmt_good st s s1 _ Hne H1) as (_ & G1 & _).
    apply (IH s1); [eapply grows_ne; eassumption|exact H|]. rewrite assigns_cons in Hk.
    destruct Hk as [Hk|[(e & ->)|Hk]]; [left; eapply knows_grows; eassumption| |right; exact Hk].
    left. rewrite analyze_stmt_eq in H1. apply sbind_inv in H1. destruct H1 as [(s2 & u & H2 & H3)|[_ H1]]; [|elim (H1 tt); reflexivity].
    apply sem_insert_good in H2; [|exact Hne]. destruct H2 as (_ & _ & Hi). inversion H3; subst.
    apply (knows_insert _ _ _ _ x Hi). auto.
Qed.

(** analyser: only assigned names become known *)
Lemma analyze_stmt_names s st s' r x : s_vars s <> [] ->
  analyze_stmt s st = (s', r) -> knows (s_vars s') x -> knows (s_vars s) x \/ exists e, st = SAssign (EIdent x) e.
Proof.
  intros Hne H Hk.
  pose proof (analyze_stmt_good' st s s' r Hne H) as [_ Hblock].
  destruct st as [lhs e|c tb fb|c b|i rg b| | | | |e|e|e];
    try (left; rewrite <- (knows_same _ _ x (Hblock I)); exact Hk); clear Hblock; rewrite analyze_stmt_eq in H;
    try (inversion H; subst; left; exact Hk).
  destruct lhs as [y| | | | | | | | | |]; try (apply sbind_inv in H; destruct H as [(s1 & u & H1 & H)|[H1 _]];
      [inversion H1; subst; inversion H; subst; left; exact Hk|inversion H1; subst; left; exact Hk]).
  apply sbind_inv in H. destruct H as [(s1 & u & H1 & H)|[H1 _]].
  - apply (sem_insert_good _ _ _ _ Hne) in H1. destruct H1 as (_ & _ & Hi). inversion H; subst.
    apply (knows_insert _ _ _ _ x Hi) in Hk. destruct Hk as [Hk| ->]; eauto.
  - apply (sem_insert_good _ _ _ _ Hne) in H1. destruct H1 as (_ & _ & Hi).
    apply (knows_insert _ _ _ _ x Hi) in Hk. destruct Hk as [Hk| ->]; eauto.
Qed.

Lemma analyze_stmts_names l : forall s s' r x, s_vars s <> [] ->
  analyze_stmts s l = (s', r) -> knows (s_vars s') x -> knows (s_vars s) x \/ assigns x l.
Proof.
  induction l as [|st l IH]; intros s s' r x Hne H Hk.
  - rewrite analyze_stmts_nil in H. inversion H; subst. auto.
  - rewrite assigns_cons. rewrite analyze_stmts_cons in H. apply sbind_inv in H.
    destruct H as [(s1 & u & H1 & H)|[H1 _]].
    + pose proof (analyze_stmt_good st s s1 _ Hne H1) as (_ & G1 & _).
      apply (IH s1 s' r x) in H; [|eapply grows_ne; eassumption|exact Hk].
      destruct H as [H|H]; [|tauto]. apply (analyze_stmt_names s st s1 _ x Hne H1) in H. tauto.
    + apply (analyze_stmt_names s st s' r x Hne H1) in Hk. tauto.
Qed.

(** an unknown variable reported by the analyser is unknown at the start *)
Lemma analyze_expr_unknown v e x : analyze_expr v e = Err (EUnknownVariable x) -> ~ knows v x.
Proof.
  unfold knows.
  induction e as [y| | | |e IH|e f IHe IHf|e i IHe IHi|f args IHf IHa|op l r IHl IHr|op e IH|t e IHt IHe] using expr_ind'; cbn [analyze_expr];
    intros H; try discriminate; try (apply IH; exact H).
  - destruct (vars_get y v) eqn:Hy; inversion H; subst. congruence.
  - destruct f; try discriminate; apply IHe; exact H.
  - destruct (analyze_expr v e); cbn in H; auto; inversion H; subst; auto.
  - destruct (analyze_expr v f) as [u| | |]; cbn in H; try discriminate H; try (inversion H; subst; auto; fail).
    induction IHa as [|a l Ha Hl IH]; cbn in H; [discriminate|].
    destruct (analyze_expr v a) as [u'| | |]; cbn in H; try discriminate H; [apply IH; exact H|]. inversion H; subst; auto.
  - destruct (analyze_expr v l); cbn in H; auto; inversion H; subst; auto.
  - destruct t; try discriminate. destruct (existsb _ STRUCTS); cbn in H; [apply IHe; exact H|discriminate].
Qed.

Lemma knows_push {A} (v : vars A) x : knows (push_scope v) x <-> knows v x.
Proof. reflexivity. Qed.

Definition unknown_ok (st : stmt) : Prop :=
  forall s s' x, s_vars s <> [] -> analyze_stmt s st = (s', Err (EUnknownVariable x)) -> ~ knows (s_vars s) x.

Lemma unknown_list l : Forall unknown_ok l -> forall s s' x, s_vars s <> [] ->
  analyze_stmts s l = (s', Err (EUnknownVariable x)) -> ~ knows (s_vars s) x.
Proof.
  induction 1 as [|st l Hx Hl IH]; intros s s' x Hne H.
  - rewrite analyze_stmts_nil in H. discriminate.
  - rewrite analyze_stmts_cons in H. apply sbind_inv in H. destruct H as [(s1 & u & H1 & H)|[H1 _]].
    + pose proof (analyze_stmt_good st s s1 _ Hne H1) as (_ & G1 & _).
      apply IH in H; [|eapply grows_ne; eassumption]. intros Hk. apply H. eapply knows_grows; eassumption.
    + eapply Hx; eassumption.
Qed.

Lemma sem_pop_err d p s' e : sem_pop d p = (s', Err e) -> exists s1, p = (s1, Err e).
Proof.
  destruct p as [s1 r1]. unfold sem_pop. destruct (pop_scope (s_vars s1)); intros H; inversion H; subst; eauto.
Qed.

Lemma analyze_stmt_unknown st : unknown_ok st.
Proof.
  induction st as [lhs e|c tb fb IHt IHf|c b IH|i rg b IH| | | | |e|e|e] using stmt_ind'; intros s s' x Hne H;
    rewrite analyze_stmt_eq in H; try discriminate H; try (inversion H; subst; eapply analyze_expr_unknown; eassumption).
  - apply sbind_inv in H. destruct H as [(s1 & u & H1 & H)|[H1 _]].
    + inversion H; subst. intros Hk. eapply analyze_expr_unknown; [eassumption|].
      destruct lhs; try (inversion H1; subst; exact Hk).
      apply sem_insert_good in H1; [|exact Hne]. destruct H1 as (_ & (_ & G & _) & _). eapply knows_grows; eassumption.
    + destruct lhs; try (apply (f_equal snd) in H1; cbn [snd] in H1; eapply analyze_expr_unknown; exact H1).
      apply sem_insert_good in H1; [|exact Hne]. destruct H1 as (H1 & _). discriminate.
  - apply sem_pop_err in H. destruct H as (s1 & H). apply sbind_inv in H.
    destruct H as [(s2 & u & H1 & H)|[H1 _]].
    2: { inversion H1. rewrite <- knows_push. eapply analyze_expr_unknown; eassumption. }
    injection H1 as <- _. apply sbind_inv in H. destruct H as [(s3 & u' & H3 & H4)|[H3 _]].
    + apply analyze_good in H3 as G0; [|discriminate]. destruct G0 as (_ & G & _).
      apply (unknown_list _ IHf) in H4; [|eapply grows_ne; [|exact G]; discriminate].
      intros Hk. apply H4. eapply knows_grows; [exact G|]. exact Hk.
    + apply (unknown_list _ IHt) in H3; [exact H3|discriminate].
  - apply sem_pop_err in H. destruct H as (s1 & H). apply sbind_inv in H.
    destruct H as [(s2 & u & H1 & H)|[H1 _]].
    2: { inversion H1. rewrite <- knows_push. eapply analyze_expr_unknown; eassumption. }
    injection H1 as <- _. apply (unknown_list _ IH) in H; [exact H|discriminate].
  - apply sem_pop_err in H. destruct H as (s1 & H). destruct i as [y| | | | | | | | | |]; try discriminate H.
    apply sbind_inv in H. destruct H as [(s2 & u & H1 & H)|[H1 _]].
    2: { apply sem_insert_good in H1; [|discriminate]. destruct H1 as (H1 & _). discriminate. }
    apply sem_insert_good in H1; [|discriminate]. destruct H1 as (_ & (_ & G & _) & _).
    intros Hk. apply (knows_grows _ _ x G) in Hk.
    apply sbind_inv in H. destruct H as [(s3 & u' & H3 & H4)|[H3 _]].
    + injection H3 as <- _. eapply (unknown_list _ IH); [|exact H4|exact Hk]. eapply grows_ne; [|exact G]; discriminate.
    + inversion H3; subst. eapply analyze_expr_unknown; eassumption.
  - destruct (0 <? s_depth s)%Z; discriminate H.
  - destruct (0 <? s_depth s)%Z; discriminate H.
  - destruct e; discriminate H.
Qed.

(** ** Session invariant *)
Record inv (r : rt) : Prop := mk_inv {
  inv_depth : s_depth (r_sem r) = 0%Z;
  inv_sem : length (s_vars (r_sem r)) = 1;
  inv_eval : length (e_vars (r_eval r)) = 1;
  inv_knows : forall x, knows (e_vars (r_eval r)) x -> knows (s_vars (r_sem r)) x
}.

Lemma vars_new_names {A B} (f : Z -> A) (g : func -> A) (f' : Z -> B) (g' : func -> B) :
  scope_names (vars_new f g) = scope_names (vars_new f' g').
Proof.
  reflexivity.
Qed.

Lemma eval_new_vars E : e_vars (eval_new E) = vars_new VInt VFun.
Proof. unfold eval_new. destruct (getcwd E); [|reflexivity]. destruct (fs_new E s _). reflexivity. Qed.

Lemma inv_new E : inv (rt_new E).
Proof.
  constructor; unfold rt_new; cbn [r_sem r_eval]; [reflexivity|reflexivity| |].
  - rewrite eval_new_vars. reflexivity.
  - intros x. rewrite eval_new_vars. apply knows_same. apply vars_new_names.
Qed.

Lemma grows_length {A} (v v' : vars A) : grows v v' -> length v' = length v.
Proof.
  destruct v as [|m v], v' as [|m' v']; cbn; try tauto. intros [_ H]. f_equal.
  apply (f_equal (@length _)) in H. unfold scope_names in H. rewrite !map_length in H. exact H.
Qed.

Lemma len1_ne {A} (v : list A) : length v = 1 -> v <> [].
Proof. intros H ->. discriminate. Qed.

Lemma inv_step n E inter r cmd : inv r -> inv (fst (rt_eval n E inter r cmd)).
Proof.
  intros [Hd Hs He Hk]. unfold rt_eval. destruct (parse cmd) as [l| | |]; try (constructor; assumption).
  destruct (analyze (r_sem r) l) as [sem' a] eqn:Ha. pose proof (len1_ne _ Hs) as Hne.
  pose proof (analyze_good _ _ _ _ Hne Ha) as (D & G & N).
  assert (Hs' : length (s_vars sem') = 1) by (rewrite (grows_length _ _ G); exact Hs).
  destruct a as [[]|e|p|]; cbn in N; try contradiction.
  - destruct (eval_prog n E inter (r_eval r) l) as [ev' res] eqn:Hp. unfold eval_prog in Hp.
    destruct (run_list (eval_stmt n E inter) (r_eval r) l) as [s1 r1] eqn:Hr. inversion Hp; subst. cbn [fst r_sem r_eval].
    constructor; cbn [r_sem r_eval]; [congruence|exact Hs'| |].
    + pose proof (run_list_grows _ _ _ _ _ (eval_stmt_grows E inter n) Hr) as Hg. rewrite (grows_length _ _ Hg). exact He.
    + intros x Hx. eapply analyze_knows; [exact Hne|exact Ha|].
      apply (run_list_names n E inter l _ _ _ x Hr) in Hx. destruct Hx as [Hx|Hx]; [left; apply Hk; exact Hx|right; exact Hx].
  - cbn [fst]. constructor; cbn [r_sem r_eval]; [congruence|exact Hs'|exact He|].
    intros x Hx. eapply knows_grows; [exact G|]. apply Hk; exact Hx.
Qed.

Lemma session_inv E h r : session E h r -> inv r.
Proof. induction 1; [apply inv_new|apply inv_step; assumption]. Qed.

(** ** Reading before assigning *)
Lemma bind_ok_tt (a : res unit) (b : res unit) : (let* _ := a in b) = Ok tt -> a = Ok tt /\ b = Ok tt.
Proof. destruct a as [[]| | |]; cbn; intros H; try discriminate; auto. Qed.

Lemma analyze_expr_reads v e : analyze_expr v e = Ok tt -> forall x, In x (reads e) -> knows v x.
Proof.
  induction e as [y| | | |e IH|e f IHe IHf|e i IHe IHi|f args IHf IHa|op l r IHl IHr|op e IH|t e IHt IHe] using expr_ind'; cbn [analyze_expr reads];
    intros H x Hx; try (destruct Hx; fail); try (apply IH; assumption).
  - unfold knows. destruct (vars_get y v) eqn:Hy; [|discriminate]. destruct Hx as [<-|[]]. congruence.
  - destruct f; try discriminate. apply IHe; assumption.
  - apply bind_ok_tt in H. destruct H as [H1 H2]. apply in_app_or in Hx. destruct Hx; auto.
  - apply bind_ok_tt in H. destruct H as [H1 H2]. apply in_app_or in Hx. destruct Hx as [Hx|Hx]; [auto|].
    clear H1 IHf. induction IHa as [|a l Ha Hl IH]; [destruct Hx|].
    apply bind_ok_tt in H2. destruct H2 as [H2 H3]. cbn in Hx. apply in_app_or in Hx. destruct Hx; auto.
  - apply bind_ok_tt in H. destruct H as [H1 H2]. apply in_app_or in Hx. destruct Hx; auto.
  - destruct t; try discriminate. apply bind_ok_tt in H. destruct H as [H1 H2]. auto.
Qed.

Lemma sbind_ok p k s' : sbind p k = (s', Ok tt) -> exists s1, p = (s1, Ok tt) /\ k s1 = (s', Ok tt).
Proof.
  intros H. apply sbind_inv in H. destruct H as [(s1 & [] & H1 & H2)|[_ H]]; [eauto|elim (H tt); reflexivity].
Qed.
Lemma sem_pop_ok d p s' : sem_pop d p = (s', Ok tt) -> exists s1, p = (s1, Ok tt).
Proof.
  destruct p as [s1 r1]. unfold sem_pop. destruct (pop_scope (s_vars s1)); intros H; inversion H; subst; eauto.
Qed.

Lemma read_before_rejected x l : read_before_assigned x l ->
  forall s s', s_vars s <> [] -> ~ knows (s_vars s) x -> analyze_stmts s l <> (s', Ok tt).
Proof.
  induction 1 as [y e l Hy Hx|t e l Ht Hx|e l Hx|e l Hx|c tb fb l Hx|c tb fb l Hb IH|c tb fb l Hb IH Hn|c b l Hx|c b l Hb IH
                 |y e b l Hy Hx|y e b l Hy Hb IH|st l Hst Hb IH]; intros s s' Hne Hk H;
    rewrite analyze_stmts_cons in H; apply sbind_ok in H; destruct H as (s1 & H1 & H2); try rewrite analyze_stmt_eq in H1.
  - apply sbind_ok in H1. destruct H1 as (s2 & H1 & H3). apply (sem_insert_good _ _ _ _ Hne) in H1. destruct H1 as (_ & _ & Hi).
    injection H3 as <- H3. apply analyze_expr_reads with (x := x) in H3; [|exact Hx].
    apply (knows_insert _ _ _ _ x Hi) in H3. destruct H3 as [H3|H3]; [contradiction|congruence].
  - assert (Hl : (match t with EIdent x => sem_insert x s | _ => (s, analyze_expr (s_vars s) t) end) = (s, analyze_expr (s_vars s) t)).
    { destruct t; try reflexivity. elim (Ht x0); reflexivity. }
    rewrite Hl in H1. apply sbind_ok in H1. destruct H1 as (s2 & H1 & H3). injection H1 as <- H1. injection H3 as <- H3.
    destruct Hx as [Hx|Hx]; apply Hk; [exact (analyze_expr_reads _ _ H1 _ Hx)|exact (analyze_expr_reads _ _ H3 _ Hx)].
  - injection H1 as <- H1. apply Hk. exact (analyze_expr_reads _ _ H1 _ Hx).
  - injection H1 as <- H1. apply Hk. exact (analyze_expr_reads _ _ H1 _ Hx).
  - apply sem_pop_ok in H1. destruct H1 as (s2 & H1). apply sbind_ok in H1. destruct H1 as (s3 & H1 & H3).
    injection H1 as <- H1. apply Hk. exact (analyze_expr_reads _ _ H1 _ Hx).
  - apply sem_pop_ok in H1. destruct H1 as (s2 & H1). apply sbind_ok in H1. destruct H1 as (s3 & H1 & H3).
    injection H1 as <- H1. apply sbind_ok in H3. destruct H3 as (s4 & H3 & H4).
    apply (IH _ s4) in H3; [exact H3|discriminate|exact Hk].
  - apply sem_pop_ok in H1. destruct H1 as (s2 & H1). apply sbind_ok in H1. destruct H1 as (s3 & H1 & H3).
    injection H1 as <- H1. apply sbind_ok in H3. destruct H3 as (s4 & H3 & H4).
    apply analyze_good in H3 as G0; [|discriminate]. destruct G0 as (_ & G & _).
    apply (IH _ s2) in H4; [exact H4|eapply grows_ne; [|exact G]; discriminate|]. intros Hc.
    apply (fun N => analyze_stmts_names _ _ _ _ x N H3) in Hc; [|discriminate]. destruct Hc as [Hc|(e & Hc)]; [exact (Hk Hc)|exact (Hn _ Hc)].
  - apply sem_pop_ok in H1. destruct H1 as (s2 & H1). apply sbind_ok in H1. destruct H1 as (s3 & H1 & H3).
    injection H1 as <- H1. apply Hk. exact (analyze_expr_reads _ _ H1 _ Hx).
  - apply sem_pop_ok in H1. destruct H1 as (s2 & H1). apply sbind_ok in H1. destruct H1 as (s3 & H1 & H3).
    injection H1 as <- H1. apply (IH _ s2) in H3; [exact H3|discriminate|exact Hk].
  - apply sem_pop_ok in H1. destruct H1 as (s2 & H1). apply sbind_ok in H1. destruct H1 as (s3 & H1 & H3).
    apply sbind_ok in H3. destruct H3 as (s4 & H3 & H4). injection H3 as <- H3.
    apply sem_insert_good in H1; [|discriminate]. destruct H1 as (_ & _ & Hi).
    apply analyze_expr_reads with (x := x) in H3; [|exact Hx]. apply (knows_insert _ _ _ _ x Hi) in H3.
    destruct H3 as [H3|H3]; [exact (Hk H3)|congruence].
  - apply sem_pop_ok in H1. destruct H1 as (s2 & H1). apply sbind_ok in H1. destruct H1 as (s3 & H1 & H3).
    apply sbind_ok in H3. destruct H3 as (s4 & H3 & H4). injection H3 as <- H3.
    apply sem_insert_good in H1; [|discriminate]. destruct H1 as (_ & (_ & G & _) & Hi).
    apply (IH _ s2) in H4; [exact H4|eapply grows_ne; [|exact G]; discriminate|].
    intros Hc. apply (knows_insert _ _ _ _ x Hi) in Hc. destruct Hc as [Hc|Hc]; [exact (Hk Hc)|congruence].
  - rewrite <- analyze_stmt_eq in H1. pose proof (analyze_stmt_good st s s1 _ Hne H1) as (_ & G1 & _).
    apply (IH s1 s') in H2; [exact H2|eapply grows_ne; eassumption|].
    intros Hc. apply (analyze_stmt_names s st s1 _ x Hne H1) in Hc. destruct Hc as [Hc|(e & ->)]; [exact (Hk Hc)|exact (Hst e eq_refl)].
Qed.

(** names known to the analyser were predefined or assigned by an earlier command *)
Lemma session_knows E h r x : session E h r -> knows (s_vars (r_sem r)) x ->
  knows (s_vars sem_new) x \/ exists c l e, In c h /\ parse c = Ok l /\ In (SAssign (EIdent x) e) l.
Proof.
  intros Hs. revert x. induction Hs as [|h r n inter cmd Hs IH]; intros x Hk; [left; exact Hk|].
  assert (Hold : knows (s_vars (r_sem r)) x -> knows (s_vars sem_new) x \/ exists c l e, In c (h ++ [cmd]) /\ parse c = Ok l /\ In (SAssign (EIdent x) e) l).
  { intros H. apply IH in H. destruct H as [H|(c & l & e & H1 & H2)]; [auto|]. right. exists c, l, e.
    split; [apply in_or_app; auto|exact H2]. }
  unfold rt_eval in Hk. destruct (parse cmd) as [l| | |] eqn:Hp; try (apply Hold; exact Hk).
  destruct (analyze (r_sem r) l) as [sem' a] eqn:Ha.
  assert (Hk' : knows (s_vars sem') x).
  { destruct a as [[]| | |]; try exact Hk. destruct (eval_prog n E inter (r_eval r) l). exact Hk. }
  apply session_inv in Hs. apply (analyze_stmts_names l _ _ _ x (len1_ne _ (inv_sem _ Hs)) Ha) in Hk'.
  destruct Hk' as [Hk'|(e & He)]; [auto|]. right. exists cmd, l, e. split; [apply in_or_app; cbn; auto|auto].
Qed.

Lemma rejected n E inter r cmd l e sem' :
  parse cmd = Ok l -> analyze (r_sem r) l = (sem', Err e) ->
  exists r', rt_eval n E inter r cmd = (r', RErr e) /\ r_eval r' = r_eval r.
Proof. intros Hp Ha. unfold rt_eval. rewrite Hp, Ha. eexists. split; reflexivity. Qed.

Lemma session_analyze E h r l : session E h r ->
  exists sem' a, analyze (r_sem r) l = (sem', a) /\ (a = Ok tt \/ exists e, a = Err e).
Proof.
  intros Hs. apply session_inv in Hs. destruct (analyze (r_sem r) l) as [sem' a] eqn:Ha. exists sem', a.
  split; [reflexivity|]. apply analyze_good in Ha; [|exact (len1_ne _ (inv_sem _ Hs))]. destruct Ha as (_ & _ & N).
  destruct a as [[]| | |]; cbn in N; try contradiction; eauto.
Qed.

Lemma use_before_assignment E h r n inter cmd l x :
  session E h r ->
  vars_get x (e_vars (r_eval (rt_new E))) = None ->
  (forall c l e, In c h -> parse c = Ok l -> ~ In (SAssign (EIdent x) e) l) ->
  parse cmd = Ok l -> read_before_assigned x l ->
  exists e r', rt_eval n E inter r cmd = (r', RErr e) /\ r_eval r' = r_eval r.
Proof.
  intros Hs Hpre Hh Hp Hr. destruct (session_analyze E h r l Hs) as (sem' & a & Ha & Hok).
  assert (Hk : ~ knows (s_vars (r_sem r)) x).
  { intros Hk. apply (session_knows E h r x Hs) in Hk. destruct Hk as [Hk|(c & l0 & e & H1 & H2 & H3)].
    - cbn [rt_new r_eval] in Hpre. rewrite eval_new_vars in Hpre.
      assert (knows (vars_new VInt VFun) x) by (rewrite (knows_same _ _ x (vars_new_names VInt VFun (fun _ => tt) (fun _ => tt))); exact Hk).
      contradiction.
    - exact (Hh c l0 e H1 H2 H3). }
  destruct Hok as [->|[e ->]].
  - exfalso. apply (read_before_rejected x l Hr (r_sem r) sem'); [exact (len1_ne _ (inv_sem _ (session_inv _ _ _ Hs)))|exact Hk|exact Ha].
  - exists e. eapply rejected; eassumption.
Qed.

(** ** Top-level jumps *)
Lemma top_jump l : forall s s', s_vars s <> [] -> s_depth s = 0%Z -> In SBreak l \/ In SContinue l ->
  analyze_stmts s l <> (s', Ok tt).
Proof.
  induction l as [|st l IH]; intros s s' Hne Hd Hin H; [destruct Hin as [[]|[]]|].
  rewrite analyze_stmts_cons in H. apply sbind_ok in H. destruct H as (s1 & H1 & H).
  pose proof (analyze_stmt_good st s s1 _ Hne H1) as (D & G & _).
  assert (Hst : st <> SBreak /\ st <> SContinue).
  { split; intros ->; rewrite analyze_stmt_eq, Hd in H1; discriminate H1. }
  apply (IH s1 s') in H; [exact H|eapply grows_ne; eassumption|congruence|].
  cbn in Hin. destruct Hst. intuition congruence.
Qed.

Lemma jump_rejected E h r n inter cmd l :
  session E h r -> parse cmd = Ok l -> In SBreak l \/ In SContinue l ->
  exists e r', rt_eval n E inter r cmd = (r', RErr e) /\ r_eval r' = r_eval r.
Proof.
  intros Hs Hp Hin. destruct (session_analyze E h r l Hs) as (sem' & a & Ha & Hok).
  destruct Hok as [->|[e ->]].
  - exfalso. apply session_inv in Hs. apply (top_jump l (r_sem r) sem' (len1_ne _ (inv_sem _ Hs)) (inv_depth _ Hs) Hin Ha).
  - exists e. eapply rejected; eassumption.
Qed.

Lemma unknown_reported E h r l sem' x :
  session E h r -> analyze (r_sem r) l = (sem', Err (EUnknownVariable x)) ->
  vars_get x (e_vars (r_eval r)) = None.
Proof.
  intros Hs Ha. apply session_inv in Hs. destruct (vars_get x (e_vars (r_eval r))) eqn:Hg; [|reflexivity]. exfalso.
  eapply unknown_list; [| |exact Ha|].
  - apply Forall_forall. intros st _. apply analyze_stmt_unknown.
  - exact (len1_ne _ (inv_sem _ Hs)).
  - apply (inv_knows _ Hs). unfold knows. congruence.
Qed.
