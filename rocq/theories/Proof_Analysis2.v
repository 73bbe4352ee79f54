(** The analyser against Spec_Analysis, continued (C85). *)
From Verif Require Import Base Ast Pom Parse Structs Definitions Value Variables Semantics Fs Eval Runtime Errors Lib Spec_Vars Proof_Vars Spec_Session Proof_Session Spec_Analysis Proof_Analysis.
Require Import Lia.
Arguments s_ s%string_scope.

Section Known.
Variable K : str -> Prop.

(** the analyser's state after the items pre *)
Definition holds (pre : list item) (s : sem) : Prop :=
  s_vars s <> [] /\ s_depth s = loops (rev pre) 0 /\
  forall n x, n < length (s_vars s) -> knows (skipn n (s_vars s)) x <-> K x \/ vis x (rev pre) n.

Definition cleanp (pre l : list item) : Prop := forall a i b t, l = a ++ i :: b -> ~ problem K (pre ++ a) i t.
Lemma cleanp_nil pre : cleanp pre [].
Proof. intros [|j a] i b t H; discriminate. Qed.
Lemma cleanp_one pre i : (forall t, ~ problem K pre i t) -> cleanp pre [i].
Proof. intros H [|j a] k b t He; injection He as -> He; [rewrite app_nil_r; apply H|destruct a; discriminate]. Qed.
Lemma cleanp_app pre l1 l2 : cleanp pre l1 -> cleanp (pre ++ l1) l2 -> cleanp pre (l1 ++ l2).
Proof.
  intros H1 H2 a i b t He. apply app_eq_app in He. destruct He as (c & [[-> Hc]|[-> Hc]]).
  - destruct c as [|k c].
    + cbn in Hc. specialize (H2 [] i b t (eq_sym Hc)). rewrite !app_nil_r in H2. rewrite app_nil_r in H2 || idtac. exact H2.
    + injection Hc as <- ->. apply (H1 a i c t). reflexivity.
  - rewrite app_assoc. apply (H2 c i b t). exact Hc.
Qed.
Lemma cleanp_prefix pre a b : cleanp pre (a ++ b) -> cleanp pre a.
Proof. intros H a' i b' t ->. apply (H a' i (b' ++ b) t). rewrite <- app_assoc. reflexivity. Qed.
Lemma clean_cleanp l : clean K l <-> cleanp [] l.
Proof. reflexivity. Qed.

(** what a piece of the analysis does *)
Definition agrees (pre l : list item) (s' : sem) (r : res unit) : Prop :=
  match r with
  | Ok _ => cleanp pre l /\ holds (pre ++ l) s'
  | Err er => exists a i b t d, l = a ++ i :: b /\ cleanp pre a /\ problem K (pre ++ a) i t /\ message er = Some t /\
      exited a + d = entered a /\ holds (pre ++ a ++ leaves d) s'
  | _ => False
  end.
Lemma agrees_nil pre s : holds pre s -> agrees pre [] s (Ok tt).
Proof. intros H. split; [apply cleanp_nil|rewrite app_nil_r; exact H]. Qed.
Lemma agrees_wrong pre s t er : holds pre s -> message er = Some t -> agrees pre [Wrong t] s (Err er).
Proof.
  intros H Hm. exists [], (Wrong t), [], t, 0. split; [reflexivity|]. split; [apply cleanp_nil|]. rewrite app_nil_r. split; [constructor|]. split; [exact Hm|]. split; [reflexivity|]. cbn. rewrite app_nil_r. exact H.
Qed.
Lemma agrees_more pre l1 l2 s er : agrees pre l1 s (Err er) -> agrees pre (l1 ++ l2) s (Err er).
Proof. intros (a & i & b & t & d & -> & H). exists a, i, (b ++ l2), t, d. rewrite <- app_assoc. split; [reflexivity|exact H]. Qed.
Lemma agrees_next pre l1 l2 s1 s2 r : agrees pre l1 s1 (Ok tt) -> entered l1 = exited l1 -> agrees (pre ++ l1) l2 s2 r -> agrees pre (l1 ++ l2) s2 r.
Proof.
  intros [Hc _] He H. destruct r as [u|er|p|]; cbn [agrees] in *; try exact H.
  - destruct H as [H1 H2]. split; [apply cleanp_app; assumption|rewrite app_assoc; exact H2].
  - destruct H as (a & i & b & t & d & -> & H1 & H2 & H3 & H4 & H5). exists (l1 ++ a), i, b, t, d. rewrite <- !app_assoc in *. split; [reflexivity|].
    split; [apply cleanp_app; assumption|]. split; [rewrite app_assoc in H2 |- *; exact H2|]. split; [exact H3|]. split; [rewrite entered_app, exited_app; lia|exact H5].
Qed.
Lemma agrees_sbind pre l1 l2 p k : agrees pre l1 (fst p) (snd p) -> entered l1 = exited l1 ->
  (forall s1, agrees pre l1 s1 (Ok tt) -> agrees (pre ++ l1) l2 (fst (k s1)) (snd (k s1))) ->
  agrees pre (l1 ++ l2) (fst (sbind p k)) (snd (sbind p k)).
Proof.
  intros H1 He H2. unfold sbind. destruct p as [s1 [[]|er|q|]]; cbn [fst snd] in *; try contradiction.
  - eapply agrees_next; [exact H1|exact He|]. apply H2. exact H1.
  - apply agrees_more. exact H1.
Qed.

(** single items *)
Lemma holds_knows pre s x : holds pre s -> knows (s_vars s) x <-> K x \/ visible pre x.
Proof. intros (Hn & _ & H). rewrite <- vis_visible. apply (H 0 x). destruct (s_vars s); [congruence|cbn; lia]. Qed.
Lemma holds_same pre i s : holds pre s -> match i with Use _ | TypeName _ | Wrong _ | Jump _ => True | _ => False end -> holds (pre ++ [i]) s.
Proof. intros (H1 & H2 & H3) Hi. unfold holds. rewrite rev_app_distr. cbn [rev app]. destruct i; try contradiction; (split; [exact H1|split; [exact H2|exact H3]]). Qed.
Lemma agrees_use pre s x : holds pre s -> agrees pre [Use x] s (match vars_get x (s_vars s) with Some _ => Ok tt | None => Err (EUnknownVariable x) end).
Proof.
  intros H. pose proof (holds_knows pre s x H) as Hk. unfold knows in Hk. destruct (vars_get x (s_vars s)).
  - split; [apply cleanp_one; intros t Ht; inversion Ht; subst; destruct (proj1 Hk); [discriminate|contradiction..]|apply holds_same; [exact H|exact I]].
  - exists [], (Use x), [], (s_ "Unknown variable: " ++ x), 0. split; [reflexivity|]. split; [apply cleanp_nil|]. rewrite app_nil_r. split.
    + constructor; intros HH; apply (proj2 Hk); auto.
    + split; [reflexivity|]. split; [reflexivity|]. cbn. rewrite app_nil_r. exact H.
Qed.
Lemma agrees_type pre s x : holds pre s -> agrees pre [TypeName x] s (ensure (existsb (fun st => str_eqb (st_name st) x) STRUCTS) (EUnknownType x)).
Proof.
  intros H. assert (Hs : existsb (fun st => str_eqb (st_name st) x) STRUCTS = true <-> In x (map st_name STRUCTS)).
  { rewrite existsb_exists, in_map_iff. split; intros (st & H1 & H2); exists st.
    - split; [apply str_eqb_eq; exact H2|exact H1].
    - split; [exact H2|apply str_eqb_eq; exact H1]. }
  destruct (existsb _ STRUCTS); cbn [ensure].
  - split; [apply cleanp_one; intros t Ht; inversion Ht; subst; tauto|apply holds_same; [exact H|exact I]].
  - exists [], (TypeName x), [], (s_ "Unknown type: struct " ++ x), 0. split; [reflexivity|]. split; [apply cleanp_nil|]. rewrite app_nil_r. split.
    + constructor. intros HH. apply Hs in HH. discriminate.
    + split; [reflexivity|]. split; [reflexivity|]. cbn. rewrite app_nil_r. exact H.
Qed.
Lemma agrees_jump pre s w : holds pre s -> agrees pre [Jump w] s (ensure (0 <? s_depth s)%Z (EJumpOutsideLoop w)).
Proof.
  intros H. pose proof H as (_ & Hd & _). pose proof (loops_in_loop pre) as Hl. destruct (Z.ltb_spec 0 (s_depth s)) as [Hlt|Hge]; cbn [ensure].
  - split; [apply cleanp_one; intros t Ht; inversion Ht; subst; rewrite Hd in Hlt; tauto|apply holds_same; [exact H|exact I]].
  - exists [], (Jump w), [], (s_ "Cannot '" ++ w ++ s_ "' outside of a loop"), 0. split; [reflexivity|]. split; [apply cleanp_nil|]. rewrite app_nil_r. split.
    + constructor. intros HH. apply Hl in HH. lia.
    + split; [cbn [message]; rewrite <- !app_assoc; reflexivity|]. split; [reflexivity|]. cbn. rewrite app_nil_r. exact H.
Qed.
Lemma agrees_declare pre s x : holds pre s -> agrees pre [Declare x] (fst (sem_insert x s)) (snd (sem_insert x s)).
Proof.
  intros (Hn & Hd & Hk). destruct (sem_insert x s) as [s' r] eqn:Hi. destruct (sem_insert_good x s s' r Hn Hi) as (-> & (D & G & _) & Hv). cbn [fst snd].
  split; [apply cleanp_one; intros t Ht; inversion Ht|]. split; [eapply grows_ne; eassumption|]. rewrite rev_app_distr. cbn [rev app loops vis]. split; [congruence|].
  intros n y Hlt. rewrite (grows_length _ _ G) in Hlt. specialize (Hk n y Hlt). destruct n as [|n].
  - cbn [skipn] in *. rewrite (knows_insert _ _ _ _ y Hv), Hk. intuition congruence.
  - assert (Hsame : knows (skipn (S n) (s_vars s')) y <-> knows (skipn (S n) (s_vars s)) y).
    { destruct (s_vars s) as [|m v]; [congruence|]. destruct (s_vars s') as [|m' v']; [contradiction|]. destruct G as [_ G]. cbn [skipn]. apply knows_same.
      unfold scope_names in *. rewrite <- !skipn_map. f_equal. exact G. }
    rewrite Hsame, Hk. intuition congruence.
Qed.
Lemma holds_enter pre s lp : holds pre s -> holds (pre ++ [Enter lp]) (mk_sem (push_scope (s_vars s)) (s_depth s + if lp then 1 else 0)).
Proof.
  intros (Hn & Hd & Hk). split; [discriminate|]. rewrite rev_app_distr. cbn [rev app loops vis s_depth s_vars]. split; [rewrite Hd; lia|].
  intros n x Hlt. cbn [push_scope length] in Hlt. destruct n as [|n].
  - cbn [skipn Nat.sub]. rewrite knows_push. apply (Hk 0 x). destruct (s_vars s); [congruence|cbn; lia].
  - unfold push_scope. cbn [skipn]. replace (S n - 1) with n by lia. apply Hk. lia.
Qed.

(** expressions: nothing opens or closes a block *)
Lemma expr_flat e : entered (expr_items e) = 0 /\ exited (expr_items e) = 0.
Proof.
  induction e as [x| | | |e IH|e f IHe IHf|e i IHe IHi|f args IHf IHa|op l r IHl IHr|op e IH|t e IHt IHe] using expr_ind'; cbn [expr_items];
    try (split; reflexivity); try exact IH; try (rewrite entered_app, exited_app; lia).
  - destruct f; try (split; reflexivity). exact IHe.
  - rewrite entered_app, exited_app. enough (entered (flat_map expr_items args) = 0 /\ exited (flat_map expr_items args) = 0) by lia.
    induction IHa as [|a0 l Ha Hl IH]; cbn [flat_map]; [split; reflexivity|]. rewrite entered_app, exited_app. lia.
  - destruct t; try (split; reflexivity). change (entered (TypeName x :: expr_items e)) with (entered (expr_items e)). change (exited (TypeName x :: expr_items e)) with (exited (expr_items e)). exact IHe.
Qed.
Lemma agrees_bind pre l1 l2 s r1 r2 : agrees pre l1 s r1 -> entered l1 = 0 /\ exited l1 = 0 -> (holds (pre ++ l1) s -> agrees (pre ++ l1) l2 s r2) ->
  agrees pre (l1 ++ l2) s (let* _ := r1 in r2).
Proof.
  intros H1 He H2. destruct r1 as [[]|er|q|]; cbn [bind]; try contradiction; [|apply agrees_more; exact H1].
  eapply agrees_next; [exact H1|lia|]. apply H2. apply H1.
Qed.
Lemma expr_agrees s e : forall pre, holds pre s -> agrees pre (expr_items e) s (analyze_expr (s_vars s) e).
Proof.
  induction e as [x| | | |e IH|e f IHe IHf|e i IHe IHi|f args IHf IHa|op l r IHl IHr|op e IH|t e IHt IHe] using expr_ind'; intros pre H; cbn [expr_items analyze_expr];
    try (apply agrees_nil; exact H); try (apply IH; exact H).
  - apply agrees_use. exact H.
  - destruct f; try (apply agrees_wrong; [exact H|reflexivity]). apply IHe. exact H.
  - apply agrees_bind; [apply IHe; exact H|apply expr_flat|]. apply IHi.
  - apply agrees_bind; [apply IHf; exact H|apply expr_flat|]. clear H. generalize (pre ++ expr_items f). clear pre IHf.
    induction IHa as [|a0 l Ha Hl IH]; intros pre H; cbn [flat_map]; [apply agrees_nil; exact H|]. apply agrees_bind; [apply Ha; exact H|apply expr_flat|]. apply IH.
  - apply agrees_bind; [apply IHl; exact H|apply expr_flat|]. apply IHr.
  - destruct t; try (apply agrees_wrong; [exact H|reflexivity]).
    change (TypeName x :: expr_items e) with ([TypeName x] ++ expr_items e). apply agrees_bind; [apply agrees_type; exact H|split; reflexivity|]. apply IHe.
Qed.

(** statements: closed *)
Definition closed (l : list item) : Prop := fits 0 l /\ entered l = exited l.
Lemma closed_app a b : closed a -> closed b -> closed (a ++ b).
Proof. intros [H1 H2] [H3 H4]. split; [rewrite fits_app; split; [exact H1|replace (0 + entered a - exited a) with 0 by lia; exact H3]|rewrite entered_app, exited_app; lia]. Qed.
Lemma fits_flat l : entered l = 0 /\ exited l = 0 -> forall d, fits d l.
Proof.
  intros [H1 H2] d. apply fits_spec. intros a b ->. rewrite exited_app in H2. lia.
Qed.
Lemma closed_expr e : closed (expr_items e).
Proof. pose proof (expr_flat e). split; [apply fits_flat; assumption|lia]. Qed.
Lemma closed_block lp l : closed l -> closed (Enter lp :: l ++ [Leave]).
Proof.
  intros [H1 H2]. split.
  - cbn [fits]. rewrite fits_app. assert (Hf : fits 1 l) by (apply fits_spec; intros a b Hab; pose proof (proj1 (fits_spec l 0) H1 a b Hab); lia).
    split; [exact Hf|]. replace (1 + entered l - exited l) with 1 by lia. exact I.
  - change (Enter lp :: l ++ [Leave]) with ([Enter lp] ++ l ++ [Leave]). rewrite !entered_app, !exited_app. unfold entered at 1 3, exited at 1 3. cbn [filter is_enter is_leave length]. lia.
Qed.
Lemma closed_one i : match i with Enter _ | Leave => False | _ => True end -> closed [i].
Proof. destruct i; try contradiction; intros _; split; try exact I; reflexivity. Qed.
Lemma closed_nil : closed [].
Proof. split; [exact I|reflexivity]. Qed.
Lemma closed_flat_map l : Forall (fun st => closed (stmt_items st)) l -> closed (flat_map stmt_items l).
Proof. induction 1; cbn [flat_map]; [apply closed_nil|apply closed_app; assumption]. Qed.
Lemma stmt_closed st : closed (stmt_items st).
Proof.
  induction st as [lhs e|c tb fb IHt IHf|c b IH|i rg b IH| | | | |e|e|e] using stmt_ind'; cbn [stmt_items]; try apply closed_nil; try apply closed_expr; try (apply closed_one; exact I).
  - destruct lhs; try (apply closed_app; apply closed_expr). change (Declare x :: expr_items e) with ([Declare x] ++ expr_items e). apply closed_app; [apply closed_one; exact I|apply closed_expr].
  - replace (expr_items c ++ flat_map stmt_items tb ++ flat_map stmt_items fb ++ [Leave]) with ((expr_items c ++ flat_map stmt_items tb ++ flat_map stmt_items fb) ++ [Leave]) by (rewrite <- !app_assoc; reflexivity).
    apply closed_block. repeat apply closed_app; [apply closed_expr|apply closed_flat_map; exact IHt|apply closed_flat_map; exact IHf].
  - replace (expr_items c ++ flat_map stmt_items b ++ [Leave]) with ((expr_items c ++ flat_map stmt_items b) ++ [Leave]) by (rewrite <- !app_assoc; reflexivity).
    apply closed_block. repeat apply closed_app; [apply closed_expr|apply closed_flat_map; exact IH].
  - destruct i; try (apply closed_one; exact I).
    replace (Declare x :: expr_items rg ++ flat_map stmt_items b ++ [Leave]) with (([Declare x] ++ expr_items rg ++ flat_map stmt_items b) ++ [Leave]) by (rewrite <- !app_assoc; reflexivity).
    apply closed_block. apply closed_app; [apply closed_one; exact I|]. apply closed_app; [apply closed_expr|apply closed_flat_map; exact IH].
  - destruct e; try (apply closed_one; exact I). apply closed_nil.
Qed.
Lemma items_closed l : closed (items l).
Proof. apply closed_flat_map. apply Forall_forall. intros st _. apply stmt_closed. Qed.

Lemma fits_prefix d a b : fits d (a ++ b) -> fits d a.
Proof. rewrite fits_app. tauto. Qed.
Lemma leaves_counts d : entered (leaves d) = 0 /\ exited (leaves d) = d.
Proof. induction d as [|d [IH1 IH2]]; [split; reflexivity|]. change (leaves (S d)) with ([Leave] ++ leaves d). rewrite entered_app, exited_app, IH1, IH2. split; reflexivity. Qed.
(** leaving a block, at its end or because of an error in it *)
Lemma holds_pop pre lp body s2 d :
  fits 0 body -> exited body + d = entered body -> holds (pre ++ Enter lp :: body ++ leaves d) s2 -> 2 <= length (s_vars s2) ->
  exists v, pop_scope (s_vars s2) = Some v /\ holds (pre ++ Enter lp :: body ++ leaves (S d)) (mk_sem v (s_depth s2 - if lp then 1 else 0)).
Proof.
  intros Hf Hd (Hn & Hdep & Hk) Hlen. destruct (s_vars s2) as [|m v] eqn:Hv; [congruence|]. exists v. split; [reflexivity|]. split; [destruct v; [cbn in Hlen; lia|discriminate]|].
  assert (Hrev : forall k, rev (pre ++ Enter lp :: body ++ leaves k) = rev (body ++ leaves k) ++ Enter lp :: rev pre).
  { intros k. rewrite rev_app_distr. cbn [rev]. rewrite <- app_assoc. reflexivity. }
  assert (Hcl : forall k, k <= d -> entered (body ++ leaves k) - exited (body ++ leaves k) = d - k).
  { intros k Hle. rewrite entered_app, exited_app. assert (Hl : entered (leaves k) = 0 /\ exited (leaves k) = k) by (clear; induction k as [|k [IH1 IH2]]; [split; reflexivity|]; cbn [leaves repeat]; unfold entered, exited in *; cbn [filter is_enter is_leave length]; fold (leaves k); lia). lia. }
  assert (Hfits : fits 0 (body ++ leaves d)) by (rewrite fits_app; split; [exact Hf|apply fits_leaves; lia]).
  cbn [s_vars s_depth]. split.
  - rewrite Hdep, (Hrev d), loops_skip by (try exact Hfits; rewrite Hcl by lia; lia). rewrite Hcl by lia. replace (0 - (d - d)) with 0 by lia. cbn [loops].
    rewrite <- leaves_snoc, app_assoc. change (Enter lp :: (body ++ leaves d) ++ [Leave]) with ((Enter lp :: body ++ leaves d) ++ [Leave]).
    rewrite app_assoc, rev_app_distr. cbn [rev app loops]. rewrite (Hrev d), loops_skip by (try exact Hfits; rewrite Hcl by lia; lia). rewrite Hcl by lia. replace (1 - (d - d)) with 1 by lia. cbn [loops]. destruct lp; lia.
  - intros n x Hlt. specialize (Hk (S n) x). cbn [length skipn] in Hk. rewrite Hk by lia.
    rewrite <- leaves_snoc, app_assoc. change (Enter lp :: (body ++ leaves d) ++ [Leave]) with ((Enter lp :: body ++ leaves d) ++ [Leave]).
    rewrite app_assoc, (rev_app_distr _ [Leave]). cbn [rev app vis]. reflexivity.
Qed.

Lemma block_agrees pre lp body s p s' r :
  s_vars s <> [] -> closed body -> agrees (pre ++ [Enter lp]) body (fst p) (snd p) ->
  sgood (mk_sem (push_scope (s_vars s)) (s_depth s + if lp then 1 else 0)) (fst p) (snd p) ->
  sem_pop (if lp then 1 else 0)%Z p = (s', r) -> agrees pre (Enter lp :: body ++ [Leave]) s' r.
Proof.
  intros Hs [Hf He] H (_ & G & _) Hp. destruct p as [s2 r2]. cbn [fst snd s_vars] in *. apply grows_length in G. cbn [push_scope length] in G.
  assert (Hlen : 2 <= length (s_vars s2)) by (destruct (s_vars s); [congruence|cbn [length] in G; lia]).
  unfold sem_pop in Hp. destruct r2 as [[]|er|q|]; cbn [agrees] in H; try contradiction.
  - destruct H as [Hc Hh]. rewrite <- app_assoc in Hh. cbn [app] in Hh. destruct (holds_pop pre lp body s2 0) as (v & Hv & Hv'); [exact Hf|lia|cbn [leaves repeat]; rewrite app_nil_r; exact Hh|exact Hlen|].
    rewrite Hv in Hp. injection Hp as <- <-. split; [|exact Hv'].
    change (Enter lp :: body ++ [Leave]) with ([Enter lp] ++ body ++ [Leave]). apply cleanp_app; [apply cleanp_one; intros t Ht; inversion Ht|]. apply cleanp_app; [exact Hc|]. apply cleanp_one; intros t Ht; inversion Ht.
  - destruct H as (a & i & b & t & d & -> & H1 & H2 & H3 & H4 & H5). rewrite <- app_assoc in H5. cbn [app] in H5. apply fits_prefix in Hf.
    destruct (holds_pop pre lp a s2 d Hf H4 H5 Hlen) as (v & Hv & Hv'). rewrite Hv in Hp. injection Hp as <- <-.
    exists (Enter lp :: a), i, (b ++ [Leave]), t, (S d). rewrite <- app_assoc. split; [reflexivity|]. split.
    + change (Enter lp :: a) with ([Enter lp] ++ a). apply cleanp_app; [apply cleanp_one; intros t' Ht; inversion Ht|exact H1].
    + rewrite <- app_assoc in H2. split; [exact H2|]. split; [exact H3|]. split; [|exact Hv'].
      change (Enter lp :: a) with ([Enter lp] ++ a). rewrite entered_app, exited_app. unfold entered at 1, exited at 1. cbn [filter is_enter is_leave length]. lia.
Qed.

Definition stmt_ok (st : stmt) : Prop := forall pre s, holds pre s -> agrees pre (stmt_items st) (fst (analyze_stmt s st)) (snd (analyze_stmt s st)).
Lemma list_agrees l : Forall stmt_ok l -> forall pre s, holds pre s -> agrees pre (flat_map stmt_items l) (fst (analyze_stmts s l)) (snd (analyze_stmts s l)).
Proof.
  induction 1 as [|st l Hst Hl IH]; intros pre s H; cbn [flat_map]; [apply agrees_nil; exact H|]. rewrite analyze_stmts_cons.
  apply agrees_sbind; [apply Hst; exact H|apply stmt_closed|]. intros s1 [_ H1]. apply IH. exact H1.
Qed.
Lemma expr_step s e pre : holds pre s -> agrees pre (expr_items e) (fst (s, analyze_expr (s_vars s) e)) (snd (s, analyze_expr (s_vars s) e)).
Proof. apply expr_agrees. Qed.
Lemma sbind_sgood s p k : sgood s (fst p) (snd p) -> s_vars s <> [] -> (forall s1, s_vars s1 <> [] -> sgood s1 (fst (k s1)) (snd (k s1))) -> sgood s (fst (sbind p k)) (snd (sbind p k)).
Proof.
  intros H Hn Hk. unfold sbind. destruct p as [s1 [[]|er|q|]]; cbn [fst snd] in *; try exact H. eapply sgood_trans; [exact H|]. apply Hk. eapply grows_ne; [exact Hn|apply H].
Qed.
Lemma expr_sgood s e : sgood s (fst (s, analyze_expr (s_vars s) e)) (snd (s, analyze_expr (s_vars s) e)).
Proof. apply sgood_refl, analyze_expr_no_crash. Qed.
Lemma list_sgood s l : s_vars s <> [] -> sgood s (fst (analyze_stmts s l)) (snd (analyze_stmts s l)).
Proof. intros Hn. destruct (analyze_stmts s l) as [s' r] eqn:H. eapply (analyze_good l); [exact Hn|exact H]. Qed.
Lemma insert_sgood s x : s_vars s <> [] -> sgood s (fst (sem_insert x s)) (snd (sem_insert x s)).
Proof. intros Hn. destruct (sem_insert x s) as [s' r] eqn:H. apply sem_insert_good in H; [apply H|exact Hn]. Qed.

Lemma stmt_agrees st : stmt_ok st.
Proof.
  induction st as [lhs e|c tb fb IHt IHf|c b IH|i rg b IH| | | | |e|e|e] using stmt_ind'; intros pre s H; rewrite analyze_stmt_eq; cbn [stmt_items]; cbv zeta.
  - assert (Hgen : forall t p, agrees pre t (fst p) (snd p) -> entered t = exited t -> agrees pre (t ++ expr_items e) (fst (sbind p (fun s => (s, analyze_expr (s_vars s) e)))) (snd (sbind p (fun s => (s, analyze_expr (s_vars s) e))))).
    { intros t p Hp Ht. apply agrees_sbind; [exact Hp|exact Ht|]. intros s1 [_ H1]. apply expr_step. exact H1. }
    destruct lhs; try (apply Hgen; [apply expr_step; exact H|apply closed_expr]).
    change (Declare x :: expr_items e) with ([Declare x] ++ expr_items e). apply Hgen; [apply agrees_declare; exact H|reflexivity].
  - replace (expr_items c ++ flat_map stmt_items tb ++ flat_map stmt_items fb ++ [Leave]) with ((expr_items c ++ flat_map stmt_items tb ++ flat_map stmt_items fb) ++ [Leave]) by (rewrite <- !app_assoc; reflexivity).
    pose proof (holds_enter pre s false H) as He. rewrite Z.add_0_r in He.
    match goal with |- context [sem_pop 0 ?p] => remember p as q eqn:Hq; destruct (sem_pop 0 q) as [s' r] eqn:Hp end. cbn [fst snd].
    apply (block_agrees pre false _ s q s' r); [apply H|repeat apply closed_app; [apply closed_expr|apply closed_flat_map, Forall_forall; intros; apply stmt_closed..]| |rewrite Z.add_0_r|exact Hp]; subst q.
    + apply agrees_sbind; [apply expr_step; exact He|apply closed_expr|]. intros s1 [_ H1]. apply agrees_sbind; [apply list_agrees; [exact IHt|exact H1]|apply closed_flat_map, Forall_forall; intros; apply stmt_closed|].
      intros s2 [_ H2]. apply list_agrees; [exact IHf|exact H2].
    + apply sbind_sgood; [apply expr_sgood|discriminate|]. intros s1 Hs1. apply sbind_sgood; [apply list_sgood; exact Hs1|exact Hs1|]. intros s2 Hs2. apply list_sgood. exact Hs2.
  - replace (expr_items c ++ flat_map stmt_items b ++ [Leave]) with ((expr_items c ++ flat_map stmt_items b) ++ [Leave]) by (rewrite <- !app_assoc; reflexivity).
    pose proof (holds_enter pre s true H) as He.
    match goal with |- context [sem_pop 1 ?p] => remember p as q eqn:Hq; destruct (sem_pop 1 q) as [s' r] eqn:Hp end. cbn [fst snd].
    apply (block_agrees pre true _ s q s' r); [apply H|repeat apply closed_app; [apply closed_expr|apply closed_flat_map, Forall_forall; intros; apply stmt_closed..]| | |exact Hp]; subst q.
    + apply agrees_sbind; [apply expr_step; exact He|apply closed_expr|]. intros s1 [_ H1]. apply list_agrees; [exact IH|exact H1].
    + apply sbind_sgood; [apply expr_sgood|discriminate|]. intros s1 Hs1. apply list_sgood; exact Hs1.
  - destruct i as [x| | | | | | | | | |];
      try (unfold sem_pop; cbn [push_scope s_vars pop_scope fst snd s_depth]; apply agrees_wrong; [|reflexivity]; replace (s_depth s + 1 - 1)%Z with (s_depth s) by lia; destruct s; exact H).
    replace (Declare x :: expr_items rg ++ flat_map stmt_items b ++ [Leave]) with (([Declare x] ++ expr_items rg ++ flat_map stmt_items b) ++ [Leave]) by (rewrite <- !app_assoc; reflexivity).
    pose proof (holds_enter pre s true H) as He.
    match goal with |- context [sem_pop 1 ?p] => remember p as q eqn:Hq; destruct (sem_pop 1 q) as [s' r] eqn:Hp end. cbn [fst snd].
    apply (block_agrees pre true _ s q s' r); [apply H|apply closed_app; [apply closed_one; exact I|]; apply closed_app; [apply closed_expr|apply closed_flat_map, Forall_forall; intros; apply stmt_closed]| | |exact Hp]; subst q.
    + apply agrees_sbind; [apply agrees_declare; exact He|reflexivity|]. intros s0 [_ H0]. apply agrees_sbind; [apply expr_step; exact H0|apply closed_expr|]. intros s1 [_ H1]. apply list_agrees; [exact IH|exact H1].
    + apply sbind_sgood; [apply insert_sgood; discriminate|discriminate|]. intros s0 Hs0. apply sbind_sgood; [apply expr_sgood|exact Hs0|]. intros s1 Hs1. apply list_sgood; exact Hs1.
  - apply agrees_jump. exact H.
  - apply agrees_jump. exact H.
  - apply agrees_nil. exact H.
  - apply agrees_nil. exact H.
  - destruct e; try (apply agrees_wrong; [exact H|reflexivity]). apply agrees_nil. exact H.
  - apply expr_step. exact H.
  - apply expr_step. exact H.
Qed.
Lemma analyze_agrees l s : holds [] s -> agrees [] (items l) (fst (analyze s l)) (snd (analyze s l)).
Proof. apply list_agrees. apply Forall_forall. intros st _. apply stmt_agrees. Qed.

(** ** Problems *)
Lemma problem_fun a i t t' : problem K a i t -> problem K a i t' -> t = t'.
Proof. intros H H'. inversion H; subst; inversion H'; subst; reflexivity. Qed.
Lemma first_problem_unclean l t : first_problem K l t -> ~ clean K l.
Proof. intros (a & i & b & -> & _ & Hp) Hc. exact (Hc a i b t eq_refl Hp). Qed.
Lemma first_problem_fun l t t' : first_problem K l t -> first_problem K l t' -> t = t'.
Proof.
  intros (a & i & b & -> & Hc & Hp) (a' & i' & b' & He & Hc' & Hp'). apply app_eq_app in He. destruct He as ([|k c] & [[-> He]|[-> He]]).
  - cbn in He. injection He as -> ->. rewrite app_nil_r in Hp. eapply problem_fun; eassumption.
  - cbn in He. injection He as -> ->. rewrite app_nil_r in Hp'. eapply problem_fun; eassumption.
  - cbn in He. injection He as -> ->. elim (Hc a' k c t' eq_refl Hp').
  - cbn in He. injection He as -> ->. elim (Hc' a k c t eq_refl Hp).
Qed.
(** names declared outside of blocks *)
Definition declares (l : list item) (x : str) : Prop := exists a b, l = a ++ Declare x :: b /\ clean K a /\ entered a = exited a.
Lemma fits_le l : fits 0 l -> exited l <= entered l.
Proof. intros H. apply (proj1 (fits_spec l 0) H l []). rewrite app_nil_r. reflexivity. Qed.
Lemma analyze_names l s x : holds [] s -> length (s_vars s) = 1 -> knows (s_vars (fst (analyze s l))) x <-> K x \/ declares (items l) x.
Proof.
  intros H Hlen. pose proof (analyze_agrees l s H) as Ha. pose proof (items_closed l) as [Hf He]. destruct (analyze s l) as [s' r]. cbn [fst snd] in *. destruct r as [[]|er|q|]; cbn [agrees] in Ha; try contradiction.
  - destruct Ha as [Hc Hh]. cbn [app] in Hh. rewrite (holds_knows _ _ _ Hh). apply or_iff_compat_l. unfold visible, declares. split; intros (a & b & Hab & Hs).
    + exists a, b. split; [exact Hab|]. rewrite Hab in Hc, Hf, He. split; [exact (cleanp_prefix [] _ _ Hc)|]. rewrite fits_app in Hf. destruct Hf as [Hf _]. apply fits_le in Hf. apply stays_fits, fits_le in Hs.
      change (a ++ Declare x :: b) with (a ++ [Declare x] ++ b) in He. rewrite !entered_app, !exited_app in He. cbn in He. lia.
    + exists a, b. split; [exact Hab|]. rewrite Hab, fits_app in Hf. destruct Hf as [_ Hf]. cbn [fits] in Hf. apply stays_fits. replace (0 + entered a - exited a) with 0 in Hf by lia. exact Hf.
  - destruct Ha as (a0 & i & b0 & t & d & Hit & Hc & Hp & _ & Hd & Hh). cbn [app] in *. rewrite (holds_knows _ _ _ Hh). apply or_iff_compat_l. unfold visible, declares. rewrite Hit in *. split.
    + intros (a & b & Hab & Hs). apply app_eq_app in Hab. destruct Hab as (c & [[-> Hcc]|[-> Hcc]]).
      * destruct c as [|k c]; [exfalso; cbn in Hcc; destruct d; discriminate|]. injection Hcc as <- ->. exists a, (c ++ i :: b0). rewrite <- app_assoc. split; [reflexivity|]. split; [exact (cleanp_prefix [] _ _ Hc)|].
        rewrite fits_app in Hf. destruct Hf as [Hf _]. rewrite fits_app in Hf. destruct Hf as [Hf _]. apply fits_le in Hf. apply stays_fits, fits_le in Hs.
        change (Declare x :: c) with ([Declare x] ++ c) in Hd. rewrite !entered_app, !exited_app in Hd, Hs. cbn in Hd. fold (exited c) (entered c) in Hd. pose proof (leaves_counts d) as Hl. lia.
      * exfalso. assert (Hin : In (Declare x) (leaves d)) by (rewrite Hcc; apply in_or_app; right; left; reflexivity). apply repeat_spec in Hin. discriminate.
    + intros (a & b & Hab & Hca & Hea). apply app_eq_app in Hab. destruct Hab as ([|k c] & [[-> Hcc]|[-> Hcc]]); cbn in Hcc; injection Hcc as Hk Hb; subst.
      * inversion Hp.
      * inversion Hp.
      * rewrite <- app_assoc in *. cbn [app] in *. rewrite fits_app in Hf. destruct Hf as [_ Hf]. cbn [fits] in Hf. replace (0 + entered a - exited a) with 0 in Hf by lia. exists a, (c ++ leaves d).
        split; [reflexivity|]. apply stays_fits. rewrite fits_app in Hf |- *. destruct Hf as [Hf _]. split; [exact Hf|]. apply fits_leaves. change (Declare x :: c) with ([Declare x] ++ c) in Hd. rewrite !entered_app, !exited_app in Hd. cbn in Hd. fold (exited c) (entered c) in Hd. lia.
      * elim (Hca a0 k c t eq_refl Hp).
Qed.
End Known.
