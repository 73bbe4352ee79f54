From Verif Require Import Base Ast Value Variables Fs Eval Lib Spec_Vars Proof_Vars Spec_Run.

(** ** Monotonicity in the step budget *)
Lemma search_loop_mono E fd retry k : forall key ret coll w w' r k',
  search_loop k E fd retry key ret coll w = (w', r) -> r <> Fuel -> k <= k' ->
  search_loop k' E fd retry key ret coll w = (w', r).
Proof.
  induction k as [|k IH]; intros key ret coll w w' r k' H Hr Hk.
  - cbn in H. inversion H; congruence.
  - destruct k' as [|k']; [lia|]. cbn [search_loop] in *.
    destruct (ioctl E (tick w) fd key) as [nr buf|nr buf|]; [| |exact H].
    all: destruct (extract _ _ buf 0 ret coll) as [[ret' coll']| | |]; try exact H.
    all: destruct (negb retry || (nr =? 0)%Z); [exact H|].
    all: destruct (largest ret') as [m|]; [|exact H].
    all: destruct (try_into_u 8 (h_type m)); try exact H.
    all: destruct (h_offset m + 1 <? 2 ^ 64)%Z; [|exact H].
    all: eapply IH; [exact H|exact Hr|lia].
Qed.

Definition mono {A} (m m' : M A) : Prop :=
  forall w w' r, m w = (w', r) -> r <> Fuel -> m' w = (w', r).

Lemma mono_refl {A} (m : M A) : mono m m.
Proof. intros w w' r H _. exact H. Qed.

Lemma mono_bind {A B} (m m' : M A) (g g' : A -> M B) :
  mono m m' -> (forall a, mono (g a) (g' a)) -> mono (mbind m g) (mbind m' g').
Proof.
  intros Hm Hg w w' r H Hr. unfold mbind in *. destruct (m w) as [w1 x] eqn:Hw.
  destruct x as [a|e|p|].
  - rewrite (Hm _ _ _ Hw) by discriminate. eapply Hg; eassumption.
  - rewrite (Hm _ _ _ Hw) by discriminate. exact H.
  - rewrite (Hm _ _ _ Hw) by discriminate. exact H.
  - inversion H; congruence.
Qed.

Lemma eval_search_mono k k' E f tree key : k <= k' -> mono (eval_search k E f tree key) (eval_search k' E f tree key).
Proof.
  intros Hk. unfold eval_search. apply mono_bind; [apply mono_refl|]. intros [[n ?] flds].
  apply mono_bind; [apply mono_refl|]. intros _. destruct f as [f|]; [|apply mono_refl].
  apply mono_bind; [apply mono_refl|]. intros sk. apply mono_bind; [|intros; apply mono_refl].
  unfold fs_search. destruct f; [|apply mono_refl]. intros w w' r H Hr. eapply search_loop_mono; eassumption.
Qed.

Lemma eval_expr_mono k k' E vs f e : k <= k' -> mono (eval_expr k E vs f e) (eval_expr k' E vs f e).
Proof.
  intros Hk. revert e. fix IH 1. intros e. destruct e; cbn [eval_expr]; try apply mono_refl.
  - apply IH.
  - apply mono_bind; [apply IH|intros; apply mono_refl].
  - apply mono_bind; [apply IH|intros v]. apply mono_bind; [apply mono_refl|intros l].
    apply mono_bind; [apply IH|intros; apply mono_refl].
  - apply mono_bind; [apply IH|intros v]. apply mono_bind; [apply mono_refl|intros fn].
    destruct fn; destruct args as [|a [|b [|c [|d [|]]]]]; try apply mono_refl;
      repeat first [apply eval_search_mono; exact Hk|apply mono_bind; [solve [apply IH|apply mono_refl]|intros ?]]; try apply mono_refl.
  - destruct op; repeat (apply mono_bind; [solve [apply IH|apply mono_refl]|intros ?]); try apply mono_refl;
      match goal with |- mono (if ?b then _ else _) _ => destruct b end; try apply mono_refl;
      repeat (apply mono_bind; [solve [apply IH|apply mono_refl]|intros ?]); apply mono_refl.
  - apply mono_bind; [apply IH|intros; apply mono_refl].
  - apply mono_bind; [apply IH|intros v]. apply mono_bind; [apply mono_refl|intros z].
    destruct (z <? 0)%Z; apply mono_refl.
Qed.

Definition rmono {A} (m m' : res A) : Prop := m <> Fuel -> m' = m.
Lemma rmono_refl {A} (m : res A) : rmono m m.
Proof. intros _. reflexivity. Qed.
Lemma rmono_bind {A B} (m m' : res A) (g g' : A -> res B) :
  rmono m m' -> (forall a, rmono (g a) (g' a)) -> rmono (bind m g) (bind m' g').
Proof.
  intros Hm Hg H. destruct m as [a|e|p|]; cbn in *;
    try (rewrite Hm by discriminate; reflexivity); [|congruence].
  rewrite Hm by discriminate. cbn. apply Hg; exact H.
Qed.

Lemma shl_le_mono k : forall k' x i, k <= k' -> rmono (shl_while_le k x i) (shl_while_le k' x i).
Proof.
  induction k as [|k IH]; intros k' x i Hk H; [cbn in H; congruence|].
  destruct k' as [|k']; [lia|]. cbn [shl_while_le] in *.
  destruct (i <=? x)%Z; [|reflexivity]. destruct (checked_shl i 1); [|reflexivity].
  apply IH; [lia|exact H].
Qed.
Lemma shl_gt_mono k : forall k' x i, k <= k' -> rmono (shl_while_gt k x i) (shl_while_gt k' x i).
Proof.
  induction k as [|k IH]; intros k' x i Hk H; [cbn in H; congruence|].
  destruct k' as [|k']; [lia|]. cbn [shl_while_gt] in *.
  destruct (i >? x)%Z; [|reflexivity]. destruct (checked_shl i 1); [|reflexivity].
  apply IH; [lia|exact H].
Qed.
Lemma pp2_mono k k' x : k <= k' -> rmono (previous_power_2 k x) (previous_power_2 k' x).
Proof.
  intros Hk. unfold previous_power_2. destruct (x =? 0)%Z; [apply rmono_refl|].
  destruct (x >? 0)%Z; [|apply shl_gt_mono; exact Hk].
  apply rmono_bind; [apply shl_le_mono; exact Hk|intros; apply rmono_refl].
Qed.
Lemma np2_mono k k' x : k <= k' -> rmono (next_power_2 k x) (next_power_2 k' x).
Proof.
  intros Hk. unfold next_power_2. destruct (x =? -1)%Z; [apply rmono_refl|].
  destruct (x =? 0)%Z; [apply rmono_refl|].
  destruct (x >? 0)%Z; (apply rmono_bind; [apply pp2_mono; exact Hk|intros; apply rmono_refl]).
Qed.
Lemma pretty_mono k k' oc x : k <= k' -> rmono (num_bytes_to_pretty k oc x) (num_bytes_to_pretty k' oc x).
Proof.
  intros Hk. unfold num_bytes_to_pretty. apply rmono_bind; [apply pp2_mono; exact Hk|intros; apply rmono_refl].
Qed.
Lemma buckets_mono k : forall k' vals max cur, k <= k' -> rmono (hist_buckets k vals max cur) (hist_buckets k' vals max cur).
Proof.
  induction k as [|k IH]; intros k' vals max cur Hk; [intros H; cbn in H; congruence|].
  destruct k' as [|k']; [lia|]. cbn [hist_buckets]. destruct (cur <? max)%Z; [|apply rmono_refl].
  apply rmono_bind; [apply np2_mono; lia|intros o]. apply rmono_bind; [apply rmono_refl|intros nx].
  apply rmono_bind; [apply IH; lia|intros; apply rmono_refl].
Qed.
Lemma hist_lines_mono k k' oc n bs : k <= k' -> rmono (hist_lines k oc n bs) (hist_lines k' oc n bs).
Proof.
  intros Hk. induction bs as [|[[a b] c] bs IH]; cbn [hist_lines]; [apply rmono_refl|].
  apply rmono_bind.
  - unfold hist_line. apply rmono_bind; [apply pretty_mono; exact Hk|intros].
    apply rmono_bind; [apply pretty_mono; exact Hk|intros; apply rmono_refl].
  - intros. apply rmono_bind; [exact IH|intros; apply rmono_refl].
Qed.
Lemma as_hist_mono k k' oc vs : k <= k' -> rmono (as_hist k oc vs) (as_hist k' oc vs).
Proof.
  intros Hk. unfold as_hist. apply rmono_bind; [apply rmono_refl|intros [|v vals]]; [apply rmono_refl|].
  apply rmono_bind; [apply pp2_mono; exact Hk|intros o]. apply rmono_bind; [apply rmono_refl|intros cur].
  apply rmono_bind; [apply buckets_mono; exact Hk|intros bs]. apply hist_lines_mono; exact Hk.
Qed.
Lemma print_text_mono k k' oc v : k <= k' -> rmono (print_text k oc v) (print_text k' oc v).
Proof. intros Hk. destruct v as [| | |vec [|] | |]; try apply rmono_refl. apply as_hist_mono; exact Hk. Qed.

Lemma lhs_assign_mono k k' E vs f e : k <= k' -> forall g, mono (lhs_assign k E vs f e g) (lhs_assign k' E vs f e g).
Proof.
  intros Hk. induction e; intros g; cbn [lhs_assign]; try apply mono_refl.
  - destruct e2; try apply mono_refl. apply IHe1.
  - apply mono_bind; [apply eval_expr_mono; exact Hk|intros v].
    apply mono_bind; [apply mono_refl|intros z]. apply IHe1.
Qed.

(** statements *)
Definition smono (p p' : est * ires) : Prop := snd p <> IFuel -> p' = p.
Definition emono (ev ev' : est -> stmt -> est * ires) : Prop := forall s x, smono (ev s x) (ev' s x).

Lemma smono_refl p : smono p p.
Proof. intros _. reflexivity. Qed.

Lemma with_expr_mono k k' E s e c c' :
  k <= k' -> (forall s v, smono (c s v) (c' s v)) -> smono (with_expr k E s e c) (with_expr k' E s e c').
Proof.
  intros Hk Hc H. unfold with_expr in *.
  destruct (eval_expr k E (e_vars s) (e_fs s) e (e_w s)) as [w r] eqn:He.
  assert (Hr : r <> Fuel) by (intros ->; apply H; reflexivity).
  rewrite (eval_expr_mono k k' E _ _ e Hk _ _ _ He Hr).
  destruct r; try reflexivity. apply Hc; exact H.
Qed.

Lemma run_list_mono ev ev' l : emono ev ev' -> forall s, smono (run_list ev s l) (run_list ev' s l).
Proof.
  intros He. induction l as [|x l IH]; intros s; cbn [run_list]; [apply smono_refl|].
  intros H. destruct (ev s x) as [s1 r1] eqn:Hx.
  assert (Hr : r1 <> IFuel) by (intros ->; apply H; reflexivity).
  rewrite (He s x) by (rewrite Hx; exact Hr). rewrite Hx. destruct r1; try reflexivity. apply IH; exact H.
Qed.

Lemma while_mono ev ev' E c b k : forall k' ke ke', emono ev ev' -> ke <= ke' -> k <= k' ->
  forall s, smono (while_loop ev ke E k c b s) (while_loop ev' ke' E k' c b s).
Proof.
  induction k as [|k IH]; intros k' ke ke' He Hke Hk s; [intros H; cbn in H; congruence|].
  destruct k' as [|k']; [lia|]. cbn [while_loop]. apply with_expr_mono; [exact Hke|].
  intros s1 v. destruct (as_boolean v) as [[|]| | |]; try apply smono_refl.
  intros H. pose proof (run_list_mono ev ev' b He s1) as Hb. destruct (run_list ev s1 b) as [s2 r2].
  assert (Hr : r2 <> IFuel) by (intros ->; apply H; reflexivity).
  rewrite Hb by exact Hr. destruct r2; try reflexivity; apply IH; auto; lia.
Qed.

Lemma for_mono ev ev' x b items : emono ev ev' ->
  forall s, smono (for_loop ev x b items s) (for_loop ev' x b items s).
Proof.
  intros He. induction items as [|v items IH]; intros s; cbn [for_loop]; [apply smono_refl|].
  destruct (est_insert x v s) as [s1 r1]. destruct r1; try apply smono_refl.
  intros H. pose proof (run_list_mono ev ev' b He s1) as Hb. destruct (run_list ev s1 b) as [s2 r2].
  assert (Hr : r2 <> IFuel) by (intros ->; apply H; reflexivity).
  rewrite Hb by exact Hr. destruct r2; try reflexivity; apply IH; auto.
Qed.

Lemma in_scope_eq s b s1 r1 :
  b (with_vars s (push_scope (e_vars s))) = (s1, r1) ->
  grows (push_scope (e_vars s)) (e_vars s1) ->
  in_scope s b = (leave s1, r1).
Proof.
  intros Hb Hg. apply grows_pop in Hg. destruct Hg as (v & Hp & _).
  unfold in_scope. rewrite Hb, Hp. destruct (e_vars s1) as [|m r] eqn:He; inversion Hp; subst.
  unfold leave, with_vars. rewrite He. reflexivity.
Qed.

Lemma in_scope_mono s b b' :
  (forall s1 r1, b (with_vars s (push_scope (e_vars s))) = (s1, r1) ->
                 grows (push_scope (e_vars s)) (e_vars s1)) ->
  (forall s, smono (b s) (b' s)) -> smono (in_scope s b) (in_scope s b').
Proof.
  intros Hg Hb H. specialize (Hb (with_vars s (push_scope (e_vars s)))).
  destruct (b (with_vars s (push_scope (e_vars s)))) as [s1 r1] eqn:Hs.
  specialize (Hg _ _ eq_refl). rewrite (in_scope_eq _ _ _ _ Hs Hg) in *.
  apply in_scope_eq; [apply Hb; exact H|exact Hg].
Qed.

(** what the body of a block does to the scopes (from [block_names_step]) *)
Lemma if_body_grows n E inter c tb fb s s1 r1 :
  with_expr n E s c (fun s v => match as_boolean v with
      | Ok b => run_list (eval_stmt n E inter) s (if b then tb else fb) | r => (s, ires_of r) end) = (s1, r1) ->
  grows (e_vars s) (e_vars s1).
Proof.
  intros H. eapply with_expr_grows; [exact H|apply grows_refl|]. cbn beta. intros w v s2 r2 H2.
  destruct (as_boolean v); try (inversion H2; subst; apply grows_refl).
  apply run_list_grows in H2; [exact H2|apply eval_stmt_grows].
Qed.
Lemma for_body_grows n E inter x e b s s1 r1 :
  with_expr n E s e (fun s v => match as_vec v with
      | Ok items => for_loop (eval_stmt n E inter) x b items s | r => (s, ires_of r) end) = (s1, r1) ->
  grows (e_vars s) (e_vars s1).
Proof.
  intros H. eapply with_expr_grows; [exact H|apply grows_refl|]. cbn beta. intros w v s2 r2 H2.
  destruct (as_vec v); try (inversion H2; subst; apply grows_refl).
  apply for_grows in H2; [exact H2|apply eval_stmt_grows].
Qed.

Lemma eval_stmt_mono E inter n : forall n', n <= n' -> emono (eval_stmt n E inter) (eval_stmt n' E inter).
Proof.
  induction n as [|n IH]; intros n' Hn s st; [intros H; cbn in H; congruence|].
  destruct n' as [|n']; [lia|]. assert (Hn' : n <= n') by lia. specialize (IH n' Hn').
  destruct st; cbn [eval_stmt]; try apply smono_refl.
  - apply with_expr_mono; [exact Hn'|]. intros s1 v.
    assert (Hl : forall l, smono
       (let '(w, r) := lhs_assign n E (e_vars s1) (e_fs s1) l (fun _ => Ok v) (e_w s1) in
        match r with Ok vs => (mk_est vs (e_fs s1) w, IOk) | _ => (with_w s1 w, ires_of r) end)
       (let '(w, r) := lhs_assign n' E (e_vars s1) (e_fs s1) l (fun _ => Ok v) (e_w s1) in
        match r with Ok vs => (mk_est vs (e_fs s1) w, IOk) | _ => (with_w s1 w, ires_of r) end)).
    { intros l H.
      destruct (lhs_assign n E (e_vars s1) (e_fs s1) l (fun _ => Ok v) (e_w s1)) as [w r] eqn:Hl.
      assert (Hr : r <> Fuel) by (intros ->; apply H; reflexivity).
      rewrite (lhs_assign_mono n n' E _ _ l Hn' _ _ _ _ Hl Hr). reflexivity. }
    destruct lhs as [y| | | | | | | | | |]; try apply smono_refl; apply Hl.
  - apply in_scope_mono; [intros s1 r1; apply if_body_grows|]. intros s1. apply with_expr_mono; [exact Hn'|].
    intros s2 v. destruct (as_boolean v); try apply smono_refl. apply run_list_mono; exact IH.
  - apply in_scope_mono; [intros s1 r1; apply while_grows, eval_stmt_grows|].
    intros s1. apply while_mono; auto.
  - apply in_scope_mono.
    + intros s1 r1 H. destruct ident; try (inversion H; subst; apply grows_refl).
      revert H. apply for_body_grows.
    + intros s1. destruct ident; try apply smono_refl. apply with_expr_mono; [exact Hn'|].
      intros s2 v. destruct (as_vec v); try apply smono_refl. apply for_mono; exact IH.
  - apply with_expr_mono; [exact Hn'|]. intros s2 v. apply smono_refl.
  - apply with_expr_mono; [exact Hn'|]. intros s2 v. intros H.
    pose proof (print_text_mono n n' (overflow_checks E) v Hn') as Hp.
    destruct (print_text n (overflow_checks E) v); try (rewrite Hp by discriminate; reflexivity).
    cbn in H. congruence.
  - apply with_expr_mono; [exact Hn'|]. intros s2 v. apply smono_refl.
Qed.

(** ** The [evals]/[runs] relations *)
Lemma eval_expr_fun E vs f e w k k' w1 w2 r1 r2 :
  eval_expr k E vs f e w = (w1, r1) -> r1 <> Fuel ->
  eval_expr k' E vs f e w = (w2, r2) -> r2 <> Fuel -> w1 = w2 /\ r1 = r2.
Proof.
  intros H1 Hr1 H2 Hr2.
  assert (G1 := eval_expr_mono k (Nat.max k k') E vs f e (Nat.le_max_l _ _) _ _ _ H1 Hr1).
  assert (G2 := eval_expr_mono k' (Nat.max k k') E vs f e (Nat.le_max_r _ _) _ _ _ H2 Hr2).
  rewrite G1 in G2. inversion G2; auto.
Qed.

Lemma evals_fun E s e w1 r1 w2 r2 : evals E s e w1 r1 -> evals E s e w2 r2 -> w1 = w2 /\ r1 = r2.
Proof. intros [H1 [k1 K1]] [H2 [k2 K2]]. eapply eval_expr_fun; eassumption. Qed.

Lemma run_list_up E inter n n' s l s' r :
  run_list (eval_stmt n E inter) s l = (s', r) -> r <> IFuel -> n <= n' ->
  run_list (eval_stmt n' E inter) s l = (s', r).
Proof.
  intros H Hr Hn. pose proof (run_list_mono _ _ l (eval_stmt_mono E inter n n' Hn) s) as Hm.
  rewrite H in Hm. apply Hm. exact Hr.
Qed.
Lemma stmt_up E inter n n' s st s' r :
  eval_stmt n E inter s st = (s', r) -> r <> IFuel -> n <= n' -> eval_stmt n' E inter s st = (s', r).
Proof.
  intros H Hr Hn. pose proof (eval_stmt_mono E inter n n' Hn s st) as Hm. rewrite H in Hm. apply Hm. exact Hr.
Qed.
Lemma expr_up E vs f e w n n' w' r :
  eval_expr n E vs f e w = (w', r) -> r <> Fuel -> n <= n' -> eval_expr n' E vs f e w = (w', r).
Proof. intros H Hr Hn. eapply eval_expr_mono; eassumption. Qed.

Lemma runs_fun E inter s st s1 r1 s2 r2 :
  runs E inter s st s1 r1 -> runs E inter s st s2 r2 -> s1 = s2 /\ r1 = r2.
Proof.
  intros [H1 [n1 K1]] [H2 [n2 K2]].
  apply (stmt_up _ _ _ (Nat.max n1 n2)) in K1; [|exact H1|lia].
  apply (stmt_up _ _ _ (Nat.max n1 n2)) in K2; [|exact H2|lia]. rewrite K1 in K2. inversion K2; auto.
Qed.
Lemma runs_list_fun E inter s l s1 r1 s2 r2 :
  runs_list E inter s l s1 r1 -> runs_list E inter s l s2 r2 -> s1 = s2 /\ r1 = r2.
Proof.
  intros [H1 [n1 K1]] [H2 [n2 K2]].
  apply (run_list_up _ _ _ (Nat.max n1 n2)) in K1; [|exact H1|lia].
  apply (run_list_up _ _ _ (Nat.max n1 n2)) in K2; [|exact H2|lia]. rewrite K1 in K2. inversion K2; auto.
Qed.

Lemma runs_list_nil E inter s s' r : runs_list E inter s [] s' r <-> s' = s /\ r = IOk.
Proof.
  split.
  - intros [_ [n H]]. cbn in H. inversion H; auto.
  - intros [-> ->]. split; [discriminate|]. exists 0. reflexivity.
Qed.

Lemma runs_list_cons E inter s x l s' r :
  runs_list E inter s (x :: l) s' r <->
  (exists s1, runs E inter s x s1 IOk /\ runs_list E inter s1 l s' r) \/ (r <> IOk /\ runs E inter s x s' r).
Proof.
  split.
  - intros [Hr [n H]]. cbn [run_list] in H. destruct (eval_stmt n E inter s x) as [s1 r1] eqn:Hx.
    destruct r1; try (right; inversion H; subst; split; [discriminate|split; [exact Hr|exists n; exact Hx]]).
    left. exists s1. split; [split; [discriminate|exists n; exact Hx]|split; [exact Hr|exists n; exact H]].
  - intros [(s1 & [_ [n1 H1]] & [Hr [n2 H2]])|[Ho [Hr [n H]]]].
    + split; [exact Hr|]. exists (Nat.max n1 n2). cbn [run_list].
      apply (stmt_up _ _ _ (Nat.max n1 n2)) in H1; [|discriminate|lia].
      apply (run_list_up _ _ _ (Nat.max n1 n2)) in H2; [|exact Hr|lia]. rewrite H1. exact H2.
    + split; [exact Hr|]. exists n. cbn [run_list]. rewrite H. destruct r; try reflexivity. congruence.
Qed.

(** ** while *)
Lemma ires_of_fuel {A} (r : res A) : ires_of r <> IFuel -> r <> Fuel.
Proof. intros H ->. apply H. reflexivity. Qed.

Lemma while_sound E inter c b n ke k : forall s s' r,
  while_loop (eval_stmt n E inter) ke E k c b s = (s', r) -> r <> IFuel -> whiles E inter c b s s' r.
Proof.
  induction k as [|k IH]; intros s s' r H Hr; [inversion H; congruence|].
  cbn [while_loop] in H. unfold with_expr in H.
  destruct (eval_expr ke E (e_vars s) (e_fs s) c (e_w s)) as [w [v|e|p|]] eqn:He.
  2-4: inversion H; subst; cbn [ires_of] in *; try congruence.
  2: apply wh_cond_err; split; [discriminate|exists ke; exact He].
  2: apply wh_cond_panic; split; [discriminate|exists ke; exact He].
  assert (Hv : evals E s c w (Ok v)) by (split; [discriminate|exists ke; exact He]).
  destruct v; cbn [as_boolean] in H;
    try (inversion H; subst; eapply wh_not_bool; [exact Hv|intros t Ht; discriminate]).
  destruct b0; [|inversion H; subst; eapply wh_false; exact Hv].
  destruct (run_list (eval_stmt n E inter) (with_w s w) b) as [s2 r2] eqn:Hb.
  assert (Hq : r2 <> IFuel -> runs_list E inter (with_w s w) b s2 r2) by (intros Hq; split; [exact Hq|exists n; exact Hb]).
  destruct r2; try (inversion H; subst; try congruence; apply (wh_abort _ _ _ _ _ _ _ _ Hv); [apply Hq|..]; discriminate).
  - eapply wh_again; [exact Hv|apply Hq; discriminate|tauto|]. apply IH; assumption.
  - inversion H; subst. eapply wh_break; [exact Hv|apply Hq; discriminate].
  - eapply wh_again; [exact Hv|apply Hq; discriminate|tauto|]. apply IH; assumption.
  - inversion H; subst. elim Hr; reflexivity.
Qed.

Lemma while_complete E inter c b s s' r :
  whiles E inter c b s s' r ->
  r <> IFuel /\ exists n, forall m k, n <= m -> n <= k -> while_loop (eval_stmt m E inter) m E k c b s = (s', r).
Proof.
  assert (Hexpr : forall s c w r, evals E s c w r -> exists n, forall m, n <= m ->
             eval_expr m E (e_vars s) (e_fs s) c (e_w s) = (w, r)).
  { intros s0 c0 w r0 [H0 [k H]]. exists k. intros m Hm. eapply expr_up; eassumption. }
  assert (Hlist : forall s l s' r, runs_list E inter s l s' r -> exists n, forall m, n <= m ->
             run_list (eval_stmt m E inter) s l = (s', r)).
  { intros s0 l s0' r0 [H0 [k H]]. exists k. intros m Hm. eapply run_list_up; eassumption. }
  induction 1 as [s w Hc|s w s2 q s' r Hc Hb Hq Hw [IHr [n3 IH]]|s w s2 Hc Hb|s w s2 q Hc Hb Hq1 Hq2 Hq3|s w v Hc Hv|s w e Hc|s w p Hc].
  - apply Hexpr in Hc. destruct Hc as [n1 Hc]. split; [discriminate|]. exists (S n1). intros m k Hm Hk.
    destruct k as [|k]; [lia|]. cbn [while_loop]. unfold with_expr. rewrite Hc by lia. reflexivity.
  - apply Hexpr in Hc. destruct Hc as [n1 Hc]. apply Hlist in Hb. destruct Hb as [n2 Hb]. split; [exact IHr|].
    exists (S (n1 + n2 + n3)). intros m k Hm Hk. destruct k as [|k]; [lia|]. cbn [while_loop]. unfold with_expr.
    rewrite Hc by lia. cbn [as_boolean]. rewrite Hb by lia. destruct Hq as [-> | ->]; apply IH; lia.
  - apply Hexpr in Hc. destruct Hc as [n1 Hc]. apply Hlist in Hb. destruct Hb as [n2 Hb]. split; [discriminate|].
    exists (S (n1 + n2)). intros m k Hm Hk. destruct k as [|k]; [lia|]. cbn [while_loop]. unfold with_expr.
    rewrite Hc by lia. cbn [as_boolean]. rewrite Hb by lia. reflexivity.
  - apply Hexpr in Hc. destruct Hc as [n1 Hc]. pose proof (proj1 Hb) as Hqf. apply Hlist in Hb. destruct Hb as [n2 Hb].
    split; [exact Hqf|].
    exists (S (n1 + n2)). intros m k Hm Hk. destruct k as [|k]; [lia|]. cbn [while_loop]. unfold with_expr.
    rewrite Hc by lia. cbn [as_boolean]. rewrite Hb by lia. destruct q; try reflexivity; congruence.
  - apply Hexpr in Hc. destruct Hc as [n1 Hc]. split; [discriminate|]. exists (S n1). intros m k Hm Hk.
    destruct k as [|k]; [lia|]. cbn [while_loop]. unfold with_expr. rewrite Hc by lia.
    destruct v; try reflexivity. elim (Hv b0); reflexivity.
  - apply Hexpr in Hc. destruct Hc as [n1 Hc]. split; [discriminate|]. exists (S n1). intros m k Hm Hk.
    destruct k as [|k]; [lia|]. cbn [while_loop]. unfold with_expr. rewrite Hc by lia. reflexivity.
  - apply Hexpr in Hc. destruct Hc as [n1 Hc]. split; [discriminate|]. exists (S n1). intros m k Hm Hk.
    destruct k as [|k]; [lia|]. cbn [while_loop]. unfold with_expr. rewrite Hc by lia. reflexivity.
Qed.

Lemma runs_while E inter s c b s' r :
  runs E inter s (SWhile c b) s' r <-> exists s1, whiles E inter c b (enter s) s1 r /\ s' = leave s1.
Proof.
  split.
  - intros [Hr [n H]]. destruct n as [|n]; [inversion H; congruence|]. cbn [eval_stmt] in H.
    destruct (while_loop (eval_stmt n E inter) n E n c b (enter s)) as [s1 r1] eqn:Hw.
    rewrite (in_scope_eq _ _ _ _ Hw) in H by (eapply (while_grows E _ _ _ _ _ (enter s)); [apply eval_stmt_grows|exact Hw]).
    inversion H; subst. exists s1. split; [|reflexivity]. eapply while_sound; eassumption.
  - intros (s1 & Hw & ->). apply while_complete in Hw. destruct Hw as [Hr [n Hw]]. split; [exact Hr|].
    exists (S n). cbn [eval_stmt]. specialize (Hw n n (le_n _) (le_n _)).
    apply in_scope_eq; [exact Hw|]. eapply (while_grows E _ _ _ _ _ (enter s)); [apply eval_stmt_grows|exact Hw].
Qed.

(** ** for *)
Lemma for_sound E inter x b n items : forall s s' r,
  e_vars s <> [] ->
  for_loop (eval_stmt n E inter) x b items s = (s', r) -> r <> IFuel -> iterates E inter x b items s s' r.
Proof.
  induction items as [|v items IH]; intros s s' r Hne H Hr; cbn [for_loop] in H.
  - inversion H; subst. constructor.
  - unfold est_insert in H. pose proof (vars_insert_spec x v (e_vars s)) as Hs.
    destruct (vars_insert x v (e_vars s)) as [vs|] eqn:Hi; [|congruence].
    assert (Ha : assigned s x v (with_vars s vs)) by (exists vs; split; [exact Hi|reflexivity]).
    destruct (run_list (eval_stmt n E inter) (with_vars s vs) b) as [s2 r2] eqn:Hb.
    assert (Hne2 : e_vars s2 <> []).
    { assert (Hg : grows (e_vars s) (e_vars s2)).
      { eapply grows_trans; [eapply grows_insert; exact Hi|].
        eapply (run_list_grows _ _ (with_vars s vs)); [apply eval_stmt_grows|exact Hb]. }
      intros H2. rewrite H2 in Hg. destruct (e_vars s); [congruence|contradiction]. }
    assert (Hq : r2 <> IFuel -> runs_list E inter (with_vars s vs) b s2 r2) by (intros Hq; split; [exact Hq|exists n; exact Hb]).
    destruct r2; try (inversion H; subst; try congruence; apply (it_abort _ _ _ _ _ _ _ _ _ _ Ha); [apply Hq|..]; discriminate).
    + eapply it_next; [exact Ha|apply Hq; discriminate|tauto|]. apply IH; assumption.
    + inversion H; subst. eapply it_break; [exact Ha|apply Hq; discriminate].
    + eapply it_next; [exact Ha|apply Hq; discriminate|tauto|]. apply IH; assumption.
    + inversion H; subst. elim Hr; reflexivity.
Qed.

Lemma for_complete E inter x b items s s' r :
  iterates E inter x b items s s' r ->
  r <> IFuel /\ exists n, forall m, n <= m -> for_loop (eval_stmt m E inter) x b items s = (s', r).
Proof.
  assert (Hlist : forall s l s' r, runs_list E inter s l s' r -> exists n, forall m, n <= m ->
             run_list (eval_stmt m E inter) s l = (s', r)).
  { intros s0 l s0' r0 [H0 [k H]]. exists k. intros m Hm. eapply run_list_up; eassumption. }
  induction 1 as [s|v items s s1 s2 q s' r Ha Hb Hq Hw [IHr [n3 IH]]|v items s s1 s2 Ha Hb|v items s s1 s2 q Ha Hb Hq1 Hq2 Hq3].
  - split; [discriminate|]. exists 0. reflexivity.
  - destruct Ha as (vs & Hi & ->). apply Hlist in Hb. destruct Hb as [n2 Hb]. split; [exact IHr|].
    exists (n2 + n3). intros m Hm. cbn [for_loop]. unfold est_insert, with_vars. rewrite Hi. rewrite Hb by lia.
    destruct Hq as [-> | ->]; apply IH; lia.
  - destruct Ha as (vs & Hi & ->). apply Hlist in Hb. destruct Hb as [n2 Hb]. split; [discriminate|].
    exists n2. intros m Hm. cbn [for_loop]. unfold est_insert, with_vars. rewrite Hi. rewrite Hb by lia. reflexivity.
  - destruct Ha as (vs & Hi & ->). pose proof (proj1 Hb) as Hqf. apply Hlist in Hb. destruct Hb as [n2 Hb]. split; [exact Hqf|].
    exists n2. intros m Hm. cbn [for_loop]. unfold est_insert, with_vars. rewrite Hi. rewrite Hb by lia.
    destruct q; try reflexivity; congruence.
Qed.

Lemma runs_for E inter s x e b s' r :
  runs E inter s (SFor (EIdent x) e b) s' r <->
  exists s1, s' = leave s1 /\
    ((exists w items h, evals E (enter s) e w (Ok (VArr items h)) /\ iterates E inter x b items (with_w (enter s) w) s1 r)
     \/ (exists w v, evals E (enter s) e w (Ok v) /\ (forall items h, v <> VArr items h) /\
                      s1 = with_w (enter s) w /\ r = IErr (expected "array" v))
     \/ (exists w er, evals E (enter s) e w (Err er) /\ s1 = with_w (enter s) w /\ r = IErr er)
     \/ (exists w p, evals E (enter s) e w (Panic p) /\ s1 = with_w (enter s) w /\ r = IPanic p)).
Proof.
  split.
  - intros [Hr [n H]]. destruct n as [|n]; [inversion H; congruence|]. cbn [eval_stmt] in H.
    match type of H with in_scope _ ?f = _ => set (body := f) in H end.
    destruct (body (enter s)) as [s1 r1] eqn:Hw.
    rewrite (in_scope_eq _ _ _ _ Hw) in H by (eapply (for_body_grows n E inter x e b (enter s)); exact Hw).
    inversion H; subst. exists s1. split; [reflexivity|]. unfold body, with_expr in Hw.
    destruct (eval_expr n E (e_vars (enter s)) (e_fs (enter s)) e (e_w (enter s))) as [w [v|er|p|]] eqn:He.
    + assert (Hv : evals E (enter s) e w (Ok v)) by (split; [discriminate|exists n; exact He]).
      destruct v; cbn [as_vec] in Hw; try (right; left; exists w; eexists; split; [exact Hv|];
         split; [intros ? ? Hc; discriminate|]; inversion Hw; auto).
      left. exists w, vec, is_hist. split; [exact Hv|]. eapply for_sound; [|exact Hw|exact Hr]. discriminate.
    + right; right; left. exists w, er. split; [split; [discriminate|exists n; exact He]|]. inversion Hw; auto.
    + right; right; right. exists w, p. split; [split; [discriminate|exists n; exact He]|]. inversion Hw; auto.
    + inversion Hw; subst. cbn in Hr. congruence.
  - intros (s1 & -> & H).
    assert (Hgoal : forall n, (with_expr n E (enter s) e (fun s v => match as_vec v with
      | Ok items => for_loop (eval_stmt n E inter) x b items s | r => (s, ires_of r) end) = (s1, r)) -> r <> IFuel ->
      runs E inter s (SFor (EIdent x) e b) (leave s1) r).
    { intros n Hn Hr. split; [exact Hr|]. exists (S n). cbn [eval_stmt].
      apply in_scope_eq; [exact Hn|]. eapply (for_body_grows n E inter x e b (enter s)). exact Hn. }
    destruct H as [(w & items & h & [_ [k He]] & Hit)|[(w & v & [_ [k He]] & Hv & -> & ->)|[(w & er & [_ [k He]] & -> & ->)|(w & p & [_ [k He]] & -> & ->)]]].
    + apply for_complete in Hit. destruct Hit as [Hr [n Hit]]. apply (Hgoal (k + n)); [|exact Hr].
      unfold with_expr. rewrite (expr_up _ _ _ _ _ _ (k + n) _ _ He) by (discriminate || lia).
      cbn [as_vec]. apply Hit. lia.
    + apply (Hgoal k); [|discriminate]. unfold with_expr. rewrite He. destruct v; try reflexivity. elim (Hv vec is_hist); reflexivity.
    + apply (Hgoal k); [|discriminate]. unfold with_expr. rewrite He. reflexivity.
    + apply (Hgoal k); [|discriminate]. unfold with_expr. rewrite He. reflexivity.
Qed.

Lemma runs_if E inter s c tb fb s' r :
  runs E inter s (SIf c tb fb) s' r <->
  exists s1, s' = leave s1 /\
    ((exists w t, evals E (enter s) c w (Ok (VBool t)) /\ runs_list E inter (with_w (enter s) w) (if t then tb else fb) s1 r)
     \/ (exists w v, evals E (enter s) c w (Ok v) /\ (forall t, v <> VBool t) /\
                      s1 = with_w (enter s) w /\ r = IErr (expected "boolean" v))
     \/ (exists w er, evals E (enter s) c w (Err er) /\ s1 = with_w (enter s) w /\ r = IErr er)
     \/ (exists w p, evals E (enter s) c w (Panic p) /\ s1 = with_w (enter s) w /\ r = IPanic p)).
Proof.
  split.
  - intros [Hr [n H]]. destruct n as [|n]; [inversion H; congruence|]. cbn [eval_stmt] in H.
    match type of H with in_scope _ ?f = _ => set (body := f) in H end.
    destruct (body (enter s)) as [s1 r1] eqn:Hw.
    rewrite (in_scope_eq _ _ _ _ Hw) in H by (eapply (if_body_grows n E inter c tb fb (enter s)); exact Hw).
    inversion H; subst. exists s1. split; [reflexivity|]. unfold body, with_expr in Hw.
    destruct (eval_expr n E (e_vars (enter s)) (e_fs (enter s)) c (e_w (enter s))) as [w [v|er|p|]] eqn:He.
    + assert (Hv : evals E (enter s) c w (Ok v)) by (split; [discriminate|exists n; exact He]).
      destruct v; cbn [as_boolean] in Hw; try (right; left; exists w; eexists; split; [exact Hv|];
         split; [intros ? Hc; discriminate|]; inversion Hw; auto).
      left. exists w, b. split; [exact Hv|]. split; [exact Hr|]. exists n. exact Hw.
    + right; right; left. exists w, er. split; [split; [discriminate|exists n; exact He]|]. inversion Hw; auto.
    + right; right; right. exists w, p. split; [split; [discriminate|exists n; exact He]|]. inversion Hw; auto.
    + inversion Hw; subst. cbn in Hr. congruence.
  - intros (s1 & -> & H).
    assert (Hgoal : forall n, (with_expr n E (enter s) c (fun s v => match as_boolean v with
      | Ok b => run_list (eval_stmt n E inter) s (if b then tb else fb) | r => (s, ires_of r) end) = (s1, r)) -> r <> IFuel ->
      runs E inter s (SIf c tb fb) (leave s1) r).
    { intros n Hn Hr. split; [exact Hr|]. exists (S n). cbn [eval_stmt].
      apply in_scope_eq; [exact Hn|]. eapply (if_body_grows n E inter c tb fb (enter s)). exact Hn. }
    destruct H as [(w & t & [_ [k He]] & [Hr [n Hit]])|[(w & v & [_ [k He]] & Hv & -> & ->)|[(w & er & [_ [k He]] & -> & ->)|(w & p & [_ [k He]] & -> & ->)]]].
    + apply (Hgoal (k + n)); [|exact Hr].
      unfold with_expr. rewrite (expr_up _ _ _ _ _ _ (k + n) _ _ He) by (discriminate || lia).
      cbn [as_boolean]. eapply run_list_up; [exact Hit|exact Hr|lia].
    + apply (Hgoal k); [|discriminate]. unfold with_expr. rewrite He. destruct v; try reflexivity. elim (Hv b); reflexivity.
    + apply (Hgoal k); [|discriminate]. unfold with_expr. rewrite He. reflexivity.
    + apply (Hgoal k); [|discriminate]. unfold with_expr. rewrite He. reflexivity.
Qed.

(** ** quit *)
Lemma tl_skipn {A} d (l : list A) : tl (skipn d l) = skipn (S d) l.
Proof. revert l. induction d as [|d IH]; intros [|x l]; try reflexivity. cbn [skipn]. rewrite IH. reflexivity. Qed.
Lemma leave_drop d q : leave (drop_scopes d q) = drop_scopes (S d) q.
Proof. unfold leave, drop_scopes. cbn [e_vars e_fs e_w]. rewrite tl_skipn. reflexivity. Qed.

Scheme reaches_mind := Induction for reaches Sort Prop
  with reaches_while_mind := Induction for reaches_while Sort Prop
  with reaches_for_mind := Induction for reaches_for Sort Prop.
Combined Scheme reaches_mutind from reaches_mind, reaches_while_mind, reaches_for_mind.

Lemma reaches_sound_all E inter :
  (forall s l d q, reaches E inter s l d q -> runs_list E inter s l (drop_scopes d q) IQuit) /\
  (forall c b s d q, reaches_while E inter c b s d q -> whiles E inter c b s (drop_scopes d q) IQuit) /\
  (forall x b items s d q, reaches_for E inter x b items s d q -> iterates E inter x b items s (drop_scopes d q) IQuit).
Proof.
  apply (reaches_mutind E inter
    (fun s l d q _ => runs_list E inter s l (drop_scopes d q) IQuit)
    (fun c b s d q _ => whiles E inter c b s (drop_scopes d q) IQuit)
    (fun x b items s d q _ => iterates E inter x b items s (drop_scopes d q) IQuit)).
  - intros s l. apply runs_list_cons. right. split; [discriminate|]. split; [discriminate|].
    exists 1. unfold drop_scopes. cbn. destruct s; reflexivity.
  - intros s x s1 l d q Hx _ IH. apply runs_list_cons. left. exists s1. split; assumption.
  - intros s c tb fb l w t d q He _ IH. apply runs_list_cons. right. split; [discriminate|].
    apply runs_if. exists (drop_scopes d q). split; [symmetry; apply leave_drop|]. left. exists w, t. split; assumption.
  - intros s c b l d q _ IH. apply runs_list_cons. right. split; [discriminate|].
    apply runs_while. exists (drop_scopes d q). split; [exact IH|symmetry; apply leave_drop].
  - intros s x e b l w items h d q He _ IH. apply runs_list_cons. right. split; [discriminate|].
    apply runs_for. exists (drop_scopes d q). split; [symmetry; apply leave_drop|]. left. exists w, items, h. split; assumption.
  - intros c b s w d q He _ IH. eapply wh_abort; [exact He|exact IH|discriminate..].
  - intros c b s w s2 r d q He Hb Hr _ IH. eapply wh_again; eassumption.
  - intros x b v items s s1 d q Ha _ IH. eapply it_abort; [exact Ha|exact IH|discriminate..].
  - intros x b v items s s1 s2 r d q Ha Hb Hr _ IH. eapply it_next; eassumption.
Qed.

Lemma with_expr_quit k E s e c s' :
  with_expr k E s e c = (s', IQuit) ->
  exists w v, evals E s e w (Ok v) /\ c (with_w s w) v = (s', IQuit).
Proof.
  unfold with_expr. destruct (eval_expr k E (e_vars s) (e_fs s) e (e_w s)) as [w [v|er|p|]] eqn:He; intros H;
    try (inversion H; discriminate).
  exists w, v. split; [split; [discriminate|exists k; exact He]|exact H].
Qed.

Lemma with_expr_no_quit k E s e c s' :
  (forall s v s', c s v <> (s', IQuit)) -> with_expr k E s e c <> (s', IQuit).
Proof. intros Hc H. apply with_expr_quit in H. destruct H as (w & v & _ & H). elim (Hc _ _ _ H). Qed.

Lemma est_insert_no_quit x v s s' : est_insert x v s <> (s', IQuit).
Proof. unfold est_insert. destruct (vars_insert x v (e_vars s)); discriminate. Qed.
Lemma do_write_no_quit E s t s' : do_write E s t <> (s', IQuit).
Proof. unfold do_write. destruct (sink E _ t); discriminate. Qed.
Lemma ires_of_no_quit {A} (r : res A) : ires_of r <> IQuit.
Proof. destruct r; discriminate. Qed.

Definition quit_reached (E : env) (inter : bool) (s : est) (l : list stmt) (s' : est) : Prop :=
  exists d q, reaches E inter s l d q /\ s' = drop_scopes d q.

Lemma run_list_quit E inter n l :
  (forall s x l s', eval_stmt n E inter s x = (s', IQuit) -> quit_reached E inter s (x :: l) s') ->
  forall s s', run_list (eval_stmt n E inter) s l = (s', IQuit) -> quit_reached E inter s l s'.
Proof.
  intros Hx. induction l as [|x l IH]; intros s s' H; cbn [run_list] in H; [inversion H|].
  destruct (eval_stmt n E inter s x) as [s1 r1] eqn:Hs. destruct r1; try (inversion H; discriminate).
  - apply IH in H. destruct H as (d & q & Hr & ->). exists d, q. split; [|reflexivity].
    eapply re_later; [split; [discriminate|exists n; exact Hs]|exact Hr].
  - inversion H; subst. apply Hx; exact Hs.
Qed.

Lemma eval_stmt_quit E inter n : forall s x l s',
  eval_stmt n E inter s x = (s', IQuit) -> quit_reached E inter s (x :: l) s'.
Proof.
  induction n as [|n IH]; intros s x l s' H; [inversion H|].
  assert (Hlist : forall l s s', run_list (eval_stmt n E inter) s l = (s', IQuit) -> quit_reached E inter s l s').
  { intros l0. apply run_list_quit. exact IH. }
  assert (Hstep : forall s1 d q, s' = leave s1 -> s1 = drop_scopes d q -> s' = drop_scopes (S d) q).
  { intros s1 d q -> ->. apply leave_drop. }
  destruct x; cbn [eval_stmt] in H; try (inversion H; fail).
  - exfalso. revert H. apply with_expr_no_quit. intros s0 v s2 H.
    destruct lhs; try (apply est_insert_no_quit in H; exact H);
      match type of H with (let '(_, _) := ?m in _) = _ => destruct m as [w1 r1] end;
      destruct r1; inversion H.
  - match type of H with in_scope _ ?f = _ => set (body := f) in H end.
    destruct (body (enter s)) as [s1 r1] eqn:Hw.
    rewrite (in_scope_eq _ _ _ _ Hw) in H by (eapply (if_body_grows n E inter cond tb fb (enter s)); exact Hw).
    inversion H as [[Hs' Hr']]; subst r1. apply with_expr_quit in Hw. destruct Hw as (w & v & Hv & Hw).
    destruct v; cbn [as_boolean] in Hw; try (inversion Hw; discriminate).
    apply Hlist in Hw. destruct Hw as (d & q & Hre & Heq). exists (S d), q. split; [|rewrite Heq; apply leave_drop].
    eapply re_if; eassumption.
  - destruct (while_loop (eval_stmt n E inter) n E n cond body (enter s)) as [s1 r1] eqn:Hw.
    rewrite (in_scope_eq _ _ _ _ Hw) in H by (eapply (while_grows E _ _ _ _ _ (enter s)); [apply eval_stmt_grows|exact Hw]).
    inversion H as [[Hs' Hr']]; subst r1.
    assert (Hq : forall k s0 s1, while_loop (eval_stmt n E inter) n E k cond body s0 = (s1, IQuit) ->
      exists d q, reaches_while E inter cond body s0 d q /\ s1 = drop_scopes d q).
    { clear - Hlist. induction k as [|k IHk]; intros s0 s1 Hw; cbn [while_loop] in Hw; [inversion Hw|].
      apply with_expr_quit in Hw. destruct Hw as (w & v & Hv & Hw).
      destruct v; cbn [as_boolean] in Hw; try (inversion Hw; discriminate).
      destruct b; [|inversion Hw].
      destruct (run_list (eval_stmt n E inter) (with_w s0 w) body) as [s2 r2] eqn:Hb.
      destruct r2; try (inversion Hw; discriminate).
      - apply IHk in Hw. destruct Hw as (d & q & Hre & ->). exists d, q. split; [|reflexivity].
        eapply rw_later; [exact Hv|split; [|exists n; exact Hb]|left; reflexivity|exact Hre]; discriminate.
      - inversion Hw; subst. apply Hlist in Hb. destruct Hb as (d & q & Hre & ->). exists d, q. split; [|reflexivity].
        eapply rw_now; eassumption.
      - apply IHk in Hw. destruct Hw as (d & q & Hre & ->). exists d, q. split; [|reflexivity].
        eapply rw_later; [exact Hv|split; [|exists n; exact Hb]|right; reflexivity|exact Hre]; discriminate. }
    apply Hq in Hw. destruct Hw as (d & q & Hre & Heq). exists (S d), q. split; [|rewrite Heq; apply leave_drop].
    apply re_while; exact Hre.
  - destruct ident as [x| | | | | | | | | |];
      try (unfold in_scope in H; cbn in H; inversion H; discriminate).
    match type of H with in_scope _ ?f = _ => set (bd := f) in H end.
    destruct (bd (enter s)) as [s1 r1] eqn:Hw.
    rewrite (in_scope_eq _ _ _ _ Hw) in H by (eapply (for_body_grows n E inter x range body (enter s)); exact Hw).
    inversion H as [[Hs' Hr']]; subst r1. apply with_expr_quit in Hw. destruct Hw as (w & v & Hv & Hw).
    destruct v; cbn [as_vec] in Hw; try (inversion Hw; discriminate).
    assert (Hq : forall items s0 s1, for_loop (eval_stmt n E inter) x body items s0 = (s1, IQuit) ->
      exists d q, reaches_for E inter x body items s0 d q /\ s1 = drop_scopes d q).
    { clear - Hlist. induction items as [|v items IHk]; intros s0 s1 Hw; cbn [for_loop] in Hw; [inversion Hw|].
      unfold est_insert in Hw. destruct (vars_insert x v (e_vars s0)) as [vs|] eqn:Hi; [|inversion Hw].
      assert (Ha : assigned s0 x v (with_vars s0 vs)) by (exists vs; split; [exact Hi|reflexivity]).
      destruct (run_list (eval_stmt n E inter) (with_vars s0 vs) body) as [s2 r2] eqn:Hb.
      destruct r2; try (inversion Hw; discriminate).
      - apply IHk in Hw. destruct Hw as (d & q & Hre & ->). exists d, q. split; [|reflexivity].
        eapply rf_later; [exact Ha|split; [|exists n; exact Hb]|left; reflexivity|exact Hre]; discriminate.
      - inversion Hw; subst. apply Hlist in Hb. destruct Hb as (d & q & Hre & ->). exists d, q. split; [|reflexivity].
        eapply rf_now; eassumption.
      - apply IHk in Hw. destruct Hw as (d & q & Hre & ->). exists d, q. split; [|reflexivity].
        eapply rf_later; [exact Ha|split; [|exists n; exact Hb]|right; reflexivity|exact Hre]; discriminate. }
    apply Hq in Hw. destruct Hw as (d & q & Hre & Heq). exists (S d), q. split; [|rewrite Heq; apply leave_drop].
    eapply re_for; eassumption.
  - apply do_write_no_quit in H; contradiction.
  - inversion H; subst. exists 0, s'. split; [constructor|unfold drop_scopes; destruct s'; reflexivity].
  - exfalso. revert H. apply with_expr_no_quit. intros s0 v s2 H.
    destruct (as_string true v); try (inversion H; fail). destruct (fs_new E a (e_w s0)) as [w1 r1]. destruct r1; inversion H.
  - exfalso. revert H. apply with_expr_no_quit. intros s0 v s2 H.
    destruct (print_text _ _ v); try (inversion H; fail). apply do_write_no_quit in H; exact H.
  - exfalso. revert H. apply with_expr_no_quit. intros s0 v s2 H.
    destruct inter; [apply do_write_no_quit in H; exact H|inversion H].
Qed.

Lemma quit_iff E inter s l s' :
  runs_list E inter s l s' IQuit <-> exists d q, reaches E inter s l d q /\ s' = drop_scopes d q.
Proof.
  split.
  - intros [_ [n H]]. eapply run_list_quit; [apply eval_stmt_quit|exact H].
  - intros (d & q & H & ->). apply (proj1 (reaches_sound_all E inter)). exact H.
Qed.

From Verif Require Import Pom Parse Semantics Runtime.
Lemma session_quit n E inter r cmd r' :
  rt_eval n E inter r cmd = (r', RQuit) ->
  exists l d q, parse cmd = Ok l /\ reaches E inter (r_eval r) l d q /\ r_eval r' = drop_scopes d q.
Proof.
  unfold rt_eval. destruct (parse cmd) as [l| | |]; try (intros H; inversion H; discriminate).
  destruct (analyze (r_sem r) l) as [sem' [[]| | |]]; try (intros H; inversion H; discriminate).
  unfold eval_prog. destruct (run_list (eval_stmt n E inter) (r_eval r) l) as [s1 r1] eqn:Hr.
  intros H. inversion H as [[Hrt Hres]]. destruct r1; try discriminate Hres.
  assert (Hq : runs_list E inter (r_eval r) l s1 IQuit) by (split; [discriminate|exists n; exact Hr]).
  apply quit_iff in Hq. destruct Hq as (d & q & Hre & ->). exists l, d, q. auto.
Qed.

Lemma results_unique E inter :
  (forall s e w1 r1 w2 r2, evals E s e w1 r1 -> evals E s e w2 r2 -> w1 = w2 /\ r1 = r2) /\
  (forall s st s1 r1 s2 r2, runs E inter s st s1 r1 -> runs E inter s st s2 r2 -> s1 = s2 /\ r1 = r2) /\
  (forall s l s1 r1 s2 r2, runs_list E inter s l s1 r1 -> runs_list E inter s l s2 r2 -> s1 = s2 /\ r1 = r2) /\
  (forall s l n m s1 r1, run_list (eval_stmt n E inter) s l = (s1, r1) -> r1 <> IFuel -> n <= m ->
      run_list (eval_stmt m E inter) s l = (s1, r1)).
Proof.
  split; [intros; eapply evals_fun; eassumption|]. split; [intros; eapply runs_fun; eassumption|].
  split; [intros; eapply runs_list_fun; eassumption|]. intros; eapply run_list_up; eassumption.
Qed.

Lemma assigned_iff s x v s' :
  assigned s x v s' ->
  ((exists i, innermost_binding (e_vars s) x i /\ set_at (e_vars s) (e_vars s') i x v)
        \/ (unbound (e_vars s) x /\ set_at (e_vars s) (e_vars s') 0 x v)) /\
  e_fs s' = e_fs s /\ e_w s' = e_w s.
Proof.
  intros (vs & Hi & ->). pose proof (vars_insert_spec x v (e_vars s)) as Hs. rewrite Hi in Hs. cbn.
  split; [|auto]. destruct Hs as [(i & H1 & H2 & _)|(H1 & H2 & _)]; eauto.
Qed.
