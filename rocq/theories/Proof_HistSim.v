(** Programs without print, == and != do not see the histogram mark. *)
From Verif Require Import Base Ast Structs Definitions Value Variables Fs Eval Lib Spec_Safe Spec_Text Proof_Session.
From Coq Require Import Lia.
Arguments s_ s%string_scope.

Local Notation vsim := same_but_hist.
Definition fsim (p p' : str * value) : Prop := fst p = fst p' /\ vsim (snd p) (snd p').
Lemma sim_refl v : vsim v v.
Proof.
  induction v as [z|s|b|vs h IH|f|n k fs IH] using value_ind'; constructor.
  - induction IH; constructor; assumption.
  - induction IH; constructor; auto.
Qed.
Lemma fsim_refl fs : Forall2 fsim fs fs.
Proof. induction fs; constructor; [split; [reflexivity|apply sim_refl]|assumption]. Qed.

Definition rsim {A} (R : A -> A -> Prop) (r r' : res A) : Prop :=
  match r, r' with
  | Ok a, Ok a' => R a a'
  | Err e, Err e' => e = e'
  | Panic p, Panic p' => p = p'
  | Fuel, Fuel => True
  | _, _ => False
  end.
Lemma rsim_refl {A} (R : A -> A -> Prop) r : (forall a, R a a) -> rsim R r r.
Proof. intros H. destruct r; cbn; auto. Qed.
Lemma rsim_bind {A B} (R : A -> A -> Prop) (Q : B -> B -> Prop) m m' (g g' : A -> res B) :
  rsim R m m' -> (forall a a', R a a' -> rsim Q (g a) (g' a')) -> rsim Q (bind m g) (bind m' g').
Proof. intros H Hg. destruct m, m'; cbn in *; try contradiction; auto. Qed.
Definition msim {A} (R : A -> A -> Prop) (m m' : M A) : Prop := forall w, fst (m w) = fst (m' w) /\ rsim R (snd (m w)) (snd (m' w)).
Lemma msim_ret {A} (R : A -> A -> Prop) r r' : rsim R r r' -> msim R (mret r) (mret r').
Proof. intros H w. split; [reflexivity|exact H]. Qed.
Lemma msim_refl {A} (R : A -> A -> Prop) (m : M A) : (forall a, R a a) -> msim R m m.
Proof. intros H w. split; [reflexivity|apply rsim_refl, H]. Qed.
Lemma msim_bind {A B} (R : A -> A -> Prop) (Q : B -> B -> Prop) (m m' : M A) (g g' : A -> M B) :
  msim R m m' -> (forall a a', R a a' -> msim Q (g a) (g' a')) -> msim Q (mbind m g) (mbind m' g').
Proof.
  intros H Hg w. unfold mbind. specialize (H w). destruct (m w) as [w1 r1], (m' w) as [w2 r2]. cbn in H. destruct H as [<- H].
  destruct r1, r2; cbn in H; try contradiction; cbn; subst; auto. apply Hg. exact H.
Qed.

(** stores *)
Lemma assoc_sim x m m' : Forall2 fsim m m' ->
  match assoc x m, assoc x m' with Some v, Some v' => vsim v v' | None, None => True | _, _ => False end.
Proof.
  induction 1 as [|[y v] [y' v'] m m' [H1 H2] _ IH]; cbn in *; [exact I|]. subst y'. destruct (str_eqb y x); [exact H2|exact IH].
Qed.
Lemma get_sim x vs vs' : same_store vs vs' ->
  match vars_get x vs, vars_get x vs' with Some v, Some v' => vsim v v' | None, None => True | _, _ => False end.
Proof.
  induction 1 as [|m m' vs vs' Hm _ IH]; cbn; [exact I|]. pose proof (assoc_sim x _ _ Hm) as H. destruct (assoc x m), (assoc x m'); try contradiction; [exact H|exact IH].
Qed.
Lemma scope_insert_sim x v v' m m' : vsim v v' -> Forall2 fsim m m' -> Forall2 fsim (scope_insert x v m) (scope_insert x v' m').
Proof.
  intros Hv. induction 1 as [|[y u] [y' u'] m m' [H1 H2] Hm IH]; cbn in *.
  - constructor; [split; [reflexivity|exact Hv]|constructor].
  - subst y'. destruct (str_eqb y x); constructor; try (split; [reflexivity|assumption]); assumption.
Qed.
Lemma replace_sim x v v' vs vs' : vsim v v' -> same_store vs vs' ->
  match vars_replace x v vs, vars_replace x v' vs' with Some r, Some r' => same_store r r' | None, None => True | _, _ => False end.
Proof.
  intros Hv. induction 1 as [|m m' vs vs' Hm Hvs IH]; cbn; [exact I|]. pose proof (assoc_sim x _ _ Hm) as H. destruct (assoc x m), (assoc x m'); try contradiction.
  - constructor; [apply scope_insert_sim; assumption|exact Hvs].
  - destruct (vars_replace x v vs), (vars_replace x v' vs'); try contradiction; [|exact I]. constructor; assumption.
Qed.
Lemma insert_sim x v v' vs vs' : vsim v v' -> same_store vs vs' ->
  match vars_insert x v vs, vars_insert x v' vs' with Some r, Some r' => same_store r r' | None, None => True | _, _ => False end.
Proof.
  intros Hv H. unfold vars_insert. pose proof (replace_sim x _ _ _ _ Hv H) as R. destruct (vars_replace x v vs), (vars_replace x v' vs'); try contradiction; [exact R|].
  destruct H; [exact I|]. constructor; [apply scope_insert_sim; assumption|assumption].
Qed.
Lemma zlen_sim {A B} (R : A -> B -> Prop) l l' : Forall2 R l l' -> zlen l = zlen l'.
Proof. intros H. unfold zlen. induction H; [reflexivity|]. cbn [length]. lia. Qed.
Lemma nth_sim {A} (R : A -> A -> Prop) n : forall l l', Forall2 R l l' ->
  match nth_error l n, nth_error l' n with Some a, Some a' => R a a' | None, None => True | _, _ => False end.
Proof. induction n as [|n IH]; intros l l' H; destruct H as [|a a' l l' Ha Hl]; cbn; try exact I; [exact Ha|apply IH; exact Hl]. Qed.

(** operators and displays *)
Lemma as_integer_sim v v' : vsim v v' -> rsim (fun z z' => z = z' /\ v = VInt z /\ v' = VInt z) (as_integer v) (as_integer v').
Proof. intros H; destruct H; cbn [as_integer as_boolean as_vec as_function as_struct]; unfold expected; cbn [rsim short_display]; rewrite ?(zlen_sim vsim _ _ H); cbn; auto. Qed.
Lemma as_boolean_sim v v' : vsim v v' -> rsim eq (as_boolean v) (as_boolean v').
Proof. intros H; destruct H; cbn [as_integer as_boolean as_vec as_function as_struct]; unfold expected; cbn [rsim short_display]; rewrite ?(zlen_sim vsim _ _ H); cbn; auto. Qed.
Lemma as_vec_sim v v' : vsim v v' -> rsim (Forall2 vsim) (as_vec v) (as_vec v').
Proof. intros H; destruct H; cbn [as_integer as_boolean as_vec as_function as_struct]; unfold expected; cbn [rsim short_display]; rewrite ?(zlen_sim vsim _ _ H); cbn; auto. Qed.
Lemma as_function_sim v v' : vsim v v' -> rsim eq (as_function v) (as_function v').
Proof. intros H; destruct H; cbn [as_integer as_boolean as_vec as_function as_struct]; unfold expected; cbn [rsim short_display]; rewrite ?(zlen_sim vsim _ _ H); cbn; auto. Qed.
Lemma as_struct_sim v v' : vsim v v' -> rsim (fun p p' => fst p = fst p' /\ Forall2 fsim (snd p) (snd p')) (as_struct v) (as_struct v').
Proof. intros H; destruct H; cbn [as_integer as_boolean as_vec as_function as_struct]; unfold expected; cbn [rsim short_display]; rewrite ?(zlen_sim vsim _ _ H); cbn; auto. Qed.
Lemma plus_sim a a' b b' : vsim a a' -> vsim b b' -> rsim vsim (eval_plus a b) (eval_plus a' b').
Proof.
  intros Ha Hb. destruct Ha as [z|s|b0|f|vs vs' h h' H|n k fs fs' H]; destruct Hb as [z'|s'|b0'|f'|vs2 vs2' h2 h2' H'|n' k' fs2 fs2' H']; cbn; try reflexivity; try (constructor; fail);
    try (apply rsim_refl; apply sim_refl);
    constructor; apply Forall2_app; try assumption; constructor; constructor; assumption.
Qed.
Lemma unop_sim oc op v v' : vsim v v' -> rsim vsim (eval_unop oc op v) (eval_unop oc op v').
Proof.
  intros H. destruct H; destruct op; cbn [eval_unop as_integer bind]; unfold expected; cbn [rsim short_display]; rewrite ?(zlen_sim vsim _ _ H); try reflexivity; try (cbn; constructor; fail).
  destruct (i128_neg oc z); cbn; auto; constructor.
Qed.
Lemma type_sim v v' : vsim v v' -> type_str v = type_str v'.
Proof. intros H; destruct H; reflexivity. Qed.
Lemma display_sim v : forall v', vsim v v' -> display v = display v'.
Proof.
  induction v as [z|s|b|vs h IH|f|n k fs IH] using value_ind'; intros v' H; inversion H as [| | | |? vs' ? h' Hl|? ? ? fs' Hl]; subst; try reflexivity; cbn [display]; clear H.
  - f_equal. f_equal. f_equal. revert vs' Hl. induction IH as [|v vs Hv _ IHs]; intros vs' Hl; inversion Hl as [|? v' ? vs2 Q1 Q2]; subst; [reflexivity|]. cbn [flat_map]. rewrite (Hv _ Q1). f_equal. apply IHs. assumption.
  - do 5 f_equal. revert fs' Hl. induction IH as [|v vs Hv _ IHs]; intros fs' Hl; inversion Hl as [|? [y u] ? ? [Q1 Q2] Q3]; subst; [reflexivity|]. destruct v as [x v]. cbn [flat_map fst snd] in *. subst y. rewrite (Hv _ Q2). f_equal. apply IHs. assumption.
Qed.
Lemma get_field_sim s fs fs' x : Forall2 fsim fs fs' -> rsim vsim (get_field s fs x) (get_field s fs' x).
Proof. intros H. unfold get_field. pose proof (assoc_sim x _ _ H) as Q. destruct (assoc x fs), (assoc x fs'); try contradiction; cbn; auto. Qed.
Lemma key_arg_sim fs fs' x b : Forall2 fsim fs fs' -> rsim eq (key_arg fs x b) (key_arg fs' x b).
Proof.
  intros H. unfold key_arg. eapply rsim_bind; [apply get_field_sim; exact H|]. intros v v' Hv. eapply rsim_bind; [apply as_integer_sim; exact Hv|].
  intros z z' (<- & _). apply rsim_refl. reflexivity.
Qed.
Lemma search_args_sim t fs fs' : Forall2 fsim fs fs' -> rsim eq (search_args t fs) (search_args t fs').
Proof.
  intros H. unfold search_args. eapply rsim_bind; [apply rsim_refl; reflexivity|]. intros ? ? <-.
  repeat (eapply rsim_bind; [apply key_arg_sim; exact H|]; intros ? ? <-). reflexivity.
Qed.

Section Sim.
Variables (k : nat) (E : env) (f : option fs).
Lemma eval_search_sim t key key' : vsim key key' -> msim vsim (eval_search k E f t key) (eval_search k E f t key').
Proof.
  intros H. unfold eval_search. eapply msim_bind; [apply msim_ret, as_struct_sim; exact H|]. intros [[n k1] fs1] [[n' k1'] fs1'] [H1 H2]. cbn [fst snd] in *. injection H1 as <- <-.
  eapply (msim_bind eq); [apply msim_refl; reflexivity|]. intros _ _ _. destruct f as [g|]; [|apply msim_refl, sim_refl].
  eapply (msim_bind eq); [apply msim_ret, search_args_sim; exact H2|]. intros sk ? <-. apply msim_refl, sim_refl.
Qed.

Lemma no_eq_sub e e' : In e' (subexprs e) -> no_equality e -> no_equality e'.
Proof.
  revert e'. assert (T : forall e a, In a (subexprs e) -> forall b, In b (subexprs a) -> In b (subexprs e)).
  { clear. assert (Refl : forall e, In e (subexprs e)) by (intros e; destruct e; left; reflexivity).
    induction e as [x|z|bb|s|e IH|e1 e2 IH1 IH2|e1 e2 IH1 IH2|g args IHg IHa|op l r IHl IHr|op e IH|t e IHt IH] using expr_ind'; intros a Ha b Hb; cbn [subexprs] in Ha |- *; destruct Ha as [<-|Ha];
      try exact Hb; cbn [In] in Ha; try contradiction; right; rewrite ?in_app_iff in *; try (destruct Ha as [Ha|Ha]); eauto.
    right. apply in_flat_map in Ha. destruct Ha as (x & Hx & Ha). apply in_flat_map. exists x. split; [exact Hx|]. rewrite Forall_forall in IHa. eapply IHa; eassumption. }
  intros e' H He op l r Q. eapply He. eapply T; eassumption.
Qed.
Lemma sub_self e : In e (subexprs e).
Proof. destruct e; left; reflexivity. Qed.

Lemma eval_expr_sim vs vs' e : same_store vs vs' -> no_equality e -> msim vsim (eval_expr k E vs f e) (eval_expr k E vs' f e).
Proof.
  intros Hs.
  induction e as [x|z|b|s|e IH|e1 e2 IH1 IH2|e1 e2 IH1 IH2|g args IHg IHa|op l r IHl IHr|op e IH|t e IHt IH] using expr_ind'; intros Hn; cbn [eval_expr].
  - apply msim_ret. pose proof (get_sim x _ _ Hs) as Q. destruct (vars_get x vs), (vars_get x vs'); try contradiction; cbn; auto.
  - apply msim_refl, sim_refl.
  - apply msim_refl, sim_refl.
  - apply msim_refl, sim_refl.
  - apply IH. eapply no_eq_sub; [|exact Hn]. right. apply sub_self.
  - eapply msim_bind; [apply IH1; eapply no_eq_sub; [|exact Hn]; right; apply in_app_iff; left; apply sub_self|]. intros v v' Hv.
    eapply msim_bind; [apply msim_ret, as_struct_sim; exact Hv|]. intros [[n k1] fs1] [[n' k1'] fs1'] [H1 H2]. cbn [fst snd] in *.
    destruct e2; try (apply msim_refl, sim_refl). injection H1 as <- _. apply msim_ret, get_field_sim. exact H2.
  - eapply msim_bind; [apply IH1; eapply no_eq_sub; [|exact Hn]; right; apply in_app_iff; left; apply sub_self|]. intros v v' Hv.
    eapply msim_bind; [apply msim_ret, as_vec_sim; exact Hv|]. intros a a' Ha.
    eapply msim_bind; [apply IH2; eapply no_eq_sub; [|exact Hn]; right; apply in_app_iff; right; apply sub_self|]. intros i i' Hi.
    eapply msim_bind; [apply msim_ret, as_integer_sim; exact Hi|]. intros z z' (<- & _).
    eapply (msim_bind eq); [apply msim_refl; reflexivity|]. intros u ? <-. apply msim_ret. rewrite <- (zlen_sim _ _ _ Ha). destruct (u <? zlen a)%Z; [|reflexivity].
    pose proof (nth_sim _ (Z.to_nat u) _ _ Ha) as Q. destruct (nth_error a _), (nth_error a' _); try contradiction; cbn; auto.
  - assert (Hargs : forall a, In a args -> msim vsim (eval_expr k E vs f a) (eval_expr k E vs' f a)).
    { intros a Ha. rewrite Forall_forall in IHa. apply IHa; [exact Ha|]. eapply no_eq_sub; [|exact Hn]. right. apply in_app_iff. right. apply in_flat_map. exists a. split; [exact Ha|apply sub_self]. }
    eapply msim_bind; [apply IHg; eapply no_eq_sub; [|exact Hn]; right; apply in_app_iff; left; apply sub_self|]. intros v v' Hv.
    eapply (msim_bind eq); [apply msim_ret, as_function_sim; exact Hv|]. intros fn ? <-. clear IHa Hn.
    destruct fn; destruct args as [|a [|b [|c [|d [|]]]]]; try (apply msim_refl, sim_refl).
    + do 4 (eapply msim_bind; [apply Hargs; cbn; tauto|]; intros ? ? ?; eapply msim_bind; [apply msim_ret, as_integer_sim; eassumption|]; intros ? ? (<- & -> & ->)). apply msim_refl, sim_refl.
    + eapply msim_bind; [apply Hargs; cbn; tauto|]; intros ? ? ?. eapply msim_bind; [apply msim_ret, as_struct_sim; eassumption|]. intros [[n k1] fs1] [[n' k1'] fs1'] [H1 H2]. cbn [fst snd] in *. injection H1 as <- <-.
      destruct k1 as [[[? ?] ?]|]; apply msim_refl, sim_refl.
    + eapply msim_bind; [apply Hargs; cbn; tauto|]; intros ? ? ?. eapply msim_bind; [apply msim_ret, as_integer_sim; eassumption|]; intros ? ? (<- & _).
      eapply msim_bind; [apply Hargs; cbn; tauto|]; intros ? ? ?. apply eval_search_sim. assumption.
    + eapply msim_bind; [apply Hargs; cbn; tauto|]; intros ? ? Hx. rewrite (type_sim _ _ Hx). apply msim_refl, sim_refl.
    + eapply msim_bind; [apply Hargs; cbn; tauto|]; intros ? ? Hx. eapply msim_bind; [apply msim_ret, as_vec_sim; exact Hx|]. intros l l' Hl. rewrite (zlen_sim _ _ _ Hl). apply msim_refl, sim_refl.
    + eapply msim_bind; [apply Hargs; cbn; tauto|]; intros x x' Hx. apply msim_ret. cbn [rsim]. destruct Hx; try apply sim_refl; erewrite display_sim; try apply sim_refl; constructor; assumption.
  - assert (Hl : msim vsim (eval_expr k E vs f l) (eval_expr k E vs' f l)) by (apply IHl; eapply no_eq_sub; [|exact Hn]; right; apply in_app_iff; left; apply sub_self).
    assert (Hr : msim vsim (eval_expr k E vs f r) (eval_expr k E vs' f r)) by (apply IHr; eapply no_eq_sub; [|exact Hn]; right; apply in_app_iff; right; apply sub_self).
    destruct (Hn op l r (sub_self _)) as [N1 N2].
    assert (D : msim vsim
      (do a <- eval_expr k E vs f l ;; do x <- mret (as_integer a) ;; do b <- eval_expr k E vs f r ;; do y <- mret (as_integer b) ;; mret (eval_int_op op x y))
      (do a <- eval_expr k E vs' f l ;; do x <- mret (as_integer a) ;; do b <- eval_expr k E vs' f r ;; do y <- mret (as_integer b) ;; mret (eval_int_op op x y))).
    { eapply msim_bind; [exact Hl|]; intros ? ? ?. eapply msim_bind; [apply msim_ret, as_integer_sim; eassumption|]; intros ? ? (<- & _).
      eapply msim_bind; [exact Hr|]; intros ? ? ?. eapply msim_bind; [apply msim_ret, as_integer_sim; eassumption|]; intros ? ? (<- & _). apply msim_refl, sim_refl. }
    destruct op; try exact D; try congruence.
    + eapply msim_bind; [exact Hl|]; intros ? ? ?. eapply msim_bind; [exact Hr|]; intros ? ? ?. apply msim_ret, plus_sim; assumption.
    + eapply msim_bind; [exact Hl|]; intros ? ? ?. eapply (msim_bind eq); [apply msim_ret, as_boolean_sim; eassumption|]; intros x ? <-. destruct x; [|apply msim_refl, sim_refl].
      eapply msim_bind; [exact Hr|]; intros ? ? ?. eapply (msim_bind eq); [apply msim_ret, as_boolean_sim; eassumption|]; intros x ? <-. apply msim_refl, sim_refl.
    + eapply msim_bind; [exact Hl|]; intros ? ? ?. eapply (msim_bind eq); [apply msim_ret, as_boolean_sim; eassumption|]; intros x ? <-. destruct x; [apply msim_refl, sim_refl|].
      eapply msim_bind; [exact Hr|]; intros ? ? ?. eapply (msim_bind eq); [apply msim_ret, as_boolean_sim; eassumption|]; intros x ? <-. apply msim_refl, sim_refl.
  - eapply msim_bind; [apply IH; eapply no_eq_sub; [|exact Hn]; right; apply sub_self|]. intros ? ? ?. apply msim_ret, unop_sim. assumption.
  - eapply msim_bind; [apply IH; eapply no_eq_sub; [|exact Hn]; right; apply in_app_iff; right; apply sub_self|]. intros ? ? ?.
    eapply msim_bind; [apply msim_ret, as_integer_sim; eassumption|]; intros ? ? (<- & _). destruct (_ <? 0)%Z; apply msim_refl, sim_refl.
Qed.

Lemma assoc_update_sim x g g' fs1 fs1' : (forall v v', vsim v v' -> rsim vsim (g v) (g' v')) -> Forall2 fsim fs1 fs1' ->
  match assoc_update x g fs1, assoc_update x g' fs1' with Some r, Some r' => rsim (Forall2 fsim) r r' | None, None => True | _, _ => False end.
Proof.
  intros Hg. induction 1 as [|[y v] [y' v'] m m' [H1 H2] Hm IH]; cbn [assoc_update fst snd] in *; [exact I|]. subst y'. destruct (str_eqb y x).
  - eapply rsim_bind; [apply Hg; exact H2|]. intros u u' Hu. constructor; [split; [reflexivity|exact Hu]|exact Hm].
  - destruct (assoc_update x g m), (assoc_update x g' m'); try contradiction; [|exact I]. eapply rsim_bind; [exact IH|]. intros t t' Ht. constructor; [split; [reflexivity|exact H2]|exact Ht].
Qed.
Lemma firstn_sim {A} (R : A -> A -> Prop) n : forall l l', Forall2 R l l' -> Forall2 R (firstn n l) (firstn n l').
Proof. induction n as [|n IH]; intros l l' H; [constructor|]. destruct H; cbn; constructor; auto. Qed.
Lemma skipn_sim {A} (R : A -> A -> Prop) n : forall l l', Forall2 R l l' -> Forall2 R (skipn n l) (skipn n l').
Proof. induction n as [|n IH]; intros l l' H; [exact H|]. destruct H; cbn; [constructor|]. auto. Qed.
Lemma lhs_assign_sim vs vs' e : same_store vs vs' -> no_equality e -> forall g g', (forall v v', vsim v v' -> rsim vsim (g v) (g' v')) ->
  msim same_store (lhs_assign k E vs f e g) (lhs_assign k E vs' f e g').
Proof.
  intros Hs. assert (Refl : same_store vs vs -> True) by auto.
  induction e as [x|z|b|s|e IH|e1 e2 IH1 IH2|e1 e2 IH1 IH2|gg args IHg IHa|op l r IHl IHr|op e IH|t e IHt IH] using expr_ind'; intros Hn g g' Hg; cbn [lhs_assign]; try (apply msim_ret; reflexivity).
  - apply msim_ret. pose proof (get_sim x _ _ Hs) as Q. destruct (vars_get x vs), (vars_get x vs'); try contradiction; cbn [ok_or bind]; [|reflexivity].
    eapply rsim_bind; [apply Hg; exact Q|]. intros u u' Hu. pose proof (replace_sim x _ _ _ _ Hu Hs) as P. destruct (vars_replace x u vs), (vars_replace x u' vs'); try contradiction; cbn; auto.
  - destruct e2; try (apply msim_ret; reflexivity). apply IH1; [eapply no_eq_sub; [|exact Hn]; right; apply in_app_iff; left; apply sub_self|].
    intros v v' Hv. destruct Hv as [ | | | | |n k1 fs1 fs1' Hf]; try reflexivity. pose proof (assoc_update_sim x _ _ _ _ Hg Hf) as Q.
    destruct (assoc_update x g fs1), (assoc_update x g' fs1'); try contradiction; [|reflexivity]. eapply rsim_bind; [exact Q|]. intros t t' Ht. constructor. exact Ht.
  - eapply msim_bind; [apply eval_expr_sim; [exact Hs|]; eapply no_eq_sub; [|exact Hn]; right; apply in_app_iff; right; apply sub_self|]. intros i i' Hi.
    eapply msim_bind; [apply msim_ret, as_integer_sim; exact Hi|]. intros z z' (<- & _). apply IH1; [eapply no_eq_sub; [|exact Hn]; right; apply in_app_iff; left; apply sub_self|].
    intros v v' Hv. destruct Hv as [ | | | |a a' h h' Ha|]; try reflexivity. eapply (rsim_bind eq); [apply rsim_refl; reflexivity|]. intros u ? <-. rewrite <- (zlen_sim _ _ _ Ha). destruct (u <? zlen a)%Z; [|reflexivity].
    pose proof (nth_sim _ (Z.to_nat u) _ _ Ha) as Q. destruct (nth_error a _), (nth_error a' _); try contradiction; cbn [ok_or bind]; [|reflexivity]. eapply rsim_bind; [apply Hg; exact Q|].
    intros y y' Hy. constructor. apply Forall2_app; [apply firstn_sim; exact Ha|]. constructor; [exact Hy|apply (skipn_sim vsim (S (Z.to_nat u)) _ _ Ha)].
Qed.
End Sim.

(** statements *)
Definition ssim (p p' : est * ires) : Prop := same_state (fst p) (fst p') /\ snd p = snd p'.
Definition blind (s : stmt) : Prop := (forall e, ~ In (SPrint e) (substmts s)) /\ (forall e, In e (exprs s) -> no_equality e).
Lemma ssim_ret s s' r : same_state s s' -> ssim (s, r) (s', r).
Proof. intros H. split; [exact H|reflexivity]. Qed.
Lemma ires_sim {A} (R : A -> A -> Prop) r r' : rsim R r r' -> ires_of r = ires_of r'.
Proof. destruct r, r'; cbn; try contradiction; congruence. Qed.
Lemma with_expr_sim k E s s' e c c' : same_state s s' -> no_equality e ->
  (forall t t' v v', same_state t t' -> vsim v v' -> ssim (c t v) (c' t' v')) -> ssim (with_expr k E s e c) (with_expr k E s' e c').
Proof.
  intros (H1 & H2 & H3) Hn Hc. unfold with_expr. rewrite <- H2, <- H3. pose proof (eval_expr_sim k E (e_fs s) _ _ e H1 Hn (e_w s)) as Q.
  destruct (eval_expr k E (e_vars s) (e_fs s) e (e_w s)) as [w r], (eval_expr k E (e_vars s') (e_fs s) e (e_w s)) as [w' r']. cbn [fst snd] in Q. destruct Q as [<- Q].
  assert (Hw : same_state (with_w s w) (with_w s' w)) by (split; [exact H1|split; [exact H2|reflexivity]]).
  destruct r, r'; cbn in Q; try contradiction; subst; try (apply ssim_ret; exact Hw). apply Hc; assumption.
Qed.
Lemma do_write_sim E s s' t : same_state s s' -> ssim (do_write E s t) (do_write E s' t).
Proof. intros (H1 & H2 & H3). unfold do_write. rewrite <- H3. destruct (sink E _ t); (split; [split; [exact H1|split; [exact H2|reflexivity]]|reflexivity]). Qed.
Lemma est_insert_sim x v v' s s' : same_state s s' -> vsim v v' -> ssim (est_insert x v s) (est_insert x v' s').
Proof.
  intros (H1 & H2 & H3) Hv. unfold est_insert. pose proof (insert_sim x _ _ _ _ Hv H1) as Q. destruct (vars_insert x v (e_vars s)), (vars_insert x v' (e_vars s')); try contradiction.
  - split; [split; [exact Q|split; assumption]|reflexivity].
  - split; [split; [exact H1|split; assumption]|reflexivity].
Qed.
Lemma in_scope_sim s s' b b' : same_state s s' -> (forall t t', same_state t t' -> ssim (b t) (b' t')) -> ssim (in_scope s b) (in_scope s' b').
Proof.
  intros (H1 & H2 & H3) Hb. unfold in_scope. assert (Hp : same_state (with_vars s (push_scope (e_vars s))) (with_vars s' (push_scope (e_vars s')))).
  { split; [constructor; [constructor|exact H1]|split; assumption]. }
  specialize (Hb _ _ Hp). destruct (b _) as [t r], (b' _) as [t' r']. destruct Hb as [(Q1 & Q2 & Q3) Q]. cbn [fst snd] in *. pose proof Q1 as Q0. subst r'. unfold pop_scope.
  assert (Q1' := Q1). destruct (e_vars t) as [|m l] eqn:V1, (e_vars t') as [|m' l'] eqn:V2; inversion Q1'; subst.
  - split; [split; [cbn [fst]; rewrite V1, V2; exact Q0|split; assumption]|reflexivity].
  - split; [split; [assumption|split; assumption]|reflexivity].
Qed.
Section Loops.
Variable ev : est -> stmt -> est * ires.
Variable body : list stmt.
Hypothesis Hev : forall x, In x body -> forall t t', same_state t t' -> ssim (ev t x) (ev t' x).
Lemma run_list_sim : forall s s', same_state s s' -> ssim (run_list ev s body) (run_list ev s' body).
Proof.
  clear - Hev. revert Hev. induction body as [|x l IH]; intros He s s' Hs; [apply ssim_ret; exact Hs|]. cbn [run_list].
  pose proof (He x (or_introl eq_refl) _ _ Hs) as Q. destruct (ev s x) as [t r], (ev s' x) as [t' r']. destruct Q as [Q1 Q2]. cbn [fst snd] in *. subst r'.
  destruct r; try (apply ssim_ret; exact Q1). apply IH; [intros y Hy; apply He; right; exact Hy|exact Q1].
Qed.
Lemma while_sim ke E c : no_equality c -> forall k s s', same_state s s' -> ssim (while_loop ev ke E k c body s) (while_loop ev ke E k c body s').
Proof.
  intros Hc. induction k as [|k IH]; intros s s' Hs; cbn [while_loop]; [apply ssim_ret; exact Hs|]. apply with_expr_sim; [exact Hs|exact Hc|].
  intros t t' v v' Ht Hv. apply as_boolean_sim in Hv. destruct (as_boolean v) as [b| | |], (as_boolean v') as [b'| | |]; cbn in Hv; try contradiction; subst; try (apply ssim_ret; exact Ht).
  destruct b'; [|apply ssim_ret; exact Ht]. pose proof (run_list_sim _ _ Ht) as Q. destruct (run_list ev t body) as [u r], (run_list ev t' body) as [u' r']. destruct Q as [Q1 Q2]. cbn [fst snd] in *. subst r'.
  destruct r; try (apply ssim_ret; exact Q1); apply IH; exact Q1.
Qed.
Lemma for_sim x items items' : Forall2 vsim items items' -> forall s s', same_state s s' -> ssim (for_loop ev x body items s) (for_loop ev x body items' s').
Proof.
  induction 1 as [|v v' items items' Hv _ IH]; intros s s' Hs; cbn [for_loop]; [apply ssim_ret; exact Hs|].
  pose proof (est_insert_sim x _ _ _ _ Hs Hv) as Q. destruct (est_insert x v s) as [t r], (est_insert x v' s') as [t' r']. destruct Q as [Q1 Q2]. cbn [fst snd] in *. subst r'.
  destruct r; try (apply ssim_ret; exact Q1). pose proof (run_list_sim _ _ Q1) as Q. destruct (run_list ev t body) as [u r], (run_list ev t' body) as [u' r']. destruct Q as [P1 P2]. cbn [fst snd] in *. subst r'.
  destruct r; try (apply ssim_ret; exact P1); apply IH; exact P1.
Qed.
End Loops.
Lemma blind_if c a b x : blind (SIf c a b) -> In x a \/ In x b -> blind x.
Proof.
  intros [H1 H2] Hx. split.
  - intros e He. apply (H1 e). cbn [substmts]. right. apply in_app_iff. destruct Hx; [left|right]; apply in_flat_map; exists x; auto.
  - intros e He. apply H2. cbn [exprs]. right. apply in_app_iff. destruct Hx; [left|right]; apply in_flat_map; exists x; auto.
Qed.
Lemma blind_while c b x : blind (SWhile c b) -> In x b -> blind x.
Proof.
  intros [H1 H2] Hx. split.
  - intros e He. apply (H1 e). cbn [substmts]. right. apply in_flat_map; exists x; auto.
  - intros e He. apply H2. cbn [exprs]. right. apply in_flat_map; exists x; auto.
Qed.
Lemma blind_for i c b x : blind (SFor i c b) -> In x b -> blind x.
Proof.
  intros [H1 H2] Hx. split.
  - intros e He. apply (H1 e). cbn [substmts]. right. apply in_flat_map; exists x; auto.
  - intros e He. apply H2. cbn [exprs]. right. right. apply in_flat_map; exists x; auto.
Qed.
Lemma eval_stmt_sim E inter n : forall st s s', blind st -> same_state s s' -> ssim (eval_stmt n E inter s st) (eval_stmt n E inter s' st).
Proof.
  induction n as [|n IH]; intros st s s' Hb Hs; [apply ssim_ret; exact Hs|].
  destruct st as [lhs rhs|c a b|c b|i r b| | | | |e|e|e]; cbn [eval_stmt]; try (apply ssim_ret; exact Hs); try (apply do_write_sim; exact Hs).
  - destruct Hb as [_ He]. apply with_expr_sim; [exact Hs|apply He; cbn; auto|]. intros t t' v v' Ht Hv.
    assert (L : ssim (let '(w, r) := lhs_assign n E (e_vars t) (e_fs t) lhs (fun _ => Ok v) (e_w t) in match r with Ok vs => (mk_est vs (e_fs t) w, IOk) | _ => (with_w t w, ires_of r) end)
                     (let '(w, r) := lhs_assign n E (e_vars t') (e_fs t') lhs (fun _ => Ok v') (e_w t') in match r with Ok vs => (mk_est vs (e_fs t') w, IOk) | _ => (with_w t' w, ires_of r) end)).
    { destruct Ht as (T1 & T2 & T3). rewrite <- T2, <- T3. pose proof (lhs_assign_sim n E (e_fs t) _ _ lhs T1 (He lhs (or_introl eq_refl)) (fun _ => Ok v) (fun _ => Ok v') (fun _ _ _ => Hv) (e_w t)) as Q.
      destruct (lhs_assign n E (e_vars t) _ lhs _ _) as [w r], (lhs_assign n E (e_vars t') _ lhs _ _) as [w' r']. cbn [fst snd] in Q. destruct Q as [<- Q].
      destruct r, r'; cbn in Q; try contradiction; subst; (split; [split; [assumption|split; [try reflexivity; assumption|reflexivity]]|reflexivity]). }
    destruct lhs; try exact L. apply est_insert_sim; assumption.
  - apply in_scope_sim; [exact Hs|]. intros t t' Ht. apply with_expr_sim; [exact Ht|apply Hb; cbn; auto|]. intros u u' v v' Hu Hv. apply as_boolean_sim in Hv.
    destruct (as_boolean v) as [x| | |], (as_boolean v') as [x'| | |]; cbn in Hv; try contradiction; subst; try (apply ssim_ret; exact Hu).
    apply run_list_sim; [|exact Hu]. intros y Hy z z' Hz. apply IH; [|exact Hz]. eapply blind_if; [exact Hb|]. destruct x'; auto.
  - apply in_scope_sim; [exact Hs|]. intros t t' Ht. apply while_sim; [|apply Hb; cbn; auto|exact Ht]. intros y Hy z z' Hz. apply IH; [|exact Hz]. eapply blind_while; eassumption.
  - apply in_scope_sim; [exact Hs|]. intros t t' Ht. destruct i; try (apply ssim_ret; exact Ht). apply with_expr_sim; [exact Ht|apply Hb; cbn; auto|]. intros u u' v v' Hu Hv. apply as_vec_sim in Hv.
    destruct (as_vec v) as [l| | |], (as_vec v') as [l'| | |]; cbn in Hv; try contradiction; subst; try (apply ssim_ret; exact Hu).
    apply for_sim; [|exact Hv|exact Hu]. intros y Hy z z' Hz. apply IH; [|exact Hz]. eapply blind_for; eassumption.
  - apply with_expr_sim; [exact Hs|apply Hb; cbn; auto|]. intros t t' v v' Ht Hv. destruct Ht as (T1 & T2 & T3).
    destruct Hv as [| | | |? ? ? ? Hl|]; cbn [as_string]; unfold expected; cbn [short_display]; rewrite ?(zlen_sim vsim _ _ Hl); try (apply ssim_ret; split; [exact T1|split; assumption]). rewrite <- T3. destruct (fs_new E _ (e_w t)) as [w r]. destruct r; (split; [split; [exact T1|split; [try reflexivity; assumption|reflexivity]]|reflexivity]).
  - elim (proj1 Hb e). left. reflexivity.
  - apply with_expr_sim; [exact Hs|apply Hb; cbn; auto|]. intros t t' v v' Ht Hv. rewrite (display_sim _ _ Hv). destruct inter; [apply do_write_sim; exact Ht|apply ssim_ret; exact Ht].
Qed.
