(** C87: the names of variables do not matter. *)
From Verif Require Import Base Ast Pom Parse Definitions Value Variables Semantics Fs Eval Runtime Lib Demo Spec_Vars Spec_Session Spec_Safe Spec_Frame Spec_Rename
  Proof_Vars Proof_Session Proof_Frame Proof_Frame2 Proof_Rename.
Require Import Lia.
Arguments s_ s%string_scope.

(** Two debuggers, where the second holds for r x what the first holds for x, face the same
    outside world. Commands whose variables are renamed by r (one to one) then have the same
    results up to the name in an unknown-variable error, the same interactions and the same
    output, and leave the debuggers corresponding. *)
Theorem C87_names_do_not_matter :
  forall X r n E1 E2 inter r1 r2 cmds1 cmds2 r1' r2' l1 l2,
  one_to_one X r ->
  same_future E1 (length (w_log (seen r1))) E2 (length (w_log (seen r2))) -> agree_on_via X r r1 r2 ->
  Forall2 (renamed_command X r) cmds1 cmds2 ->
  entering n E1 inter r1 cmds1 = (r1', l1) -> entering n E2 inter r2 cmds2 = (r2', l2) ->
  l2 = map (rename_result r) l1 /\ agree_on_via X r r1' r2' /\ same_since (seen r1) (seen r2) (seen r1') (seen r2').
Proof.
  intros X r n E1 E2 inter r1 r2 cmds1 cmds2 r1' r2' l1 l2 Hr HE Ha Hc H1 H2.
  destruct (commands_ren X r Hr E1 E2 (seen r1) (seen r2) HE n inter cmds1 cmds2 Hc r1 r2 Ha) as (P1 & P2 & P3).
  - exists [], []. rewrite !app_nil_r. split; [destruct (seen r1)|destruct (seen r2)]; reflexivity.
  - rewrite H1, H2 in P1, P2, P3. cbn [fst snd] in *. auto.
Qed.
Print Assumptions C87_names_do_not_matter.

(** From the start of a debugger: the renaming has to leave constants and functions alone and
    must not give their names to other variables. Then the two histories look the same. *)
Theorem C87_fresh_sessions :
  forall X r n E inter cmds1 cmds2 r1 r2 l1 l2,
  one_to_one X r ->
  (forall x, In x X -> predefined x -> r x = x) -> (forall x, In x X -> ~ predefined x -> ~ predefined (r x)) ->
  Forall2 (renamed_command X r) cmds1 cmds2 ->
  entering n E inter (rt_new E) cmds1 = (r1, l1) -> entering n E inter (rt_new E) cmds2 = (r2, l2) ->
  l2 = map (rename_result r) l1 /\ seen r2 = seen r1 /\
  forall x, In x X -> vars_get x (e_vars (r_eval r1)) = vars_get (r x) (e_vars (r_eval r2)).
Proof.
  intros X r n E inter cmds1 cmds2 r1 r2 l1 l2 Hr Hp Hn Hc H1 H2.
  destruct (C87_names_do_not_matter X r n E E inter (rt_new E) (rt_new E) cmds1 cmds2 r1 r2 l1 l2 Hr) as (-> & Ha & evs & out & W1 & W2); try assumption.
  - constructor; reflexivity.
  - apply fresh_via; assumption.
  - split; [reflexivity|]. split; [congruence|]. intros x Hx. apply vag_get with (X := X); [|exact Hx]. apply agree_via_iff. apply Ha.
Qed.
Print Assumptions C87_fresh_sessions.

(** Renaming loses nothing: a one-to-one renaming is undone by the reverse one. *)
Theorem C87_renaming_can_be_undone :
  forall X r q c1 c2, renamed_command X r c1 c2 -> (forall x, In x X -> q (r x) = x) -> renamed_command (map r X) q c2 c1.
Proof.
  intros X r q c1 c2 Hc Hq. destruct Hc as [(l & H1 & Hi & H2)|[H1 H2]]; [|right; split; assumption]. left. exists (map (rename_stmt r) l). split; [exact H2|].
  assert (Re : forall e, reads (rename r e) = map r (reads e)).
  { induction e using expr_ind'; cbn [reads rename]; try reflexivity; try assumption; try (rewrite map_app; congruence).
    rewrite map_app, IHe. f_equal. induction H as [|a l0 Ha _ IH]; [reflexivity|]. cbn [map flat_map]. rewrite Ha, map_app. f_equal. exact IH. }
  assert (Rb : forall e, incl (reads e) X -> rename q (rename r e) = e).
  { induction e using expr_ind'; cbn [reads rename]; intros Hx; try reflexivity; try (f_equal; auto; fail).
    - f_equal. apply Hq, Hx. left. reflexivity.
    - f_equal; [apply IHe1|apply IHe2]; intros y Hy; apply Hx; apply in_or_app; tauto.
    - f_equal; [apply IHe; intros y Hy; apply Hx; apply in_or_app; tauto|]. assert (Ha : incl (flat_map reads args) X) by (intros y Hy; apply Hx; apply in_or_app; tauto).
      clear -H Ha. induction H as [|a l0 H0 _ IH]; [reflexivity|]. cbn [map flat_map] in *. f_equal; [apply H0|apply IH]; intros y Hy; apply Ha; apply in_or_app; tauto.
    - f_equal; [apply IHe1|apply IHe2]; intros y Hy; apply Hx; apply in_or_app; tauto. }
  assert (Le : forall (P : stmt -> Prop) l0, Forall P l0 -> forall f, (forall st, P st -> f st = st) -> map f l0 = l0).
  { intros P l0 F f Hf. induction F; [reflexivity|]. cbn [map]. f_equal; auto. }
  assert (Ms : forall st, mentions (rename_stmt r st) = map r (mentions st)).
  { assert (L : forall l0, Forall (fun st => mentions (rename_stmt r st) = map r (mentions st)) l0 -> flat_map reads (flat_map exprs (map (rename_stmt r) l0)) = map r (flat_map reads (flat_map exprs l0))).
    { induction 1 as [|st l0 Hst _ IH]; [reflexivity|]. cbn [map flat_map]. rewrite !flat_map_app, map_app, IH. f_equal. exact Hst. }
    unfold mentions in *. induction st using stmt_ind'; cbn [rename_stmt exprs flat_map]; rewrite ?flat_map_app, ?Re, ?map_app, ?L by assumption; reflexivity. }
  assert (Sb : forall st, incl (mentions st) X -> rename_stmt q (rename_stmt r st) = st).
  { assert (L : forall l0, Forall (fun st => incl (mentions st) X -> rename_stmt q (rename_stmt r st) = st) l0 -> incl (flat_map reads (flat_map exprs l0)) X -> map (rename_stmt q) (map (rename_stmt r) l0) = l0).
    { induction 1 as [|st l0 Hst _ IH]; [reflexivity|]. cbn [map flat_map]. rewrite flat_map_app. intros Hx. f_equal; [apply Hst|apply IH]; intros y Hy; apply Hx; apply in_or_app; tauto. }
    unfold mentions in *. induction st using stmt_ind'; cbn [rename_stmt exprs flat_map]; rewrite ?flat_map_app, ?app_nil_r; intros Hx; try reflexivity; f_equal; first [apply Rb|apply L]; try assumption; intros y Hy; apply Hx; rewrite ?in_app_iff; tauto. }
  split.
  - intros x Hx. apply in_flat_map in Hx. destruct Hx as (st & Hst & Hx). apply in_map_iff in Hst. destruct Hst as (st0 & <- & Hst). rewrite Ms in Hx. apply in_map_iff in Hx.
    destruct Hx as (y & <- & Hy). apply in_map. apply Hi. apply in_flat_map. exists st0. auto.
  - rewrite H1. f_equal. clear -Hi Sb. induction l as [|st l IH]; [reflexivity|]. cbn [map flat_map] in *. rewrite Sb, <- IH; [reflexivity| |]; intros x Hx; apply Hi; apply in_or_app; tauto.
Qed.
Print Assumptions C87_renaming_can_be_undone.

(** a becomes tmp, tmp becomes i, i becomes a; key, len, hist and print stay *)
Definition swap_names (x : str) : str :=
  if str_eqb x (s_ "a") then s_ "tmp" else if str_eqb x (s_ "tmp") then s_ "i" else if str_eqb x (s_ "i") then s_ "a" else x.
Definition rename_cmds1 : list str := [s_ "a = hist() + 3; for i in a + 5 { a[0] = a[0] + i; tmp = key(1, i, 2, 3); print tmp; }"; s_ "print a[0"; s_ "print i;"; s_ "i = 0; if len(a) > 1 { q = 1; } else { i = 2; } print i;"; s_ "print a; print a[7];"].
Definition rename_cmds2 : list str := [s_ "tmp=hist()+3;for a in tmp+5{tmp[0]=tmp[0]+a;i=key(1,a,2,3);print i;}"; s_ "if if"; s_ "print a;"; s_ "a = 0; if len(tmp) > 1 { q = 1; } else { a = 2; } print a;"; s_ "print tmp; print tmp[7];"].
Definition rename_names : list str := [s_ "a"; s_ "tmp"; s_ "i"; s_ "q"; s_ "key"; s_ "len"; s_ "hist"].
Lemma predefined_iff x : predefined x <-> existsb (str_eqb x) (map fst CONSTANTS ++ map func_name FUNCTIONS) = true.
Proof.
  unfold predefined. rewrite existsb_exists, <- in_app_iff. split; [intros H; exists x; split; [exact H|apply str_eqb_refl]|intros (y & Hy & E)]. apply str_eqb_eq in E. subst. exact Hy.
Qed.
Example C87_example :
  let E := demo_env true in
  one_to_one rename_names swap_names /\
  (forall x, In x rename_names -> predefined x -> swap_names x = x) /\ (forall x, In x rename_names -> ~ predefined x -> ~ predefined (swap_names x)) /\
  Forall2 (renamed_command rename_names swap_names) rename_cmds1 rename_cmds2 /\
  snd (entering 300 E false (rt_new E) rename_cmds1) = [ROk; RErr EParse; RErr (EUnknownVariable (s_ "i")); ROk; RErr (EIndexOutOfRange 7 1)] /\
  snd (entering 300 E false (rt_new E) rename_cmds2) = [ROk; RErr EParse; RErr (EUnknownVariable (s_ "a")); ROk; RErr (EIndexOutOfRange 7 1)].
Proof.
  cbv zeta. split; [|split; [|split; [|split; [|vm_compute; auto]]]].
  - intros x y Hx Hy. unfold rename_names in *. cbn [In] in *.
    repeat (destruct Hx as [Hx|Hx]; [subst x|]); [..|destruct Hx]; repeat (destruct Hy as [Hy|Hy]; [subst y|]); try destruct Hy; vm_compute; intros H; first [reflexivity|discriminate H].
  - intros x Hx Hp. unfold rename_names in *. cbn [In] in *.
    repeat (destruct Hx as [Hx|Hx]; [subst x|]); [..|destruct Hx]; try reflexivity; exfalso; apply predefined_iff in Hp; vm_compute in Hp; discriminate Hp.
  - intros x Hx Hp Hq. unfold rename_names in *. cbn [In] in *.
    repeat (destruct Hx as [Hx|Hx]; [subst x|]); [..|destruct Hx]; apply predefined_iff in Hq; first [vm_compute in Hq; discriminate Hq|apply Hp, predefined_iff; vm_compute; reflexivity].
  - repeat (apply Forall2_cons; [first [right; vm_compute; split; reflexivity|left; eexists; split; [vm_compute; reflexivity|]; split; [|vm_compute; reflexivity]]|]); [..|apply Forall2_nil];
    intros x Hx; vm_compute in Hx |- *; tauto.
Qed.
