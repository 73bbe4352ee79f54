(** Lemmas for C49, C50 and C56. *)
From Verif Require Import Base Ast Pom Parse Value Variables Semantics Fs Eval Runtime Lib Spec_Grammar Spec_Render Proof_Text Proof_Pom Proof_Parse Proof_Complete Proof_Complete2
  Proof_Complete3 Proof_Render.
Require Import Lia.

Lemma one_stmt s st : g_simple unambiguous_start s st -> parse (s ++ s_ ";") = Ok [st].
Proof.
  intros H. apply parse_complete. rewrite <- (app_nil_r (s ++ s_ ";")). constructor; [|constructor].
  rewrite <- (app_nil_r (s ++ s_ ";")). constructor; [apply simple_render, H|constructor].
Qed.

(** ** Names *)
Definition plain_name (x : str) : Prop :=
  identifier x /\ forall k, In k [s_ "true"; s_ "false"; s_ "print"; s_ "help"; s_ "quit"; s_ "break"; s_ "continue"] -> ~ begins k x.
Lemma plain_start x : plain_name x -> unambiguous_start x /\ g_expr 0 x (EIdent x).
Proof.
  intros [H K]. split.
  - repeat split; apply K; cbn; tauto.
  - eapply (g_lower _ _ 12); [|lia]. apply g_ident; [exact H|apply K; cbn; tauto|apply K; cbn; tauto].
Qed.
Lemma assign_name x s e : plain_name x -> g_full s e -> parse (x ++ s_ " =" ++ s ++ s_ ";") = Ok [SAssign (EIdent x) e].
Proof.
  intros Hx He. destruct (plain_start x Hx) as [H1 H2].
  assert (E : x ++ s_ " =" ++ s ++ s_ ";" = (x ++ s_ " " ++ s_ "=" ++ s) ++ s_ ";") by (change (s_ " =") with (s_ " " ++ s_ "="); norm; reflexivity).
  rewrite E. apply one_stmt. apply g_assign; auto with ws.
Qed.
Lemma read_name x : plain_name x -> parse (x ++ s_ ";") = Ok [SExpr (EIdent x)].
Proof. intros Hx. destruct (plain_start x Hx) as [H1 H2]. apply one_stmt. apply g_expr_stmt; assumption. Qed.

(** ** Compound assignment *)
Lemma parse_compound st t se e o : o = OPlus \/ o = OMinus -> unambiguous_start st -> g_expr 0 st t -> g_expr 0 se e ->
  parse (st ++ s_ " " ++ op_text o ++ s_ "= " ++ se ++ s_ ";") = Ok [SAssign t (EBin o t e)].
Proof.
  intros Ho Hs Ht He.
  assert (E : st ++ s_ " " ++ op_text o ++ s_ "= " ++ se ++ s_ ";" = (st ++ s_ " " ++ (op_text o ++ s_ "=") ++ s_ " " ++ se) ++ s_ ";").
  { change (s_ "= ") with (s_ "=" ++ s_ " "). norm. reflexivity. }
  rewrite E. apply one_stmt. destruct Ho as [->| ->].
  - apply (g_plus_assign _ st t (s_ " ") (s_ " " ++ se) e Hs Ht ws_sp). eapply full_sp. exact He.
  - apply (g_minus_assign _ st t (s_ " ") (s_ " " ++ se) e Hs Ht ws_sp). eapply full_sp. exact He.
Qed.
Lemma parse_expansion st t se e o : o = OPlus \/ o = OMinus -> unambiguous_start st -> g_expr 8 st t -> g_expr 0 se e ->
  (forall x, e = EIdent (s_ "struct" ++ x) -> ~ identifier x) ->
  parse (st ++ s_ " = " ++ st ++ s_ " " ++ op_text o ++ s_ " (" ++ se ++ s_ ");") = Ok [SAssign t (EBin o t (EParen e))].
Proof.
  intros Ho Hs Ht He Hp.
  assert (E : st ++ s_ " = " ++ st ++ s_ " " ++ op_text o ++ s_ " (" ++ se ++ s_ ");" =
    (st ++ s_ " " ++ s_ "=" ++ s_ " " ++ (st ++ s_ " " ++ op_text o ++ s_ " " ++ (s_ "(" ++ se ++ [] ++ s_ ")"))) ++ s_ ";").
  { change (s_ " = ") with (s_ " " ++ s_ "=" ++ s_ " "). change (s_ " (") with (s_ " " ++ s_ "("). change (s_ ");") with (s_ ")" ++ s_ ";"). norm. reflexivity. }
  rewrite E. apply one_stmt. apply g_assign; auto with ws.
  - eapply g_lower; [exact Ht|lia].
  - apply (full_sp _ _ (op_level o)). apply g_binop; auto with ws.
    + destruct Ho as [->| ->]; discriminate.
    + destruct Ho as [->| ->]; exact Ht.
    + eapply (g_lower _ _ 12); [|destruct Ho as [->| ->]; cbn; lia]. apply g_paren; auto with ws. eapply full_0. exact He.
Qed.
Lemma paren_transparent o t e n E i s : eval_stmt n E i s (SAssign t (EBin o t (EParen e))) = eval_stmt n E i s (SAssign t (EBin o t e)).
Proof. destruct n; reflexivity. Qed.
Lemma eval_prog_one n E i s a b : (forall s, eval_stmt n E i s a = eval_stmt n E i s b) -> eval_prog n E i s [a] = eval_prog n E i s [b].
Proof. intros H. unfold eval_prog. cbn [run_list]. rewrite H. reflexivity. Qed.
Lemma compound_effect n E i r st t se e o : o = OPlus \/ o = OMinus -> unambiguous_start st -> g_expr 8 st t -> g_expr 0 se e ->
  (forall x, e = EIdent (s_ "struct" ++ x) -> ~ identifier x) ->
  rt_eval n E i r (st ++ s_ " " ++ op_text o ++ s_ "= " ++ se ++ s_ ";") =
  rt_eval n E i r (st ++ s_ " = " ++ st ++ s_ " " ++ op_text o ++ s_ " (" ++ se ++ s_ ");").
Proof.
  intros Ho Hs Ht He Hp. unfold rt_eval. rewrite (parse_expansion st t se e o Ho Hs Ht He Hp).
  rewrite (parse_compound st t se e o Ho Hs (g_lower _ _ _ 0 Ht ltac:(lia)) He).
  change (analyze (r_sem r) [SAssign t (EBin o t (EParen e))]) with (analyze (r_sem r) [SAssign t (EBin o t e)]).
  rewrite (eval_prog_one n E i (r_eval r) (SAssign t (EBin o t e)) (SAssign t (EBin o t (EParen e)))); [reflexivity|].
  intros s. symmetry. apply paren_transparent.
Qed.

(** ** Literals *)
Lemma leading_literal : (forall k s e, g_expr k s e -> forall c u, s = c :: u -> decimal c ->
    exists n z r, s = n ++ r /\ number_text n z /\ heads (fun c => ~ decimal c) r) /\ (forall s e, g_full s e -> True) /\
  (forall s l, g_args s l -> True) /\ (forall s l, g_more s l -> True).
Proof.
  assert (X : forall s k e r, g_expr k s e -> noid r -> (forall c u, s = c :: u -> decimal c ->
    exists n z r, s = n ++ r /\ number_text n z /\ heads (fun c => ~ decimal c) r) -> forall c u, s ++ r = c :: u -> decimal c ->
    exists n z r', s ++ r = n ++ r' /\ number_text n z /\ heads (fun c => ~ decimal c) r').
  { intros s k e r Hs Hr IH c u E Hc. destruct (expr_starts _ _ _ Hs) as (d & v & -> & _). cbn in E. injection E as -> E.
    destruct (IH c v eq_refl Hc) as (n & z & r' & E' & Hn & Hr'). exists n, z, (r' ++ r). rewrite E'. split; [norm; reflexivity|]. split; [exact Hn|].
    destruct r' as [|d r']; [apply noid_nodigit, Hr|exact Hr']. }
  assert (L : forall (c : N) s d u, c :: s = d :: u -> decimal d -> ~ decimal c -> False) by (intros; congruence).
  apply g_all_mi; try (intros; exact I).
  - intros s z H c u E Hc. exists s, z, []. rewrite app_nil_r. split; [reflexivity|split; [exact H|exact I]].
  - intros c u E Hc. exfalso. apply (L 116%N _ _ _ E Hc). unfold decimal. lia.
  - intros c u E Hc. exfalso. apply (L 102%N _ _ _ E Hc). unfold decimal. lia.
  - intros s H _ _ c u E Hc. exfalso. destruct (identifier_head _ H) as (d & t & -> & Hd). apply (L d _ _ _ E Hc). unfold letter, decimal in *. lia.
  - intros s v H c u E Hc. exfalso. destruct (string_head _ _ H) as (t & ->). apply (L _ _ _ _ E Hc). unfold decimal in *. lia.
  - intros s e w _ _ _ _ c u E Hc. exfalso. apply (L 40%N _ _ _ E Hc). unfold decimal. lia.
  - intros s e w sa args w' Hs IH Hw _ _ _. apply (X _ _ _ _ Hs); [|exact IH]. apply ws_head_noid; [exact Hw|cbn; unfold letter, decimal; lia].
  - intros s e w si i w' Hs IH Hw _ _ _. apply (X _ _ _ _ Hs); [|exact IH]. apply ws_head_noid; [exact Hw|cbn; unfold letter, decimal; lia].
  - intros s e w f Hs IH Hw _. apply (X _ _ _ _ Hs); [|exact IH]. apply ws_head_noid; [exact Hw|cbn; unfold letter, decimal; lia].
  - intros o w s e _ _ _ c u E Hc. exfalso. destruct o; [apply (L 126%N _ _ _ E Hc)|apply (L 33%N _ _ _ E Hc)|apply (L 45%N _ _ _ E Hc)]; unfold decimal; lia.
  - intros w1 w2 t w3 w4 s e _ _ _ _ _ _ _ c u E Hc. exfalso. apply (L 40%N _ _ _ E Hc). unfold decimal. lia.
  - intros o s1 e1 w1 w2 s2 e2 _ Hs IH Hw _ _ _. apply (X _ _ _ _ Hs); [|exact IH]. apply ws_head_noid; [exact Hw|apply op_noid].
  - intros o s1 e1 w1 w2 s2 e2 _ Hs IH Hw _ _ _. apply (X _ _ _ _ Hs); [|exact IH]. apply ws_head_noid; [exact Hw|apply op_noid].
  - intros k s e _ IH. exact IH.
Qed.
Lemma digits_split a : forall b x y, Forall decimal a -> Forall decimal b -> heads (fun c => ~ decimal c) x -> heads (fun c => ~ decimal c) y ->
  a ++ x = b ++ y -> a = b.
Proof.
  induction a as [|c a IH]; intros b x y Ha Hb Hx Hy E; destruct b as [|d b].
  - reflexivity.
  - cbn in E. subst x. inversion Hb. cbn in Hx. contradiction.
  - cbn in E. subst y. inversion Ha. cbn in Hy. contradiction.
  - cbn in E. injection E as -> E. f_equal. inversion Ha; inversion Hb; subst. apply (IH b x y); assumption.
Qed.
Lemma number_digits s z : number_text s z -> Forall decimal s.
Proof. intros [s' z' H _ _ _]. eapply numeral_digits; exact H. Qed.
Lemma simple_digit s st c u : g_simple unreserved s st -> s = c :: u -> decimal c -> exists n z r, s = n ++ r /\ number_text n z /\ heads (fun c => ~ decimal c) r.
Proof.
  assert (X : forall s1 k e r, g_expr k s1 e -> noid r -> forall c u, s1 ++ r = c :: u -> decimal c ->
    exists n z r', s1 ++ r = n ++ r' /\ number_text n z /\ heads (fun c => ~ decimal c) r').
  { intros s1 k e r Hs Hr c0 u0 E Hc. destruct (expr_starts _ _ _ Hs) as (d & v & -> & _). cbn in E. injection E as -> E.
    destruct (proj1 leading_literal _ _ _ Hs c0 v eq_refl Hc) as (n & z & r' & E' & Hn & Hr'). exists n, z, (r' ++ r). rewrite E'. split; [norm; reflexivity|]. split; [exact Hn|].
    destruct r' as [|d r']; [apply noid_nodigit, Hr|exact Hr']. }
  assert (L : forall (c : N) s d u, c :: s = d :: u -> decimal d -> ~ decimal c -> False) by (intros; congruence).
  intros H E Hc.
  destruct H as [w s v Hw Hs|s e He| | | | |s1 t w1 s2 e Hok H1 Hw1 H2|s1 t w1 s2 e Hok H1 Hw1 H2|s1 t w1 s2 e Hok H1 Hw1 H2|s e Hok He].
  - exfalso. apply (L 102%N _ _ _ E Hc). unfold decimal. lia.
  - exfalso. apply (L 112%N _ _ _ E Hc). unfold decimal. lia.
  - exfalso. apply (L 104%N _ _ _ E Hc). unfold decimal. lia.
  - exfalso. apply (L 113%N _ _ _ E Hc). unfold decimal. lia.
  - exfalso. apply (L 98%N _ _ _ E Hc). unfold decimal. lia.
  - exfalso. apply (L 99%N _ _ _ E Hc). unfold decimal. lia.
  - eapply X; eauto. apply ws_head_noid; [exact Hw1|cbn; unfold letter, decimal; lia].
  - eapply X; eauto. apply ws_head_noid; [exact Hw1|cbn; unfold letter, decimal; lia].
  - eapply X; eauto. apply ws_head_noid; [exact Hw1|cbn; unfold letter, decimal; lia].
  - eapply (proj1 leading_literal); eauto.
Qed.
Lemma big_literal s z rest : numeral s z -> s <> [] -> (z > I128_MAX)%Z -> heads (fun c => ~ decimal c) rest -> parse (s ++ rest) = Err EParse.
Proof.
  intros Hs Hne Hz Hr. destruct (parse_total (s ++ rest)) as [[prog P]|P]; [exfalso|exact P].
  apply parse_sound in P. inversion P as [s0 l w Hl Hw E E2]; subst l. pose proof (numeral_digits _ _ Hs) as Hd.
  destruct s as [|c s]; [congruence|]. inversion Hd as [|? ? Hc Hd']; subst.
  destruct Hl as [|s1 st sr l Hst Hl].
  - cbn [app] in E. subst w. inversion Hw. unfold decimal in Hc. lia.
  - assert (W : forall w0 v, ws w0 -> w0 ++ v = (c :: s) ++ rest -> w0 = [] /\ v = (c :: s) ++ rest).
    { intros w0 v Hw0 E0. destruct Hw0 as [|d w0 Hd0 Hw0]; [auto|]. cbn in E0. injection E0 as -> _. unfold decimal in Hc. lia. }
    destruct Hst as [w0 s1 st w' t Hw0 Hs1 Hw' Ht|w0 s1 st t Hw0 Hb Ht].
    + repeat rewrite <- app_assoc in E. apply (W _ _ Hw0) in E. destruct E as [-> E].
      destruct (simple_starts _ _ _ Hs1) as (d & v & Es & _). assert (d = c) by (rewrite Es in E; cbn in E; congruence). subst d.
      destruct (simple_digit _ _ _ _ Hs1 Es Hc) as (n & z' & r & En & Hn & Hr').
      rewrite En in E. rewrite <- app_assoc in E.
      assert (n = c :: s).
      { eapply digits_split; [| | | |exact E]; [eapply number_digits, Hn|exact Hd| |exact Hr].
        destruct r as [|y r]; [|exact Hr']. cbn [app]. apply noid_nodigit, ws_head_noid; [exact Hw'|cbn; unfold letter, decimal; lia]. }
      subst n. destruct Hn as [s' z' Hn _ _ Hle]. pose proof (Proof_Complete.numeral_fun _ _ Hn _ Hs). lia.
    + repeat rewrite <- app_assoc in E. apply (W _ _ Hw0) in E. destruct E as [-> E]. clear W.
      destruct Hb; cbn in E; injection E as E _; subst c; unfold decimal in Hc; lia.
Qed.
