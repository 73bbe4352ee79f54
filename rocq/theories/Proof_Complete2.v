(** The parser is complete for the grammar of statements. *)
From Verif Require Import Base Ast Pom Parse Lib Spec_Grammar Proof_Parse Proof_Complete.
Require Import Lia.

(** ** Text without top-level braces and semicolons *)
Inductive skips : str -> Prop :=
| sk_nil : skips []
| sk_char c s : c <> 34%N -> c <> 59%N -> c <> 123%N -> c <> 125%N -> skips s -> skips (c :: s)
| sk_str t v s : string_lit t v -> skips s -> skips (t ++ s).
Definition stopper (c : N) : Prop := c = 59%N \/ c = 123%N \/ c = 125%N.

Lemma string_lit_unique t v t' v' z z' : string_lit t v -> string_lit t' v' -> t ++ z = t' ++ z' -> t = t' /\ z = z'.
Proof.
  intros H H' E. pose proof (p_string_ok _ _ z H) as P. pose proof (p_string_ok _ _ z' H') as P'. rewrite E in P. rewrite P in P'.
  injection P' as _ ->. split; [|reflexivity]. eapply app_inv_tail. exact E.
Qed.
Lemma skips_unique a : skips a -> forall b x u y v, skips b -> stopper x -> stopper y -> a ++ x :: u = b ++ y :: v -> x = y.
Proof.
  unfold stopper. induction 1 as [|c a H1 H2 H3 H4 Ha IH|t val a Ht Ha IH]; intros b x u y v Hb Hx Hy E.
  - destruct Hb as [|c' b H1' H2' H3' H4' Hb|t' v' b Ht' Hb].
    + cbn in E. congruence.
    + cbn in E. injection E as -> _. lia.
    + destruct (string_head _ _ Ht') as [t2 ->]. cbn in E. injection E as -> _. lia.
  - destruct Hb as [|c' b H1' H2' H3' H4' Hb|t' v' b Ht' Hb].
    + cbn in E. injection E as -> _. lia.
    + cbn in E. injection E as -> E. eapply IH; [exact Hb|exact Hx|exact Hy|exact E].
    + destruct (string_head _ _ Ht') as [t2 ->]. cbn in E. injection E as -> _. lia.
  - destruct Hb as [|c' b H1' H2' H3' H4' Hb|t' v' b Ht' Hb].
    + destruct (string_head _ _ Ht) as [t2 ->]. cbn in E. injection E as <- _. lia.
    + destruct (string_head _ _ Ht) as [t2 ->]. cbn in E. injection E as <- _. lia.
    + rewrite <- !app_assoc in E. destruct (string_lit_unique _ _ _ _ _ _ Ht Ht' E) as [_ E'].
      eapply IH; [exact Hb|exact Hx|exact Hy|exact E'].
Qed.
Lemma skips_app a b : skips a -> skips b -> skips (a ++ b).
Proof.
  induction 1; intros Hb; cbn [app]; auto; [constructor; auto|]. rewrite <- app_assoc. eapply sk_str; eauto.
Qed.
Lemma skips_forall (P : N -> Prop) s : (forall c, P c -> c <> 34 /\ c <> 59 /\ c <> 123 /\ c <> 125)%N -> Forall P s -> skips s.
Proof. intros HP H. induction H as [|c s Hc Hs IH]; [constructor|]. apply HP in Hc. constructor; tauto. Qed.
Lemma skips_ws w : ws w -> skips w.
Proof. apply skips_forall. intros c. lia. Qed.
Lemma skips_ident x : identifier x -> skips x.
Proof.
  intros [c s Hc Hs]. apply (skips_forall (fun c => letter c \/ decimal c)); [unfold letter, decimal; lia|]. constructor; auto.
Qed.
Lemma skips_number s z : number_text s z -> skips s.
Proof. intros [s' z' H _ _ _]. apply numeral_decimal in H. eapply skips_forall; [|exact H]. unfold decimal. lia. Qed.
Lemma skips_string s v : string_lit s v -> skips s.
Proof. intros H. rewrite <- (app_nil_r s). eapply sk_str; [exact H|constructor]. Qed.
Lemma skips_op o : skips (op_text o).
Proof. destruct o; cbn; repeat (constructor; try discriminate). Qed.
Lemma skips_unop o : skips (unop_text o).
Proof. destruct o; cbn; repeat (constructor; try discriminate). Qed.
Ltac skc := cbn; repeat (apply sk_char; [discriminate|discriminate|discriminate|discriminate|]); apply sk_nil.
Ltac skp := repeat first [assumption | apply skips_app | apply skips_ws; assumption | apply skips_ident; assumption
  | eapply skips_number; eassumption | eapply skips_string; eassumption | apply skips_op | apply skips_unop | apply sk_nil
  | match goal with |- skips (s_ _) => skc end].
Lemma g_skips : (forall k s e, g_expr k s e -> skips s) /\ (forall s e, g_full s e -> skips s) /\
  (forall s l, g_args s l -> skips s) /\ (forall s l, g_more s l -> skips s).
Proof. apply g_all_mi; intros; skp. Qed.
Ltac gskp := repeat match goal with
  | H : g_full _ _ |- _ => apply (proj1 (proj2 g_skips)) in H
  | H : g_expr _ _ _ |- _ => apply (proj1 g_skips) in H end; skp.
Lemma simple_skips ok s st : g_simple ok s st -> skips s.
Proof. intros H. destruct H; gskp. Qed.

Lemma ws_unique w t w' t' : ws w -> ws w' -> nows t -> nows t' -> w ++ t = w' ++ t' -> w = w' /\ t = t'.
Proof.
  intros H1 H2 H3 H4 E. pose proof (space_ok w t H1 H3) as P. pose proof (space_ok w' t' H2 H4) as P'. rewrite E, P' in P.
  injection P as ->. split; [|reflexivity]. eapply app_inv_tail. exact E.
Qed.

(** ** Simple statements *)
Definition simple_p : parser stmt := palt builtin_stmt (palt jump_stmt (palt assign_stmt expr_stmt)).
Lemma semicolon_inv i : nows i ->
  match stmt_semicolon i with
  | POk st r => exists s w, i = s ++ w ++ s_ ";" ++ r /\ ws w /\ g_simple unreserved s st
  | PFail => True
  | PFuel => False
  end.
Proof.
  intros Hn.
  assert (H : satp nows (S (length i)) 1 (fun s st => exists s1 w, s = s1 ++ w ++ s_ ";" /\ ws w /\ g_simple unreserved s1 st) stmt_semicolon).
  { eapply satp_weaken.
    - eapply satp_left; [eapply satp_left; [apply sat_simple|apply sat_space]|apply sat_sym].
    - cbn; lia.
    - cbv beta. intros s st H. dx. norm. eauto 6. }
  specialize (H i ltac:(lia) Hn). destruct (stmt_semicolon i) as [st r| |]; auto.
  destruct H as (pre & -> & _ & s1 & w & -> & Hw & Hs). exists s1, w. norm. auto.
Qed.
Lemma semicolon_fail i a c u : nows i -> i = a ++ c :: u -> skips a -> c = 123%N \/ c = 125%N -> stmt_semicolon i = PFail.
Proof.
  intros Hn E Ha Hc. pose proof (semicolon_inv i Hn) as H. destruct (stmt_semicolon i) as [st r| |]; [|reflexivity|contradiction].
  destruct H as (s & w & E' & Hw & Hs). exfalso. rewrite E in E'. rewrite app_assoc in E'.
  assert (c = 59%N); [|lia].
  eapply (skips_unique a Ha (s ++ w) c u 59%N r); [apply skips_app; [eapply simple_skips; exact Hs|apply skips_ws, Hw]| | |exact E'];
    unfold stopper; lia.
Qed.
Lemma semicolon_fail_nil : stmt_semicolon [] = PFail.
Proof. vm_compute. reflexivity. Qed.

Lemma p_string_nofuel i : p_string i <> PFuel.
Proof. pose proof (sat_p_string (S (length i)) i ltac:(lia)) as H. destruct (p_string i); [discriminate|discriminate|contradiction]. Qed.

Lemma expr_starts k s e : g_expr k s e -> starts s.
Proof. intros H. apply (proj1 g_complete) in H. apply H. Qed.

Ltac lets := cbn; repeat (apply Forall_cons; [unfold letter, decimal; lia|]); apply Forall_nil.
Lemma ident_filesystem : identifier (s_ "filesystem").
Proof. change (identifier (102%N :: s_ "ilesystem")). constructor; [unfold letter; lia|]. lets. Qed.

(** a statement that starts with an expression is not a filesystem statement *)
Lemma not_filesystem s e rest : g_expr 0 s e -> bnd 0 rest -> (forall w u, ws w -> rest <> w ++ 34%N :: u) ->
  filesystem_stmt (s ++ rest) = PFail.
Proof.
  intros H Hb Hr. unfold filesystem_stmt. apply pmap_fail.
  destruct (strip_prefix (s_ "filesystem") (s ++ rest)) as [r|] eqn:E.
  - apply strip_prefix_app in E. destruct (space_split r) as (w & r1 & -> & Hw & Hr1).
    eapply pright_fail2; [eapply pright_ok; [rewrite E; apply tag_ok|apply space_ok; assumption]|].
    destruct (p_string r1) as [v r2| |] eqn:Es; [|reflexivity|elim (p_string_nofuel _ Es)].
    exfalso. pose proof (sat_p_string (S (length r1)) r1 ltac:(lia)) as Hs. rewrite Es in Hs.
    destruct Hs as (pre & -> & _ & v' & _ & Hv). destruct (string_head _ _ Hv) as [t ->].
    pose proof (expr_complete s e rest H Hb) as P. rewrite E in P. unfold p_expr in P.
    assert (Hb2 : bnd 0 (w ++ 34%N :: t ++ r2)) by (apply bnd_punct; [exact Hw|cbn; tauto]).
    pose proof (atom_expr (length (s_ "filesystem" ++ w ++ 34%N :: t ++ r2)) [] (s_ "filesystem" ++ w ++ 34%N :: t ++ r2)
      (EIdent (s_ "filesystem")) (w ++ 34%N :: t ++ r2)) as A. cbn [app] in A.
    change (34%N :: t ++ r2) with ((34%N :: t) ++ r2) in A. change ((34%N :: t) ++ r2) with (34%N :: t ++ r2) in A.
    change ((34%N :: t) ++ r2) with (34%N :: t ++ r2) in P.
    rewrite A in P.
    + injection P as _ Hx. exact (Hr w (t ++ r2) Hw (eq_sym Hx)).
    + constructor.
    + apply nows_ident, ident_filesystem.
    + apply unary_ident_fail, ident_filesystem.
    + apply primary_ident; [apply ident_filesystem|intros [x X]; vm_compute in X; discriminate|intros [x X]; vm_compute in X; discriminate|].
      eapply bnd_noid. exact Hb2.
    + exact Hb2.
  - apply pright_fail1, pright_fail1. unfold tag. rewrite E. reflexivity.
Qed.

Lemma letters_help : Forall letter (s_ "help"). Proof. lets. Qed.
Lemma letters_quit : Forall letter (s_ "quit"). Proof. lets. Qed.
Lemma letters_break : Forall letter (s_ "break"). Proof. lets. Qed.
Lemma letters_continue : Forall letter (s_ "continue"). Proof. lets. Qed.
Lemma letters_print : Forall letter (s_ "print"). Proof. lets. Qed.

Lemma keywords_fail s e rest : unambiguous_start s -> g_expr 0 s e -> bnd 0 rest -> (forall w u, ws w -> rest <> w ++ 34%N :: u) ->
  builtin_stmt (s ++ rest) = PFail /\ jump_stmt (s ++ rest) = PFail.
Proof.
  intros ((H1 & H2 & H3 & H4) & H5) He Hb Hq. pose proof (bnd_noid _ _ Hb) as Hr. split.
  - unfold builtin_stmt. apply palt_fail; [eapply not_filesystem; eassumption|]. apply palt_fail; [|apply palt_fail].
    + apply pright_fail1, tag_fail. intros B. apply H5. exact (begins_noid _ letters_print _ _ Hr B).
    + apply pmap_fail, tag_fail. intros B. apply H1. exact (begins_noid _ letters_help _ _ Hr B).
    + apply pmap_fail, tag_fail. intros B. apply H2. exact (begins_noid _ letters_quit _ _ Hr B).
  - unfold jump_stmt. apply palt_fail.
    + apply pmap_fail, tag_fail. intros B. apply H3. exact (begins_noid _ letters_break _ _ Hr B).
    + apply pmap_fail, tag_fail. intros B. apply H4. exact (begins_noid _ letters_continue _ _ Hr B).
Qed.

Lemma ws_no_quote w t : ws w -> nows t -> heads (fun c => c <> 34%N) t -> forall w' u, ws w' -> w ++ t <> w' ++ 34%N :: u.
Proof.
  intros Hw Ht Hh w' u Hw' E. apply ws_unique in E; auto; [|apply nows_cons; unfold spc; lia]. destruct E as [_ ->]. apply Hh. reflexivity.
Qed.
Lemma nows_s c u : ~ spc c -> nows (c :: u). Proof. auto. Qed.

(** the three kinds of assignment, given the target and the operator *)
Lemma simple_complete s st w u : g_simple unambiguous_start s st -> ws w -> simple_p (s ++ w ++ s_ ";" ++ u) = POk st (w ++ s_ ";" ++ u).
Proof.
  intros H Hw. unfold simple_p.
  assert (Hb : bnd 0 (w ++ s_ ";" ++ u)) by (apply bnd_punct; [exact Hw|cbn; tauto]).
  destruct H as [w1 s v Hw1 Hs|s e He| | | | |s1 t w1 s2 e Hok H1 Hw1 H2|s1 t w1 s2 e Hok H1 Hw1 H2|s1 t w1 s2 e Hok H1 Hw1 H2|s e Hok He].
  - norm. apply palt_l, palt_l. unfold filesystem_stmt. apply pmap_ok. eapply pright_ok; [eapply pright_ok; [apply tag_ok|]|apply p_string_ok; exact Hs].
    apply space_ok; [exact Hw1|]. destruct (string_head _ _ Hs) as [x ->]. apply nows_s. unfold spc. lia.
  - norm. apply palt_l. unfold builtin_stmt. rewrite palt_r by (apply pmap_fail, pright_fail1, pright_fail1; reflexivity).
    apply palt_l. unfold print_stmt. eapply pright_ok; [apply tag_ok|]. apply pmap_ok, full_complete; assumption.
  - apply palt_l. reflexivity.
  - apply palt_l. reflexivity.
  - rewrite palt_r by reflexivity. apply palt_l. reflexivity.
  - rewrite palt_r by reflexivity. apply palt_l. reflexivity.
  - norm.
    assert (Hop : opnd (s2 ++ w ++ s_ ";" ++ u)) by (eapply opnd_full, (proj1 (proj2 g_complete)); exact H2).
    assert (Hbr : bnd 0 (w1 ++ s_ "=" ++ s2 ++ w ++ s_ ";" ++ u)) by (apply bnd_assign; assumption).
    destruct (keywords_fail s1 t _ Hok H1 Hbr) as [K1 K2]; [apply ws_no_quote; [exact Hw1|apply nows_s; cbn; unfold spc; lia|cbn; lia]|].
    rewrite palt_r by exact K1. rewrite palt_r by exact K2. apply palt_l.
    pose proof (expr_complete s1 t _ H1 Hbr) as P.
    assert (Q : pleft p_expr space (s1 ++ w1 ++ s_ "=" ++ s2 ++ w ++ s_ ";" ++ u) = POk t (s_ "=" ++ s2 ++ w ++ s_ ";" ++ u)).
    { eapply pleft_ok; [exact P|]. apply space_ok; [exact Hw1|apply nows_s; cbn; unfold spc; lia]. }
    unfold assign_stmt. rewrite palt_r by (apply pmap_fail, pseq_fail1; eapply pleft_fail2; [exact Q|reflexivity]).
    rewrite palt_r by (apply pmap_fail, pseq_fail1; eapply pleft_fail2; [exact Q|reflexivity]).
    unfold regular_assign. apply (pmap_eq _ _ _ (t, e)); [|reflexivity]. eapply pseq_ok; [eapply pleft_ok; [exact Q|apply (sym_ok 61%N)]|].
    apply full_complete; assumption.
  - norm.
    assert (Hbr : bnd 0 (w1 ++ s_ "+=" ++ s2 ++ w ++ s_ ";" ++ u)) by (apply bnd_plus; assumption).
    destruct (keywords_fail s1 t _ Hok H1 Hbr) as [K1 K2]; [apply ws_no_quote; [exact Hw1|apply nows_s; cbn; unfold spc; lia|cbn; lia]|].
    rewrite palt_r by exact K1. rewrite palt_r by exact K2. apply palt_l.
    pose proof (expr_complete s1 t _ H1 Hbr) as P.
    assert (Q : pleft p_expr space (s1 ++ w1 ++ s_ "+=" ++ s2 ++ w ++ s_ ";" ++ u) = POk t (s_ "+=" ++ s2 ++ w ++ s_ ";" ++ u)).
    { eapply pleft_ok; [exact P|]. apply space_ok; [exact Hw1|apply nows_s; cbn; unfold spc; lia]. }
    unfold assign_stmt. apply palt_l. unfold plus_equals. apply (pmap_eq _ _ _ (t, e)); [|reflexivity].
    eapply pseq_ok; [eapply pleft_ok; [exact Q|apply tag_ok]|]. apply full_complete; assumption.
  - norm.
    assert (Hbr : bnd 0 (w1 ++ s_ "-=" ++ s2 ++ w ++ s_ ";" ++ u)) by (apply bnd_minus; assumption).
    destruct (keywords_fail s1 t _ Hok H1 Hbr) as [K1 K2]; [apply ws_no_quote; [exact Hw1|apply nows_s; cbn; unfold spc; lia|cbn; lia]|].
    rewrite palt_r by exact K1. rewrite palt_r by exact K2. apply palt_l.
    pose proof (expr_complete s1 t _ H1 Hbr) as P.
    assert (Q : pleft p_expr space (s1 ++ w1 ++ s_ "-=" ++ s2 ++ w ++ s_ ";" ++ u) = POk t (s_ "-=" ++ s2 ++ w ++ s_ ";" ++ u)).
    { eapply pleft_ok; [exact P|]. apply space_ok; [exact Hw1|apply nows_s; cbn; unfold spc; lia]. }
    unfold assign_stmt. rewrite palt_r by (apply pmap_fail, pseq_fail1; eapply pleft_fail2; [exact Q|reflexivity]).
    apply palt_l. unfold minus_equals. apply (pmap_eq _ _ _ (t, e)); [|reflexivity].
    eapply pseq_ok; [eapply pleft_ok; [exact Q|apply tag_ok]|]. apply full_complete; assumption.
  - destruct (keywords_fail s e _ Hok He Hb) as [K1 K2]; [apply ws_no_quote; [exact Hw|apply nows_s; cbn; unfold spc; lia|cbn; lia]|].
    rewrite palt_r by exact K1. rewrite palt_r by exact K2.
    pose proof (expr_complete s e _ He Hb) as P.
    assert (Q : pleft p_expr space (s ++ w ++ s_ ";" ++ u) = POk e (s_ ";" ++ u)).
    { eapply pleft_ok; [exact P|]. apply space_ok; [exact Hw|apply nows_s; cbn; unfold spc; lia]. }
    rewrite palt_r.
    + unfold expr_stmt. apply pmap_ok. exact P.
    + unfold assign_stmt. apply palt_fail; [|apply palt_fail]; apply pmap_fail, pseq_fail1; (eapply pleft_fail2; [exact Q|reflexivity]).
Qed.
