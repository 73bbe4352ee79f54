(** C94: lemmas. *)
From Verif Require Import Base Ast Pom Parse Value Variables Semantics Fs Eval Runtime Lib Spec_Grammar Spec_Render Proof_Parse Proof_Complete3 Proof_Render Spec_Depth.
Require Import Lia.
Arguments s_ s%string_scope.
Scheme g_expr_ind3 := Induction for g_expr Sort Prop with g_full_ind3 := Induction for g_full Sort Prop
  with g_args_ind3 := Induction for g_args Sort Prop with g_more_ind3 := Induction for g_more Sort Prop.
Combined Scheme g_expr_all from g_expr_ind3, g_full_ind3, g_args_ind3, g_more_ind3.
Lemma op_text_pos o : 1 <= length (op_text o). Proof. destruct o; cbn; lia. Qed.
Lemma unop_text_1 o : length (unop_text o) = 1. Proof. destruct o; reflexivity. Qed.
Lemma identifier_pos s : identifier s -> 1 <= length s. Proof. intros []. cbn. lia. Qed.
Lemma number_pos s z : number_text s z -> 1 <= length s. Proof. intros [s' z' _ H _ _]. destruct s'; [congruence|cbn; lia]. Qed.
Lemma string_pos s v : string_lit s v -> 2 <= length s. Proof. intros []. cbn. rewrite app_length. cbn. lia. Qed.
Ltac lens := repeat rewrite app_length in *; cbn [length s_ expr_depth expr_nodes stmt_depth stmt_nodes maxl suml list_ascii_of_string map] in *; repeat rewrite app_length in *.
Lemma expr_small :
  (forall k s e, g_expr k s e -> expr_depth e <= length s /\ expr_nodes e <= length s) /\
  (forall s e, g_full s e -> expr_depth e <= length s /\ expr_nodes e <= length s) /\
  (forall s l, g_args s l -> maxl expr_depth l <= length s /\ suml expr_nodes l <= length s) /\
  (forall s l, g_more s l -> maxl expr_depth l <= length s /\ suml expr_nodes l <= length s).
Proof.
  apply g_expr_all; intros; subst;
  repeat match goal with
  | H : number_text _ _ |- _ => apply number_pos in H
  | H : identifier _ |- _ => apply identifier_pos in H
  | H : string_lit _ _ |- _ => apply string_pos in H
  end; try (pose proof (op_text_pos o)); try (pose proof (unop_text_1 o)); lens; lia.
Qed.
Section Stmts.
Variable start_ok : str -> Prop.
Lemma simple_small s st : g_simple start_ok s st -> stmt_depth st <= length s + 1 /\ stmt_nodes st <= 2 * length s + 1.
Proof.
  intros H; destruct H; repeat match goal with
  | H : g_full _ _ |- _ => apply (proj1 (proj2 expr_small)) in H
  | H : g_expr _ _ _ |- _ => apply (proj1 expr_small) in H
  | H : string_lit _ _ |- _ => apply string_pos in H
  end; lens; lia.
Qed.
Scheme g_stmt_ind3 := Induction for g_stmt Sort Prop with g_block_ind3 := Induction for g_block Sort Prop with g_stmts_ind3 := Induction for g_stmts Sort Prop.
Combined Scheme g_stmt_all from g_stmt_ind3, g_block_ind3, g_stmts_ind3.
Lemma stmt_small :
  (forall s st, g_stmt start_ok s st -> stmt_depth st <= length s /\ stmt_nodes st <= 2 * length s) /\
  (forall s st, g_block start_ok s st -> stmt_depth st <= length s /\ stmt_nodes st <= 2 * length s) /\
  (forall s l, g_stmts start_ok s l -> depth l <= length s /\ nodes l <= 2 * length s).
Proof.
  unfold depth, nodes. apply g_stmt_all; intros; subst; repeat match goal with
  | H : g_full _ _ |- _ => apply (proj1 (proj2 expr_small)) in H
  | H : g_simple _ _ _ |- _ => apply simple_small in H
  | H : identifier _ |- _ => apply identifier_pos in H
  end; lens; lia.
Qed.
End Stmts.
Lemma parse_small c p : parse c = Ok p -> depth p <= length c /\ nodes p <= 2 * length c.
Proof.
  intros H. apply parse_sound in H. destruct H as [s l w H _]. apply (proj2 (proj2 (stmt_small _))) in H. rewrite app_length. lia.
Qed.
(** n times !, 1 and ; *)
Fixpoint nots (n : nat) : expr := match n with 0 => EInt 1 | S n => EUn UNot (nots n) end.
Lemma nots_text n : render (nots n) = repeat 33%N n ++ [49%N].
Proof. induction n as [|n IH]; [reflexivity|]. cbn [nots render]. rewrite IH. reflexivity. Qed.
Lemma nots_wf n : wf (nots n) /\ unary_level <= level (nots n).
Proof. induction n as [|n [IH1 IH2]]; [split; [constructor; lia|cbn; unfold unary_level, primary_level; lia]|]. split; [constructor; assumption|cbn; lia]. Qed.
Lemma nots_depth n : expr_depth (nots n) = S n.
Proof. induction n as [|n IH]; [reflexivity|]. cbn [nots expr_depth]. rewrite IH. reflexivity. Qed.
Lemma nots_word n : first_word (nots n) = [].
Proof. destruct n; reflexivity. Qed.
(** ** More levels change nothing *)
Definition le {A} (p q : parser A) : Prop := forall i, p i <> PFuel -> q i = p i.
Lemma le_refl {A} (p : parser A) : le p p. Proof. intros i _. reflexivity. Qed.
Lemma le_map {A B} (f : A -> B) p q : le p q -> le (pmap f p) (pmap f q).
Proof. intros H i N. unfold pmap in *. specialize (H i). destruct (p i); try (rewrite H by discriminate; reflexivity). elim N; reflexivity. Qed.
Lemma le_seq {A B} (p p' : parser A) (q q' : parser B) : le p p' -> le q q' -> le (pseq p q) (pseq p' q').
Proof.
  intros H H2 i N. unfold pseq in *. specialize (H i). destruct (p i) as [a r| |]; [rewrite H by discriminate|rewrite H by discriminate; reflexivity|elim N; reflexivity].
  specialize (H2 r). destruct (q r); try (rewrite H2 by discriminate; reflexivity). elim N; reflexivity.
Qed.
Lemma le_right {A B} (p p' : parser A) (q q' : parser B) : le p p' -> le q q' -> le (pright p q) (pright p' q').
Proof. intros. apply le_map, le_seq; assumption. Qed.
Lemma le_left {A B} (p p' : parser A) (q q' : parser B) : le p p' -> le q q' -> le (pleft p q) (pleft p' q').
Proof. intros. apply le_map, le_seq; assumption. Qed.
Lemma le_alt {A} (p p' q q' : parser A) : le p p' -> le q q' -> le (palt p q) (palt p' q').
Proof. intros H H2 i N. unfold palt in *. specialize (H i). destruct (p i); [rewrite H by discriminate; reflexivity|rewrite H by discriminate; apply H2; exact N|elim N; reflexivity]. Qed.
Lemma le_opt {A} (p p' : parser A) : le p p' -> le (popt p) (popt p').
Proof. intros H i N. unfold popt in *. specialize (H i). destruct (p i); try (rewrite H by discriminate; reflexivity). elim N; reflexivity. Qed.
Lemma le_rep {A} (p p' : parser A) : le p p' -> le (prep p) (prep p').
Proof.
  intros H i. unfold prep. generalize (S (length i)). intros n. revert i. induction n as [|n IH]; intros i N; [reflexivity|]. cbn [prep_n] in *. specialize (H i).
  destruct (p i) as [a r| |]; [rewrite H by discriminate|rewrite H by discriminate; reflexivity|elim N; reflexivity].
  specialize (IH r). destruct (prep_n n p r); try (rewrite IH by discriminate; reflexivity). elim N; reflexivity.
Qed.
Lemma le_list {A B} (p p' : parser A) (q q' : parser B) : le p p' -> le q q' -> le (plist p q) (plist p' q').
Proof.
  intros H H2 i N. unfold plist in *. pose proof (le_rep _ _ (le_right _ _ _ _ H2 H)) as H3. specialize (H i). destruct (p i) as [a r| |]; [rewrite H by discriminate|rewrite H by discriminate; reflexivity|elim N; reflexivity].
  specialize (H3 r). destruct (prep (pright q p) r); try (rewrite H3 by discriminate; reflexivity). elim N; reflexivity.
Qed.
Ltac less := repeat match goal with
  | H : le ?a ?b |- le ?a ?b => exact H
  | |- le ?a ?a => apply le_refl
  | |- le (pmap _ _) (pmap _ _) => apply le_map
  | |- le (pright _ _) (pright _ _) => apply le_right
  | |- le (pleft _ _) (pleft _ _) => apply le_left
  | |- le (pseq _ _) (pseq _ _) => apply le_seq
  | |- le (palt _ _) (palt _ _) => apply le_alt
  | |- le (popt _) (popt _) => apply le_opt
  | |- le (prep _) (prep _) => apply le_rep
  | |- le (plist _ _) (plist _ _) => apply le_list
  end.
Lemma binary_le o a b : le a b -> le (binary_level o a) (binary_level o b).
Proof. intros G. unfold binary_level. less. Qed.
Lemma single_le o a b : le a b -> le (single_level o a) (single_level o b).
Proof. intros G. unfold single_level. less. Qed.
Lemma postfix_le p q : le p q -> le (postfix_expr p) (postfix_expr q).
Proof. intros H. unfold postfix_expr, primary_expr, paren, function_call, array_index, arg_list. less. Qed.
Lemma unary_le p q : le p q -> le (unary_expr p) (unary_expr q).
Proof. intros H. apply postfix_le in H. unfold unary_expr. less. Qed.
Lemma relation_le p q : le p q -> le (relation_expr p) (relation_expr q).
Proof. intros H. apply unary_le in H. unfold relation_expr, shift_expr, add_expr, mult_expr. apply binary_le, binary_le, binary_le, binary_le. exact H. Qed.
Lemma eq_le p q : le p q -> le (eq_expr p) (eq_expr q).
Proof. intros H. apply relation_le in H. unfold eq_expr. less. Qed.
Lemma or_le p q : le p q -> le (or_expr p) (or_expr q).
Proof. intros H. apply eq_le in H. unfold or_expr, and_expr, bit_or_expr, bit_xor_expr, bit_and_expr. do 5 apply single_le. exact H. Qed.
Lemma stmt_le p q : le p q -> le (p_stmt p) (p_stmt q).
Proof. intros H. unfold p_stmt, block_stmt, if_else_stmt, if_stmt, else_stmt, while_stmt, for_stmt. less. Qed.
Lemma expr_levels f : le (p_expr_f f) (p_expr_f (S f)).
Proof.
  induction f as [|f IH]; [intros i N; elim N; reflexivity|]. change (le (pright space (or_expr (p_expr_f f))) (pright space (or_expr (p_expr_f (S f))))).
  apply le_right; [apply le_refl|]. apply or_le. exact IH.
Qed.
Lemma stmts_levels f : le (p_stmts_f f) (p_stmts_f (S f)).
Proof.
  induction f as [|f IH]; [intros i N; elim N; reflexivity|]. change (le (prep (p_stmt (p_stmts_f f))) (prep (p_stmt (p_stmts_f (S f))))).
  apply le_rep, stmt_le. exact IH.
Qed.
Lemma levels {A} (g : nat -> parser A) : (forall f, le (g f) (g (S f))) -> (forall f i, length i < f -> g f i <> PFuel) ->
  forall f i, length i < f -> g f i = g (S (length i)) i.
Proof.
  intros H N f i Hf. induction f as [|f IH]; [lia|]. destruct (PeanoNat.Nat.eq_dec f (length i)) as [->|D]; [reflexivity|].
  rewrite (H f i) by (apply N; lia). apply IH. lia.
Qed.
Lemma sat_fuel {A} N k (R : str -> A -> Prop) p i : sat N k R p -> length i < N -> p i <> PFuel.
Proof. intros H Hi E. specialize (H i Hi). rewrite E in H. exact H. Qed.
Lemma parser_levels f i : length i < f ->
  p_expr_f f i <> PFuel /\ p_stmts_f f i <> PFuel /\ p_expr_f f i = p_expr i /\ p_stmts_f f i = p_stmts i.
Proof.
  intros H. assert (N1 : forall f i, length i < f -> p_expr_f f i <> PFuel) by (intros; eapply sat_fuel; [apply sat_p_expr_f|assumption]).
  assert (N2 : forall f i, length i < f -> p_stmts_f f i <> PFuel) by (intros; eapply sat_fuel; [apply sat_p_stmts_f|assumption]).
  split; [apply N1; exact H|]. split; [apply N2; exact H|]. split.
  - unfold p_expr. exact (levels p_expr_f expr_levels N1 f i H).
  - unfold p_stmts. exact (levels p_stmts_f stmts_levels N2 f i H).
Qed.
(** ** Deep commands *)
Lemma nots_analyze v n : analyze_expr v (nots n) = Ok tt.
Proof. induction n; [reflexivity|exact IHn]. Qed.
Lemma nots_eval k E v f n w : exists b, eval_expr k E v f (nots n) w = (w, Ok (match n with 0 => VInt 1 | _ => VBool b end)).
Proof.
  induction n as [|n [b IH]]; [exists true; reflexivity|]. cbn [nots eval_expr]. unfold mbind, mret. rewrite IH. destruct n as [|n]; cbn; eauto.
Qed.
Lemma deep_commands n : 2 <= n -> exists c p, length c = n /\ parse c = Ok p /\ depth p = n /\
  forall k E r, snd (rt_eval (S k) E false r c) = ROk.
Proof.
  intros Hn. destruct n as [|[|n]]; try lia. clear Hn. exists (render_program [SExpr (nots n)]), [SExpr (nots n)].
  assert (Hp : parse (render_program [SExpr (nots n)]) = Ok [SExpr (nots n)]).
  { apply parse_render. constructor; [|constructor]. constructor; [apply nots_wf|]. rewrite nots_word. repeat split; intros [u Hu]; discriminate. }
  split; [|split; [exact Hp|split]].
  - unfold render_program. cbn [flat_map render_stmt]. rewrite nots_text, !app_length, repeat_length. cbn. lia.
  - cbn [depth maxl stmt_depth]. unfold depth. cbn [maxl stmt_depth]. rewrite nots_depth. lia.
  - intros k E r. unfold rt_eval. rewrite Hp. unfold analyze, analyze_stmts. cbn [analyze_list analyze_stmt]. rewrite nots_analyze. unfold sbind. cbn [fst snd].
    unfold eval_prog. cbn [run_list eval_stmt].
    destruct (nots_eval k E (e_vars (r_eval r)) (e_fs (r_eval r)) n (e_w (r_eval r))) as [b Hb]. unfold with_expr. rewrite Hb. reflexivity.
Qed.
