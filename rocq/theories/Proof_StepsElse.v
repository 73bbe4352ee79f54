(** A statement up to its semicolon contains no opening brace before the first double quote. *)
From Verif Require Import Base Ast Pom Parse Lib Proof_Parse.
Require Import Lia.
Arguments s_ s%string_scope.
Arguments c_ a%char_scope.
Fixpoint nobrace (s : str) : bool := match s with [] => true | x :: t => if (x =? 34)%N then true else if (x =? 123)%N then false else nobrace t end.
Lemma nobrace_app a b : nobrace a = true -> nobrace b = true -> nobrace (a ++ b) = true.
Proof. induction a as [|x a IH]; intros H H'; [exact H'|]. cbn in *. destruct (x =? 34)%N; [reflexivity|]. destruct (x =? 123)%N; [discriminate|]. auto. Qed.
Definition con {A} (p : parser A) : Prop := forall i, match p i with POk _ r => exists s, i = s ++ r /\ nobrace s = true | _ => True end.
Section Con.
Context {A B : Type}.
Lemma con_map (f : A -> B) p : con p -> con (pmap f p).
Proof. intros H i. unfold pmap. specialize (H i). destruct (p i); auto. Qed.
Lemma con_convert (f : A -> option B) p : con p -> con (pconvert p f).
Proof. intros H i. unfold pconvert. specialize (H i). destruct (p i) as [a r| |]; auto. destruct (f a); auto. Qed.
Lemma con_seq (p : parser A) (q : parser B) : con p -> con q -> con (pseq p q).
Proof.
  intros H H' i. unfold pseq. specialize (H i). destruct (p i) as [a r| |]; auto. specialize (H' r). destruct (q r) as [b r'| |]; auto.
  destruct H as (s & -> & S1), H' as (s' & -> & S2). exists (s ++ s'). rewrite app_assoc. split; [reflexivity|]. apply nobrace_app; assumption.
Qed.
Lemma con_alt (p q : parser A) : con p -> con q -> con (palt p q).
Proof. intros H H' i. unfold palt. specialize (H i). specialize (H' i). destruct (p i); auto. Qed.
Lemma con_opt (p : parser A) : con p -> con (popt p).
Proof. intros H i. unfold popt. specialize (H i). destruct (p i); auto. exists []. split; reflexivity. Qed.
Lemma con_rep_n (p : parser A) n : con p -> con (prep_n n p).
Proof.
  intros H. induction n as [|n IH]; intros i; [exact I|]. cbn [prep_n]. specialize (H i). destruct (p i) as [a r| |]; auto.
  - specialize (IH r). destruct (prep_n n p r) as [b r'| |]; auto.
    destruct H as (s & -> & S1), IH as (s' & -> & S2). exists (s ++ s'). rewrite app_assoc. split; [reflexivity|]. apply nobrace_app; assumption.
  - exists []. split; reflexivity.
Qed.
Lemma con_rep (p : parser A) : con p -> con (prep p).
Proof. intros H i. apply con_rep_n. exact H. Qed.
Lemma con_collect (p : parser A) : con p -> con (pcollect p).
Proof. intros H i. unfold pcollect. specialize (H i). destruct (p i); auto. Qed.
End Con.
Lemma con_right {A B} (p : parser A) (q : parser B) : con p -> con q -> con (pright p q).
Proof. intros. apply con_map, con_seq; assumption. Qed.
Lemma con_left {A B} (p : parser A) (q : parser B) : con p -> con q -> con (pleft p q).
Proof. intros. apply con_map, con_seq; assumption. Qed.
Lemma con_discard {A} (p : parser A) : con p -> con (pdiscard p).
Proof. intros. apply con_map. assumption. Qed.
Lemma con_list {A B} (p : parser A) (q : parser B) : con p -> con q -> con (plist p q).
Proof.
  intros H H' i. unfold plist. specialize (H i) as Hi. destruct (p i) as [a r| |]; auto.
  - pose proof (con_rep _ (con_right _ _ H' H) r) as Hr. destruct (prep _ r) as [b r'| |]; auto.
    destruct Hi as (s & -> & S1), Hr as (s' & -> & S2). exists (s ++ s'). rewrite app_assoc. split; [reflexivity|]. apply nobrace_app; assumption.
  - exists []. split; reflexivity.
Qed.
Lemma con_is_a f : f 123%N = false -> con (is_a f).
Proof.
  intros H i. unfold is_a. destruct i as [|x i]; [exact I|]. destruct (f x) eqn:E; [|exact I]. exists [x]. split; [reflexivity|]. cbn. destruct (x =? 34)%N; [reflexivity|].
  destruct (N.eqb_spec x 123); [congruence|reflexivity].
Qed.
Lemma con_tag t : nobrace t = true -> con (tag t).
Proof.
  intros H i. pose proof (sat_tag (1 + length i) t i ltac:(lia)) as S. destruct (tag t i) as [a r| |]; auto. destruct S as (s & -> & _ & -> & _). exists t. split; [reflexivity|exact H].
Qed.
Lemma con_string : con p_string.
Proof.
  intros i. pose proof (sat_p_string (1 + length i) i ltac:(lia)) as S. destruct (p_string i) as [a r| |] eqn:E; auto. destruct S as (s & -> & Hs & _). exists s. split; [reflexivity|].
  destruct s as [|x s]; [reflexivity|]. destruct (N.eqb_spec x 34) as [->|Nx]; [reflexivity|]. exfalso. cbn [app] in E.
  unfold p_string, pmap, pleft, pright, pmap, pseq, sym, is_a in E. destruct (N.eqb_spec 34 x); [congruence|]. discriminate E.
Qed.
Ltac con1 := match goal with
  | H : con ?p |- con ?p => exact H
  | |- con (palt _ _) => apply con_alt
  | |- con (popt _) => apply con_opt
  | |- con (prep _) => apply con_rep
  | |- con (pdiscard _) => apply con_discard
  | |- con (pright _ _) => apply con_right
  | |- con (pleft _ _) => apply con_left
  | |- con (plist _ _) => apply con_list
  | |- con (pcollect _) => apply con_collect
  | |- con (pconvert _ _) => apply con_convert
  | |- con (pmap _ _) => apply con_map
  | |- con (pseq _ _) => apply con_seq
  | |- con (tag _) => apply con_tag; vm_compute; reflexivity
  | |- con (sym _) => unfold sym
  | |- con (one_of _) => unfold one_of
  | |- con (is_a _) => apply con_is_a; vm_compute; reflexivity
  end.
Ltac con := repeat con1.
Lemma con_space : con space. Proof. unfold space. con. Qed.
Lemma con_constant : con constant. Proof. unfold constant, number, integer. con. Qed.
Lemma con_ident : con ident. Proof. unfold ident, ident_name. con. Qed.
Lemma con_cast : con cast.
Proof. pose proof con_space. pose proof con_ident. unfold cast, type_specifier. con. Qed.
Section Ex.
Variable qe : parser expr.
Hypothesis He : con qe.
Lemma con_primary : con (primary_expr qe).
Proof. pose proof con_space. pose proof con_constant. pose proof con_ident. pose proof con_string. unfold primary_expr, paren. con. Qed.
Lemma con_postfix : con (postfix_expr qe).
Proof. pose proof con_space. pose proof con_primary. pose proof con_ident. unfold postfix_expr, function_call, array_index, field_access, arg_list. con. Qed.
Lemma con_unary : con (unary_expr qe).
Proof. pose proof con_space. pose proof con_postfix. pose proof con_cast. unfold unary_expr, unary_ops. con. Qed.
Lemma con_level ops' next' : con ops' -> con next' -> con (binary_level ops' next').
Proof. intros. pose proof con_space. unfold binary_level. con. Qed.
Lemma con_level1 ops' next' : con ops' -> con next' -> con (single_level ops' next').
Proof. apply con_level. Qed.
Lemma con_or : con (or_expr qe).
Proof.
  unfold or_expr, and_expr, bit_or_expr, bit_xor_expr, bit_and_expr.
  repeat (apply con_level1; [unfold op_tag; con|]). unfold eq_expr.
  assert (con (relation_expr qe)).
  { unfold relation_expr, shift_expr, add_expr, mult_expr.
    repeat (apply con_level; [unfold relation_ops, shift_ops, add_ops, mult_ops, op_tag; con|]). apply con_unary. }
  pose proof con_space. unfold eq_ops, op_tag. con.
Qed.
End Ex.
Lemma con_expr_f f : con (p_expr_f f).
Proof. induction f as [|f IH]; [intros i; exact I|]. cbn [p_expr_f]. apply con_right; [apply con_space|]. apply con_or. exact IH. Qed.
Lemma con_expr : con p_expr.
Proof. intros i. exact (con_expr_f (S (length i)) i). Qed.
Definition before_semicolon : parser stmt := palt builtin_stmt (palt jump_stmt (palt assign_stmt expr_stmt)).
Lemma con_semicolon : con (pleft before_semicolon space).
Proof.
  pose proof con_space. pose proof con_expr. pose proof con_string.
  unfold before_semicolon, builtin_stmt, jump_stmt, assign_stmt, expr_stmt, filesystem_stmt, print_stmt, help_stmt, quit_stmt, plus_equals, minus_equals, regular_assign.
  con.
Qed.
(** so none starts here *)
Lemma brace_first s : forall u r t, nobrace s = true -> (forall x, In x u -> x <> 34 /\ x <> 123 /\ x <> 59)%N -> s ++ 59%N :: r = u ++ 123%N :: t -> False.
Proof.
  induction s as [|x s IH]; intros [|y u] r t Hs Hu E; cbn [app] in E.
  - discriminate E.
  - injection E as E _. destruct (Hu y) as (_ & _ & N); [left; reflexivity|congruence].
  - injection E as -> _. discriminate Hs.
  - injection E as -> E. destruct (Hu y) as (N1 & N2 & _); [left; reflexivity|]. cbn in Hs. apply N.eqb_neq in N1, N2. rewrite N1, N2 in Hs.
    eapply (IH u r t Hs); [|exact E]. intros z Hz. apply Hu. right. exact Hz.
Qed.
Lemma no_statement u t a r : (forall x, In x u -> x <> 34 /\ x <> 123 /\ x <> 59)%N -> stmt_semicolon (u ++ 123%N :: t) = POk a r -> False.
Proof.
  intros Hu. unfold stmt_semicolon. fold before_semicolon. unfold pleft at 1, pmap, pseq at 1. pose proof (con_semicolon (u ++ 123%N :: t)) as C.
  destruct (pleft before_semicolon space (u ++ 123%N :: t)) as [b r1| |]; try discriminate. destruct C as (s & E & Hs).
  unfold sym, is_a. destruct r1 as [|x r1]; [discriminate|]. destruct (N.eqb_spec (c_ ";") x) as [<-|]; [|discriminate]. intros _.
  eapply (brace_first s u r1 t Hs Hu). symmetry. exact E.
Qed.
