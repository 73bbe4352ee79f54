(** C42-C45: comments, continuation lines and the final semicolon. *)
From Verif Require Import Base Ast Pom Parse Value Fs Eval Runtime Input Main Spec_Grammar Spec_Input Demo Lib Proof_Parse Proof_Input.
From Coq Require Import Lia.
Arguments s_ s%string_scope.

(** ** C42.  Missing: lines with a # and an escaped quote, and string literals over several lines
    (both refuted below). *)
Theorem C42_strip_comments_partial :
  forall s ls ks, has_lines s ls ->
  Forall2 (fun l k => commented l k /\ ~ escaped_quote l \/ l = k /\ ~ In 35%N l) ls ks ->
  strip_comments s = spaced ks.
Proof. exact strip_comments_spec. Qed.
Print Assumptions C42_strip_comments_partial.
Theorem C42_every_text_has_lines : forall s, exists ls, has_lines s ls.
Proof. exact has_lines_total. Qed.
Print Assumptions C42_every_text_has_lines.
(** a # after an escaped quote inside a string literal is taken for a comment *)
Theorem C42_escaped_quote_starts_comment_refuted :
  forall a b, ~ In 34%N a -> ~ In 35%N a -> ~ In 10%N a -> ~ In 10%N b -> lit_body b ->
  let line := a ++ [34; 92; 34; 35]%N ++ b ++ [34%N] in
  commented line line /\ strip_comments line = a ++ [34; 92; 34]%N.
Proof.
  intros a b H1 H2 H3 H4 Hb line. split.
  - unfold line. assert (forall k, commented k k -> commented (a ++ k) (a ++ k)) as P.
    { intros k Hk. clear - H1 H2 Hk. induction a as [|c a IH]; [exact Hk|]. cbn [app]. apply cm_char; [intros ->; apply H1; left; reflexivity|intros ->; apply H2; left; reflexivity|].
      apply IH; [intros Q; apply H1; right; exact Q|intros Q; apply H2; right; exact Q]. }
    apply P. change ([34; 92; 34; 35]%N ++ b ++ [34%N]) with ([34%N] ++ ([92; 34; 35]%N ++ b) ++ [34%N] ++ []). apply cm_string; [|constructor].
    cbn [app]. apply lb_escape, lb_char; [discriminate|discriminate|exact Hb].
  - assert (H : has_lines line [line]).
    { apply hl_last; [unfold line; destruct a; discriminate|]. unfold line. rewrite !in_app_iff. cbn. intuition discriminate. }
    rewrite (strip_comments_lines _ _ H). cbn [map spaced]. unfold line. rewrite strip_line_plain by assumption. reflexivity.
Qed.
Print Assumptions C42_escaped_quote_starts_comment_refuted.
(** a comment after a string literal with one escaped quote is not removed *)
Theorem C42_escaped_quote_keeps_comment_refuted :
  forall a c, ~ In 34%N a -> ~ In 35%N a -> ~ In 10%N a -> ~ In 34%N c -> ~ In 10%N c ->
  let code := a ++ [34; 92; 34; 34; 32]%N in
  commented (code ++ s_ "#" ++ c) code /\ strip_comments (code ++ s_ "#" ++ c) = code ++ s_ "#" ++ c.
Proof.
  intros a c H1 H2 H3 H4 H5 code. split.
  - unfold code. rewrite <- !app_assoc. assert (forall k k', commented k k' -> commented (a ++ k) (a ++ k')) as P.
    { intros k k' Hk. clear - H1 H2 Hk. induction a as [|d a IH]; [exact Hk|]. cbn [app]. apply cm_char; [intros ->; apply H1; left; reflexivity|intros ->; apply H2; left; reflexivity|].
      apply IH; [intros Q; apply H1; right; exact Q|intros Q; apply H2; right; exact Q]. }
    apply P. apply (cm_string [92; 34]%N ([32%N] ++ s_ "#" ++ c) [32%N]); [apply lb_escape; constructor|]. apply cm_char; [discriminate|discriminate|apply cm_comment].
  - assert (H : has_lines (code ++ s_ "#" ++ c) [code ++ s_ "#" ++ c]).
    { apply hl_last; [unfold code; destruct a; discriminate|]. unfold code. rewrite !in_app_iff. cbn. intuition discriminate. }
    rewrite (strip_comments_lines _ _ H). cbn [map spaced]. unfold code. rewrite <- app_assoc, strip_line_plain by assumption. f_equal.
    assert (Q : strip_line true c = c).
    { clear - H4. induction c as [|d c IH]; [reflexivity|]. cbn [strip_line]. destruct (N.eqb_spec d 34) as [->|_]; [elim H4; left; reflexivity|].
      rewrite andb_false_r. f_equal. apply IH. intros X; apply H4; right; exact X. }
    change ([34; 92; 34; 34; 32; 35]%N ++ strip_line true c = [34; 92; 34; 34; 32; 35]%N ++ c). rewrite Q. reflexivity.
Qed.
Print Assumptions C42_escaped_quote_keeps_comment_refuted.
(** a line feed in a string literal becomes a blank *)
Theorem C42_newline_in_string_refuted :
  forall a b, ~ In 35%N a -> ~ In 35%N b -> ~ In 10%N a -> ~ In 10%N b -> (forall a', a <> a' ++ [13%N]) ->
  strip_comments ([34%N] ++ a ++ [10%N] ++ b ++ [34%N]) = [34%N] ++ a ++ [32%N] ++ b ++ [34%N].
Proof.
  intros a b H1 H2 H3 H4 H5.
  assert (H : has_lines (([34%N] ++ a) ++ [10%N] ++ b ++ [34%N]) [[34%N] ++ a; b ++ [34%N]]).
  { apply (hl_line _ [10%N]); auto.
    - cbn. intuition discriminate.
    - intros _ l' Q. destruct a as [|x a _] using rev_ind; [destruct l' as [|y [|z l']]; discriminate|]. rewrite app_assoc in Q. apply app_inj_tail in Q. destruct Q as [_ ->]. exact (H5 a eq_refl).
    - apply hl_last; [destruct b; discriminate|]. rewrite in_app_iff. cbn. intuition discriminate. }
  rewrite <- app_assoc in H. rewrite (strip_comments_spec _ _ [[34%N] ++ a; b ++ [34%N]] H); [cbn [spaced]; rewrite <- !app_assoc; reflexivity|].
  constructor; [right; split; [reflexivity|]; cbn; intuition discriminate|]. constructor; [|constructor]. right. split; [reflexivity|]. rewrite in_app_iff. cbn. intuition discriminate.
Qed.
Print Assumptions C42_newline_in_string_refuted.
Definition nl1 : str := [10%N].
Definition dq (s : str) : str := [34%N] ++ s ++ [34%N].
Example C42_example :
  strip_comments (s_ "x = " ++ dq (s_ "a#b") ++ s_ "; # set x" ++ nl1 ++ s_ "#" ++ nl1 ++ s_ "print x;") = s_ "x = " ++ dq (s_ "a#b") ++ s_ ";   print x;" /\
  commented (s_ "x = " ++ dq (s_ "a#b") ++ s_ "; # set x") (s_ "x = " ++ dq (s_ "a#b") ++ s_ "; ") /\
  strip_comments (s_ "print " ++ dq [92; 34; 35; 120]%N ++ s_ ";") = s_ "print " ++ [34; 92; 34]%N.
Proof.
  split; [reflexivity|split; [|reflexivity]]. unfold dq. cbn.
  repeat first [apply (cm_comment (s_ " set x")) | (apply cm_char; [discriminate|discriminate|]) | apply (cm_string (s_ "a#b"))]. repeat (apply lb_char; [discriminate|discriminate|]). constructor.
Qed.

(** ** C43 *)
Theorem C43_fixup_ends_with_semicolon : forall s, ends_with_semicolon (fixup_input s).
Proof. exact fixup_ends. Qed.
Print Assumptions C43_fixup_ends_with_semicolon.
Theorem C43_fixup_changes_nothing_else :
  forall s t, unfolded s t -> fixup_input s = t \/ ~ ends_with_semicolon t /\ fixup_input s = t ++ s_ ";".
Proof. intros s t H. destruct (fixup_spec _ _ H) as [H1 H2]. destruct (ends_dec t) as [D|D]; auto. Qed.
Print Assumptions C43_fixup_changes_nothing_else.
Theorem C43_complete_input_unchanged : forall s, ~ continued s -> ends_with_semicolon s -> fixup_input s = s.
Proof. intros s H1 H2. apply (fixup_spec _ _ (unfolded_id _ H1)). exact H2. Qed.
Print Assumptions C43_complete_input_unchanged.
Theorem C43_fixup_idempotent : forall s, fixup_input (fixup_input s) = fixup_input s.
Proof. exact fixup_idem. Qed.
Print Assumptions C43_fixup_idempotent.
Theorem C43_unfolding_exists : forall s, exists t, unfolded s t /\ ~ continued t.
Proof. intros s. exists (replace_continuation s). assert (H : unfolded s (replace_continuation s)) by (apply replace_unfolded; reflexivity). split; [exact H|eapply unfolded_done; exact H]. Qed.
Print Assumptions C43_unfolding_exists.
Example C43_example :
  fixup_input (s_ "print 1") = s_ "print 1;" /\ fixup_input (s_ "print 1 ;  ") = s_ "print 1 ;  " /\
  fixup_input (s_ "a " ++ [92; 10]%N ++ s_ "b") = s_ "a  b;" /\ unfolded (s_ "a " ++ [92; 10]%N ++ s_ "b") (s_ "a  b").
Proof. repeat split; try reflexivity. apply replace_unfolded. reflexivity. Qed.

(** ** C44.  The pieces: the editor asks for another line exactly when the text ends with a
    backslash, and the fix-up replaces each continuation by a blank.  Composed with the comment
    stripper they do not work (refuted below). *)
Theorem C44_continuation_pieces_partial :
  (forall l, needs_more l = true <-> exists l', l = l' ++ [92%N]) /\
  (forall a b, fixup_input (a ++ [92; 10]%N ++ b) = fixup_input (a ++ s_ " " ++ b)).
Proof. split; [exact needs_more_iff|exact fixup_continued]. Qed.
Print Assumptions C44_continuation_pieces_partial.
(** whenever the first line has no string literal and no comment, the continued command is rejected *)
Theorem C44_continuation_rejected_refuted :
  forall n E r a b, ~ In 34%N a -> ~ In 35%N a -> ~ In 10%N a ->
  rt_eval n E true r (clean (a ++ [92; 10]%N ++ b)) = (r, RErr EParse).
Proof.
  intros n E r a b H1 H2 H3. destruct (clean_continued a b H1 H2 H3) as (t & ->). unfold rt_eval. rewrite parse_backslash by exact H1. reflexivity.
Qed.
Print Assumptions C44_continuation_rejected_refuted.
Example C44_example : let a := s_ "print 1 +" in let b := s_ " 2" in
  needs_more (a ++ [92%N]) = true /\
  snd (rt_eval 100 (demo_env true) true (rt_new (demo_env true)) (clean (a ++ [92; 10]%N ++ b))) = RErr EParse /\
  snd (rt_eval 100 (demo_env true) true (rt_new (demo_env true)) (clean (a ++ s_ " " ++ b))) = ROk.
Proof. repeat split; vm_compute; reflexivity. Qed.

(** ** C45.  Missing: no error is reported (refuted below). *)
Definition blank_or_comment (line : str) : Prop :=
  exists w c, line = w ++ c /\ ws w /\ ~ In 10%N w /\ (c = [] \/ exists t, c = s_ "#" ++ t) /\ ~ In 10%N c.
Theorem C45_blank_line_changes_nothing_partial :
  forall n E r line, blank_or_comment line -> fst (rt_eval n E true r (clean line)) = r.
Proof.
  intros n E r line (w & c & -> & H1 & H2 & H3 & H4). destruct (clean_blank w c H1 H3 H2 H4) as [P1 P2]. unfold rt_eval. rewrite parse_semicolon by assumption. reflexivity.
Qed.
Print Assumptions C45_blank_line_changes_nothing_partial.
Theorem C45_blank_line_is_an_error_refuted :
  forall n E r line, blank_or_comment line -> snd (rt_eval n E true r (clean line)) = RErr EParse.
Proof.
  intros n E r line (w & c & -> & H1 & H2 & H3 & H4). destruct (clean_blank w c H1 H3 H2 H4) as [P1 P2]. unfold rt_eval. rewrite parse_semicolon by assumption. reflexivity.
Qed.
Print Assumptions C45_blank_line_is_an_error_refuted.
Example C45_example : blank_or_comment [] /\ blank_or_comment (s_ "  # hello") /\
  snd (rt_eval 9 (demo_env true) true (rt_new (demo_env true)) (clean (s_ "  # hello"))) = RErr EParse.
Proof.
  split; [|split; [|vm_compute; reflexivity]].
  - exists [], []. split; [reflexivity|]. split; [constructor|]. split; [exact (fun x => x)|]. split; [left; reflexivity|exact (fun x => x)].
  - exists (s_ "  "), (s_ "# hello"). split; [reflexivity|]. split; [repeat constructor|]. split; [cbn; intuition discriminate|]. split; [right; exists (s_ " hello"); reflexivity|cbn; intuition discriminate].
Qed.
