(** C88: what is displayed determines the value, up to what is not shown. *)
From Verif Require Import Base Ast Parse Value Variables Fs Eval Runtime Lib Demo Spec_Run Spec_Safe Spec_Session Spec_Text Spec_Utf8 Spec_Output Spec_Looks
  Proof_Run Proof_Output Proof_Looks Properties_Safe Properties_Output.
Arguments s_ s%string_scope.

(** It is not true that different values are displayed differently: in a session, *)
Theorem C88_different_values_look_different_refuted :
  exists E h r e e' w w' v v', env_typed E /\ session E h r /\ Forall unicode h /\ Forall unicode (strings e ++ strings e') /\
    evals E (r_eval r) e w (Ok v) /\ evals E (r_eval r) e' w' (Ok v') /\ v <> v' /\ display v = display v'.
Proof.
  exists (demo_env true), [], (rt_new (demo_env true)), (EInt 5), (EStr (s_ "5")), w0, w0, (VInt 5), (VStr (s_ "5")).
  split; [apply demo_typed|].
  split; [constructor|]. split; [constructor|]. split; [repeat constructor; cbn; discriminate|].
  split; [split; [discriminate|exists 9; reflexivity]|]. split; [split; [discriminate|exists 9; reflexivity]|]. split; [discriminate|reflexivity].
Qed.
Print Assumptions C88_different_values_look_different_refuted.
(** but two values are displayed alike exactly if they [look_alike] (Spec_Looks.v): *)
Theorem C88_displayed_alike_partial :
  forall v v', textual v -> textual v' -> (display v = display v' <-> looks_alike v v').
Proof. intros v v' T T'. split; [apply display_alike; assumption|apply alike_display]. Qed.
Print Assumptions C88_displayed_alike_partial.
(** for all the values of expressions a session can compute, *)
Theorem C88_values_of_sessions_partial :
  forall E h r e e' w w' v v', env_typed E -> session E h r -> Forall unicode h -> Forall unicode (strings e) -> Forall unicode (strings e') ->
  evals E (r_eval r) e w (Ok v) -> evals E (r_eval r) e' w' (Ok v') ->
  (display v = display v' <-> looks_alike v v').
Proof.
  intros E h r e e' w w' v v' HE Hs Hh He He' V V'. apply C88_displayed_alike_partial.
  - exact (C71_values_are_textual E h r e w v HE Hs Hh He V).
  - exact (C71_values_are_textual E h r e' w' v' HE Hs Hh He' V').
Qed.
Print Assumptions C88_values_of_sessions_partial.
(** which is what an interactive session shows after an expression is entered. *)
Lemma echo_runs E s e w v s' : evals E s e w (Ok v) -> runs E true s (SExpr e) s' IOk -> w_out (e_w s') = w_out w ++ display v ++ nl.
Proof.
  intros He (_ & n & Hn). destruct n as [|n]; [cbn in Hn; congruence|]. cbn [eval_stmt] in Hn. unfold with_expr in Hn.
  destruct (eval_expr n E (e_vars s) (e_fs s) e (e_w s)) as [w1 r1] eqn:H1.
  destruct r1 as [v1|e1|p1|]; cbn in Hn; try discriminate Hn.
  assert (Q : evals E s e w1 (Ok v1)) by (split; [discriminate|exists n; exact H1]).
  destruct (evals_fun E s e _ _ _ _ He Q) as [-> Ev]. injection Ev as ->.
  unfold do_write in Hn. destruct (sink _ _ _); [|discriminate Hn]. injection Hn as <-. reflexivity.
Qed.
Theorem C88_echo_partial :
  forall E h r e e' w w' v v' s s' t t', env_typed E -> session E h r -> Forall unicode h -> Forall unicode (strings e) -> Forall unicode (strings e') ->
  evals E (r_eval r) e w (Ok v) -> evals E (r_eval r) e' w' (Ok v') ->
  runs E true (r_eval r) (SExpr e) s IOk -> w_out (e_w s) = w_out w ++ t ->
  runs E true (r_eval r) (SExpr e') s' IOk -> w_out (e_w s') = w_out w' ++ t' ->
  (t = t' <-> looks_alike v v').
Proof.
  intros E h r e e' w w' v v' s s' t t' HE Hs Hh He He' V V' R1 O1 R2 O2.
  rewrite (echo_runs _ _ _ _ _ _ V R1) in O1. rewrite (echo_runs _ _ _ _ _ _ V' R2) in O2. apply app_inv_head in O1, O2. subst t t'.
  rewrite <- (C88_values_of_sessions_partial E h r e e' w w' v v' HE Hs Hh He He' V V'). split; [apply app_inv_tail|congruence].
Qed.
Print Assumptions C88_echo_partial.
(** Values without strings, histograms and disk positions are equal if displayed alike. *)
Theorem C88_bare_values_partial :
  forall v v', textual v -> textual v' -> bare v -> bare v' -> display v = display v' -> v = v'.
Proof. intros v v' T T' B B' E. apply bare_equal; auto. apply display_alike; assumption. Qed.
Print Assumptions C88_bare_values_partial.

(** Strings that look like the lines of a nested array or of a field are no exception: *)
Definition tricky : value := VArr [VStr (s_ "["); VStr (s_ "]"); VStr (s_ ","); VStr (s_ "a,"); VArr [] false; VStr []] false.
Definition tricky' : value := VArr [VArr [] false; VStr (s_ "["); VStr (s_ "]"); VStr (s_ "a"); VStr (s_ ",")] false.
Example C88_example :
  textual tricky /\ textual tricky' /\ display tricky <> display tricky' /\
  display tricky = s_ "[
    [,
    ],
    ,,
    a,,
    [
    ],
    ,
]" /\
  looks_alike (VArr [VInt (-7); VStr (s_ "true"); VStruct (s_ "n") None [(s_ "f", VArr [] true)]] false)
    (VArr [VStr (s_ "-7"); VBool true; VStruct (s_ "n") (Some (1, 2, 3)%Z) [(s_ "f", VArr [] false)]] true) /\
  ~ looks_alike (VStr (s_ "[")) (VArr [] false).
Proof.
  split; [repeat constructor; reflexivity|]. split; [repeat constructor; reflexivity|]. split; [vm_compute; discriminate|]. split; [reflexivity|]. split.
  - constructor. constructor; [|constructor; [|constructor; [|constructor]]].
    + apply la_spelt; [discriminate|]. change [s_ "-7"] with [s_ "-" ++ s_ "7"]. apply sl_neg; [reflexivity| |discriminate].
      change (s_ "7") with ([] ++ [55%N]). change (- -7)%Z with (10 * 0 + (Z.of_N 55 - 48))%Z. repeat constructor; discriminate.
    + apply la_spells; [discriminate|]. change [s_ "true"] with [bool_text true]. constructor.
    + constructor. repeat constructor.
  - intros H. apply alike_display in H. discriminate H.
Qed.
(** Typed into a session: a number and a string show the same; a string printed (not echoed)
    can even look like an array, because [print] leaves line breaks in strings as they are. *)
Example C88_session_example :
  demo_out (demo_run true true "5; ""5""; ""[,"";") = s_ "5
5
[,
" /\
  demo_out (demo_run true true "print ""[\n]"";") = display (VArr [] false) ++ nl.
Proof. split; reflexivity. Qed.
