(** C28, C29, C55, C58, C59: displayed text and the built-in functions. *)
From Verif Require Import Base Ast Structs Definitions Value Variables Fs Eval Runtime Lib Demo Spec_Run Spec_Grammar Spec_Decode Spec_Fs Spec_Safe Spec_Text Proof_Display Proof_HistSim.
From Coq Require Import Lia.
Arguments s_ s%string_scope.

(** ** C28 *)
(** displayed inside values and echoed (white space escaped), and printed directly (white
    space as it is): the text is what [shown] says, byte by byte *)
Theorem C28_string_text :
  forall s, bytes_ok s ->
  shown false s (display (VStr s)) /\ exists t, print_text 0 true (VStr s) = Ok t /\ shown true s t.
Proof. intros s [H _]. split; [apply (bytes_shown true); exact H|]. eexists. split; [reflexivity|]. apply (bytes_shown false). exact H. Qed.
Print Assumptions C28_string_text.
Theorem C28_string_text_is_printable :
  forall raw s t, shown raw s t -> Forall (fun c => printable c \/ raw = true /\ blank c) t.
Proof. exact shown_printable. Qed.
Print Assumptions C28_string_text_is_printable.
Theorem C28_string_text_is_lossless :
  forall raw s s' t, shown raw s t -> shown raw s' t -> s = s'.
Proof. intros raw s s' t. apply shown_inj. Qed.
Print Assumptions C28_string_text_is_lossless.
(** the same without the vocabulary of the specification *)
Theorem C28_different_strings_display_differently :
  forall s s', bytes_ok s -> bytes_ok s' ->
  (display (VStr s) = display (VStr s') -> s = s') /\
  (forall k oc, print_text k oc (VStr s) = print_text k oc (VStr s') -> s = s').
Proof.
  intros s s' [H _] [H' _]. split.
  - cbn [display]. intros E. apply (shown_inj false _ _ (escape true s)); [apply (bytes_shown true); exact H|]. rewrite E. apply (bytes_shown true). exact H'.
  - intros k oc E. cbn [print_text] in E. injection E as E. apply (shown_inj true _ _ (escape false s)); [apply (bytes_shown false); exact H|]. rewrite E. apply (bytes_shown false). exact H'.
Qed.
Print Assumptions C28_different_strings_display_differently.
Example C28_example :
  bytes_ok [97; 10; 34; 200; 0; 92; 110]%N /\ display (VStr [97; 10; 34; 200; 0; 92; 110]%N) = s_ "a\n\""\xc8\x00\\n" /\
  print_text 0 true (VStr [97; 10; 34; 200]%N) = Ok ([97; 10]%N ++ s_ "\""\xc8").
Proof. split; [split; [repeat constructor|reflexivity]|]. split; reflexivity. Qed.

(** ** C29.  Missing: quotes, backslashes and characters that are not ASCII (refuted below). *)
Theorem C29_print_is_verbatim_partial :
  forall E inter s e w p s' r, (forall n t, sink E n t = SkOk) ->
  evals E s e w (Ok (VStr p)) -> Forall (fun c => plain c \/ blank c) p ->
  runs E inter s (SPrint e) s' r ->
  r = IOk /\ w_out (e_w s') = w_out w ++ p ++ [10%N] /\ e_vars s' = e_vars s /\ e_fs s' = e_fs s.
Proof.
  intros E inter s e w p s' r Hk He Hp Hr. apply (runs_print_plain _ _ _ _ _ _ _ _ He) in Hr; [|discriminate]. destruct Hr as (t & Ht & Hw). cbn in Ht. injection Ht as <-.
  unfold do_write in Hw. rewrite Hk in Hw. injection Hw as <- <-. split; [reflexivity|]. cbn. rewrite (proj2 (escape_id_iff false p)); [auto|].
  eapply Forall_impl; [|exact Hp]. cbn. tauto.
Qed.
Print Assumptions C29_print_is_verbatim_partial.
(** one other character is enough for the output to be different *)
Theorem C29_other_characters_are_not_verbatim_refuted :
  forall E inter s e w p s' r, (forall n t, sink E n t = SkOk) ->
  evals E s e w (Ok (VStr p)) -> ~ Forall (fun c => plain c \/ blank c) p ->
  runs E inter s (SPrint e) s' r ->
  r = IOk /\ w_out (e_w s') <> w_out w ++ p ++ [10%N].
Proof.
  intros E inter s e w p s' r Hk He Hp Hr. apply (runs_print_plain _ _ _ _ _ _ _ _ He) in Hr; [|discriminate]. destruct Hr as (t & Ht & Hw). cbn in Ht. injection Ht as <-.
  unfold do_write in Hw. rewrite Hk in Hw. injection Hw as <- <-. split; [reflexivity|]. cbn. intros Q. apply Hp. apply app_inv_head, app_inv_tail in Q. apply escape_id_iff in Q.
  eapply Forall_impl; [|exact Q]. cbn. intros a [P|[_ P]]; [left|right]; exact P.
Qed.
Print Assumptions C29_other_characters_are_not_verbatim_refuted.
Example C29_example :
  demo_out (demo_run true false "print ""two  words\tand more"";") = s_ "two  words" ++ [9%N] ++ s_ "and more" ++ [10%N] /\
  demo_out (demo_run true false "print ""it's"";") = s_ "it\'s" ++ [10%N] /\
  Forall (fun c => plain c \/ blank c) (s_ "two  words" ++ [9%N] ++ s_ "and more") /\ ~ Forall (fun c => plain c \/ blank c) (s_ "it's").
Proof.
  split; [vm_compute; reflexivity|]. split; [vm_compute; reflexivity|]. split.
  - apply Forall_forall. intros c Hc. cbn in Hc. unfold plain, blank. cbn. decompose [or] Hc; subst; try lia.
  - intros H. rewrite Forall_forall in H. specialize (H 39%N ltac:(cbn; tauto)). unfold plain, blank in H. cbn in H. lia.
Qed.

(** ** C55 *)
Theorem C55_values_display_line_by_line :
  forall v, names_ok v ->
  (forall ls, shown_lines v ls -> display v = join ls) /\
  (* the lines are lines: none of them contains a line break *)
  (forall ls, shown_lines v ls -> Forall (fun l => ~ In 10%N l) ls).
Proof.
  intros v Hn. split; intros ls H; destruct (shown_lines_display v ls H Hn) as [H1 (_ & H2 & _)]; [exact H1|]. eapply Forall_impl; [|exact H2]. intros l [Q _]. exact Q.
Qed.
Print Assumptions C55_values_display_line_by_line.
(** every value made of byte strings has such lines *)
Theorem C55_every_value_has_lines :
  forall v, str_bytes v -> exists ls, shown_lines v ls.
Proof. exact shown_lines_total. Qed.
Print Assumptions C55_every_value_has_lines.
(** print writes them (strings and histograms have their own format: C29, C31) *)
Theorem C55_print_writes_the_lines :
  forall E inter s e w v ls s' r, (forall n t, sink E n t = SkOk) ->
  evals E s e w (Ok v) -> (forall p, v <> VStr p) -> (forall l, v <> VArr l true) -> names_ok v -> shown_lines v ls ->
  runs E inter s (SPrint e) s' r ->
  r = IOk /\ w_out (e_w s') = w_out w ++ join ls ++ [10%N] /\ e_vars s' = e_vars s.
Proof.
  intros E inter s e w v ls s' r Hk He N1 N2 Hn Hl Hr. apply (runs_print_plain _ _ _ _ _ _ _ _ He N2) in Hr. destruct Hr as (t & Ht & Hw).
  assert (t = join ls) as ->.
  { rewrite <- (proj1 (C55_values_display_line_by_line v Hn) ls Hl). destruct v as [|p| |l [|]| |]; try (elim (N1 _ eq_refl)); try (elim (N2 _ eq_refl)); cbn [print_text] in Ht; injection Ht as <-; reflexivity. }
  unfold do_write in Hw. rewrite Hk in Hw. injection Hw as <- <-. cbn. auto.
Qed.
Print Assumptions C55_print_writes_the_lines.
Definition nested : value :=
  VArr [VInt (-7); VStruct (s_ "btrfs_x") None [(s_ "name", VStr [65; 10]%N); (s_ "list", VArr [VBool true; VArr [] false] false)]] false.
Definition nested_lines : list str :=
  [s_ "["; s_ "    -7,"; s_ "    struct btrfs_x {"; s_ "        .name = A\n,"; s_ "        .list = [";
   s_ "            true,"; s_ "            ["; s_ "            ],"; s_ "        ],"; s_ "    },"; s_ "]"].
Example C55_example : names_ok nested /\ shown_lines nested nested_lines /\ display nested = join nested_lines.
Proof.
  assert (N : names_ok nested) by (cbn; intuition discriminate).
  assert (L : exists ls, shown_lines nested ls /\ ls = nested_lines).
  { assert (H7 : shown_lines (VInt (-7)) [s_ "-" ++ s_ "7"]) by (apply sl_neg; [lia|apply (num_snoc [] 0 55%N); [constructor|unfold decimal; lia]|discriminate]).
    assert (HS : shown_lines (VStr [65; 10]%N) [s_ "A\n"]).
    { apply sl_str. exists [[65]; [92; 110]]%N. split; [|reflexivity]. constructor; [apply sb_plain; unfold plain; lia|]. constructor; [apply sb_lf; reflexivity|constructor]. }
    eexists. split; [apply sl_arr; constructor; [exact H7|]; constructor; [|constructor]; apply sl_struct; constructor; [eexists; split; [exact HS|reflexivity]|]; constructor; [|constructor];
      eexists; split; [apply sl_arr; constructor; [apply sl_bool|]; constructor; [apply sl_arr; constructor|constructor]|reflexivity]|reflexivity]. }
  destruct L as (ls & L & ->). split; [exact N|]. split; [exact L|reflexivity].
Qed.

(** ** C58: an expression fe that evaluates to the built-in function, applied to a *)
Section Builtins.
Variables (K : nat) (E : env) (vs : vars value) (f : option fs) (fe a : expr) (w w1 w2 : world).
Theorem C58_typeof : forall v,
  eval_expr K E vs f fe w = (w1, Ok (VFun FTypeOf)) -> eval_expr K E vs f a w1 = (w2, Ok v) ->
  exists t, eval_expr K E vs f (ECall fe [a]) w = (w2, Ok (VStr t)) /\ type_name v t.
Proof. intros v Hf Ha. cbn [eval_expr]. unfold mbind, mret. rewrite Hf. cbn [as_function]. rewrite Ha. eexists. split; [reflexivity|]. destruct v; constructor. Qed.
Theorem C58_len : forall v,
  eval_expr K E vs f fe w = (w1, Ok (VFun FLen)) -> eval_expr K E vs f a w1 = (w2, Ok v) ->
  (forall l h, v = VArr l h -> (zlen l < 2 ^ 63)%Z -> eval_expr K E vs f (ECall fe [a]) w = (w2, Ok (VInt (zlen l)))) /\
  ((forall l h, v <> VArr l h) -> eval_expr K E vs f (ECall fe [a]) w = (w2, Err (expected "array" v))).
Proof.
  intros v Hf Ha. cbn [eval_expr]. unfold mbind, mret. rewrite Hf. cbn [as_function]. rewrite Ha. split.
  - intros l h -> Hl. cbn [as_vec]. unfold checked. rewrite (proj2 (in_i128_iff _)); [reflexivity|]. pose proof (zlen_nonneg l). clear -Hl H. change (2 ^ 63)%Z with 9223372036854775808%Z in Hl. assert (9223372036854775808 < 2 ^ 127)%Z by reflexivity. assert (0 < 2 ^ 127)%Z by reflexivity. unfold I128_MIN, I128_MAX. lia.
  - intros H. destruct v as [| | |l h| |]; try reflexivity. elim (H l h eq_refl).
Qed.
Theorem C58_str : forall v,
  eval_expr K E vs f fe w = (w1, Ok (VFun FStr)) -> eval_expr K E vs f a w1 = (w2, Ok v) ->
  (forall s, v = VStr s -> eval_expr K E vs f (ECall fe [a]) w = (w2, Ok (VStr s))) /\
  ((forall s, v <> VStr s) -> eval_expr K E vs f (ECall fe [a]) w = (w2, Ok (VStr (display v)))).
Proof.
  intros v Hf Ha. cbn [eval_expr]. unfold mbind, mret. rewrite Hf. cbn [as_function]. rewrite Ha. split; [intros s ->; reflexivity|].
  intros H. destruct v as [|s| | | |]; try reflexivity. elim (H s eq_refl).
Qed.
Theorem C58_hist :
  eval_expr K E vs f fe w = (w1, Ok (VFun FHist)) -> eval_expr K E vs f (ECall fe []) w = (w1, Ok (VArr [] true)).
Proof. intros Hf. cbn [eval_expr]. unfold mbind, mret. rewrite Hf. reflexivity. Qed.
(** any other number of arguments is an error (and no argument is evaluated) *)
Theorem C58_wrong_number_of_arguments : forall fn args,
  eval_expr K E vs f fe w = (w1, Ok (VFun fn)) ->
  match fn with FTypeOf | FLen | FStr | FKeyOf => length args <> 1 | FHist => length args <> 0 | FSearch => length args <> 2 | FKey => length args <> 4 end ->
  exists err, eval_expr K E vs f (ECall fe args) w = (w1, Err err).
Proof.
  intros fn args Hf Hl. exists (arity_error fn). cbn [eval_expr]. unfold mbind, mret. rewrite Hf.
  destruct fn; cbn [as_function]; destruct args as [|x1 [|x2 [|x3 [|x4 [|x5 args]]]]]; cbn in Hl; try lia; reflexivity.
Qed.
(** calling something that is not a function *)
Theorem C58_only_functions_can_be_called : forall v args,
  eval_expr K E vs f fe w = (w1, Ok v) -> (forall fn, v <> VFun fn) ->
  exists err, eval_expr K E vs f (ECall fe args) w = (w1, Err err).
Proof. intros v args Hf Hv. eexists. cbn [eval_expr]. unfold mbind at 1. rewrite Hf. destruct v as [| | | |fn|]; try reflexivity. elim (Hv fn eq_refl). Qed.
(** + appends one element; the array keeps its elements and its histogram mark *)
Theorem C58_append : forall l h v,
  eval_expr K E vs f fe w = (w1, Ok (VArr l h)) -> eval_expr K E vs f a w1 = (w2, Ok v) ->
  eval_expr K E vs f (EBin OPlus fe a) w = (w2, Ok (VArr (l ++ [v]) h)).
Proof. intros l h v Hl Ha. cbn [eval_expr]. unfold mbind, mret. rewrite Hl. rewrite Ha. destruct v; reflexivity. Qed.
End Builtins.
Print Assumptions C58_typeof. Print Assumptions C58_len. Print Assumptions C58_str. Print Assumptions C58_hist.
Print Assumptions C58_wrong_number_of_arguments. Print Assumptions C58_only_functions_can_be_called. Print Assumptions C58_append.
Example C58_example :
  demo_out (demo_run true false "a = hist() + 5; a = a + ""x""; print typeof(a); print len(a); print a[1]; print typeof(key(1,2,3,4)); print str(1+1) + str(""y""); print typeof(len); len(7);") =
  s_ "array
2
x
struct _btrfs_ioctl_search_key
2y
function
" /\ snd (demo_run true false "len(7);") = RErr (EExpected (s_ "array") (s_ "7")) /\ snd (demo_run true false "typeof();") = RErr (arity_error FTypeOf).
Proof. repeat split; vm_compute; reflexivity. Qed.

(** ** C59.  Missing: comparing values with == and != (refuted below). *)
Theorem C59_histograms_behave_as_arrays_partial :
  forall E inter n st s1 s2, same_state s1 s2 ->
  (forall e, ~ In (SPrint e) (substmts st)) -> (forall e, In e (exprs st) -> no_equality e) ->
  same_state (fst (eval_stmt n E inter s1 st)) (fst (eval_stmt n E inter s2 st)) /\
  snd (eval_stmt n E inter s1 st) = snd (eval_stmt n E inter s2 st).
Proof. intros E inter n st s1 s2 Hs H1 H2. apply eval_stmt_sim; [split; assumption|exact Hs]. Qed.
Print Assumptions C59_histograms_behave_as_arrays_partial.
Theorem C59_histograms_in_expressions_partial :
  forall K E vs1 vs2 f e w, same_store vs1 vs2 -> no_equality e ->
  fst (eval_expr K E vs1 f e w) = fst (eval_expr K E vs2 f e w) /\
  match snd (eval_expr K E vs1 f e w), snd (eval_expr K E vs2 f e w) with
  | Ok v1, Ok v2 => same_but_hist v1 v2
  | r1, r2 => r1 = r2
  end.
Proof.
  intros K E vs1 vs2 f e w Hs Hn. destruct (eval_expr_sim K E f _ _ e Hs Hn w) as [H1 H2]. split; [exact H1|].
  destruct (snd (eval_expr K E vs1 f e w)), (snd (eval_expr K E vs2 f e w)); cbn in H2; try contradiction; congruence.
Qed.
Print Assumptions C59_histograms_in_expressions_partial.
(** a histogram is never equal to a plain array, not even one with the same elements *)
Theorem C59_equality_sees_histograms_refuted :
  forall K E vs f a b w w1 w2 l h l' h',
  eval_expr K E vs f a w = (w1, Ok (VArr l h)) -> eval_expr K E vs f b w1 = (w2, Ok (VArr l' h')) -> h <> h' ->
  eval_expr K E vs f (EBin OEquals a b) w = (w2, Ok (VBool false)).
Proof.
  intros K E vs f a b w w1 w2 l h l' h' Ha Hb Hh. cbn [eval_expr]. unfold mbind, mret. rewrite Ha, Hb. do 3 f_equal. cbn [value_eqb]. destruct h, h'; try congruence; apply andb_false_r.
Qed.
Print Assumptions C59_equality_sees_histograms_refuted.
Definition two_stores (h : bool) : est := mk_est [[(s_ "a", VArr [VInt 3; VInt 4] h)]] None w0.
Definition hist_prog : stmt := SFor (EIdent (s_ "i")) (EIdent (s_ "a")) [SAssign (EIdent (s_ "a")) (EBin OPlus (EIdent (s_ "a")) (EIdent (s_ "i"))); SExpr (EIdent (s_ "a"))].
Example C59_example :
  same_state (two_stores true) (two_stores false) /\ (forall e, ~ In (SPrint e) (substmts hist_prog)) /\ (forall e, In e (exprs hist_prog) -> no_equality e) /\
  snd (eval_stmt 9 (demo_env true) true (two_stores true) hist_prog) = IOk /\
  vars_get (s_ "a") (e_vars (fst (eval_stmt 9 (demo_env true) true (two_stores true) hist_prog))) = Some (VArr [VInt 3; VInt 4; VInt 3; VInt 4] true).
Proof.
  split; [split; [repeat constructor|split; reflexivity]|]. split; [intros e H; cbn in H; intuition discriminate|]. split; [|split; reflexivity].
  intros e He op l r H. cbn in He. decompose [or] He; subst; try contradiction; cbn in H; decompose [or] H; try contradiction; try discriminate; match goal with Q : EBin _ _ _ = EBin _ _ _ |- _ => injection Q as <- <- <- end; split; discriminate.
Qed.
