(** Proofs for C80. *)
From Verif Require Import Base Ast Pom Parse Structs Definitions Value Variables Semantics Fs Eval Runtime Lib Spec_Run Spec_Text Spec_Session Spec_Fs Spec_Failures
  Proof_Run Proof_Fs.
From Coq Require Import Lia.
Arguments s_ s%string_scope.

Lemma le_nonneg bs : (0 <= le bs)%Z.
Proof. induction bs; cbn [le]; lia. Qed.
Section Failures.
Context (E : env).
Lemma good_nil i : all_good E i [].
Proof. intros [|j] ev H; discriminate. Qed.
Lemma good_one i ev : good_answer E i ev -> all_good E i [ev].
Proof. intros H [|[|j]] ev' Q; try discriminate. injection Q as <-. rewrite Nat.add_0_r. exact H. Qed.
Lemma good_app i a b : all_good E i a -> all_good E (i + length a) b -> all_good E i (a ++ b).
Proof.
  intros HA HB j ev H. destruct (Nat.lt_ge_cases j (length a)) as [L|L].
  - rewrite nth_error_app1 in H by exact L. apply HA. exact H.
  - rewrite nth_error_app2 in H by exact L. apply HB in H. replace (i + length a + (j - length a)) with (i + j) in H by lia. exact H.
Qed.
Lemma good_last i a : all_good E i a -> all_good E i (removelast a).
Proof.
  intros H. destruct a as [|x a] using rev_ind; [exact H|]. rewrite removelast_last. intros j ev Q. apply H. rewrite nth_error_app1; [exact Q|]. apply nth_error_Some. congruence.
Qed.
Definition tame (ok : bool) (w w' : world) : Prop := exists l, w_log w' = w_log w ++ l /\ all_good E (tick w) (if ok then l else removelast l).
Lemma tame_refl ok w : tame ok w w.
Proof. exists []. rewrite app_nil_r. split; [reflexivity|]. destruct ok; apply good_nil. Qed.
Lemma tame_weak ok w w' : tame true w w' -> tame ok w w'.
Proof. intros (l & A & B). exists l. split; [exact A|]. destruct ok; [exact B|apply good_last; exact B]. Qed.
Lemma tame_trans ok a b c : tame true a b -> tame ok b c -> tame ok a c.
Proof.
  intros (l & A & B) (m & C & D). exists (l ++ m). rewrite C, A, app_assoc. split; [reflexivity|]. unfold tick in D. rewrite A, app_length in D.
  destruct ok; [apply good_app; assumption|]. destruct m as [|x m]; [rewrite app_nil_r; apply good_last; exact B|]. rewrite removelast_app by discriminate. apply good_app; assumption.
Qed.
Lemma tame_event ok w ev : (ok = true -> good_answer E (tick w) ev) -> tame ok w (log_event w ev).
Proof. intros H. exists [ev]. split; [reflexivity|]. destruct ok; [apply good_one; auto|apply good_nil]. Qed.

(** ** Expressions *)
Definition okr {A} (r : res A) : bool := match r with Ok _ => true | _ => false end.
Definition minds {A} (m : M A) : Prop := forall w w' r, m w = (w', r) -> tame (okr r) w w'.
Lemma minds_ret {A} (r : res A) : minds (mret r).
Proof. intros w w' r' H. injection H as <- <-. apply tame_refl. Qed.
Lemma minds_bind {A B} (m : M A) (g : A -> M B) : minds m -> (forall a, minds (g a)) -> minds (mbind m g).
Proof.
  intros Hm Hg w w' r H. unfold mbind in H. destruct (m w) as [w1 [a|e|p|]] eqn:H1; apply Hm in H1; try (injection H as <- <-; exact H1). eapply tame_trans; [exact H1|]. exact (Hg a _ _ _ H).
Qed.
Lemma extract_fits oc nr : forall buf off ret coll x, extract oc nr buf off ret coll = Ok x -> (off + 32 * Z.of_nat nr <= MAX_BUF_SIZE \/ nr = 0%nat)%Z.
Proof.
  induction nr as [|nr IH]; intros buf off ret coll x H; [right; reflexivity|left]. cbn [extract] in H.
  unfold ensure in H. destruct (32 + off <=? MAX_BUF_SIZE)%Z eqn:L1; [|discriminate]. cbn [bind] in H. unfold buf_slice at 1 in H. destruct ((0 <=? off) && (off + 32 <=? MAX_BUF_SIZE))%Z eqn:L2; [|discriminate].
  cbn [bind] in H. set (h := header_of (buf_read buf off 32)) in *. destruct (h_len h + (off + 32) <=? MAX_BUF_SIZE)%Z eqn:L3; [|discriminate]. cbn [bind] in H.
  unfold buf_slice in H. destruct ((0 <=? off + 32) && (off + 32 + h_len h <=? MAX_BUF_SIZE))%Z eqn:L4; [|discriminate]. cbn [bind] in H.
  assert (L : (0 <= h_len h)%Z) by (unfold h, header_of; cbn [h_len]; apply le_nonneg).
  apply Z.leb_le in L1. match type of H with (if ?c then _ else _) = _ => destruct c end.
  - destruct (i32_incr oc coll) as [c'| | |]; try discriminate. cbn [bind] in H. apply IH in H. lia.
  - apply IH in H. lia.
Qed.
Lemma minds_search fd retry K : forall key ret coll, minds (search_loop K E fd retry key ret coll).
Proof.
  induction K as [|K IH]; intros key ret coll w w' r H; cbn [search_loop] in H; [injection H as <- <-; apply tame_refl|].
  assert (B : tame false w (log_event w (EvIoctl fd key))) by (apply tame_event; discriminate).
  assert (G : forall nr buf, (ioctl E (tick w) fd key = IoOk nr buf \/ ioctl E (tick w) fd key = IoOverflow nr buf) -> match extract (overflow_checks E) (Z.to_nat nr) buf 0 ret coll with
      | Ok (ret', coll') =>
        if negb retry || (nr =? 0)%Z then (log_event w (EvIoctl fd key), let* _ := ensure (coll' =? 0)%Z (ECollisions coll') in Ok ret')
        else match largest ret' with
          | None => (log_event w (EvIoctl fd key), Panic PUnwrap)
          | Some m => match try_into_u 8 (h_type m) with
            | Ok t => if (h_offset m + 1 <? 2 ^ 64)%Z then
                search_loop K E fd retry (mk_skey (sk_tree key) (h_objectid m) (sk_max_objectid key) t (sk_max_type key) (h_offset m + 1) (sk_max_offset key) (sk_min_transid key) (sk_max_transid key))
                  ret' coll' (log_event w (EvIoctl fd key))
              else (log_event w (EvIoctl fd key), Err EKeyOverflow)
            | Err e => (log_event w (EvIoctl fd key), Err e)
            | Panic p => (log_event w (EvIoctl fd key), Panic p)
            | Fuel => (log_event w (EvIoctl fd key), Fuel)
            end
          end
      | Err e => (log_event w (EvIoctl fd key), Err e)
      | Panic p => (log_event w (EvIoctl fd key), Panic p)
      | Fuel => (log_event w (EvIoctl fd key), Fuel) end = (w', r) -> tame (okr r) w w').
  { clear H. intros nr buf Ha H. destruct (extract _ _ buf 0 ret coll) as [[ret' coll']| | |] eqn:He; try (injection H as <- <-; exact B).
    assert (T : tame true w (log_event w (EvIoctl fd key))).
    { apply tame_event. intros _. exists nr, buf. split; [exact Ha|]. apply extract_fits in He. unfold MAX_BUF_SIZE in He. destruct He; lia. }
    destruct (negb retry || (nr =? 0)%Z); [injection H as <- <-; apply tame_weak; exact T|]. destruct (largest ret') as [m|]; [|injection H as <- <-; exact B].
    destruct (try_into_u 8 (h_type m)); try (injection H as <- <-; exact B). destruct (h_offset m + 1 <? 2 ^ 64)%Z; [|injection H as <- <-; exact B].
    eapply tame_trans; [exact T|]. exact (IH _ _ _ _ _ _ H). }
  destruct (ioctl E (tick w) fd key) as [nr buf|nr buf|]; [exact (G nr buf (or_introl eq_refl) H)|exact (G nr buf (or_intror eq_refl) H)|injection H as <- <-; exact B].
Qed.
Lemma minds_decode oc cs : minds (decode_chunks oc cs).
Proof.
  induction cs as [|[h b] cs IH]; intros w w' r H; cbn [decode_chunks] in H; [injection H as <- <-; apply tame_refl|]. destruct (find _ STRUCTS) as [s|].
  - revert w w' r H. change (minds (do v <- mret (from_bytes oc s (Some (h_objectid h, h_type h, h_offset h)) b) ;; do vs <- decode_chunks oc cs ;; mret (Ok (v :: vs)))).
    apply minds_bind; [apply minds_ret|intros v]. apply minds_bind; [exact IH|intros vs; apply minds_ret].
  - eapply tame_trans; [|exact (IH _ _ _ H)]. apply tame_event. intros _. exact I.
Qed.
Lemma minds_eval_search K f tree key : minds (eval_search K E f tree key).
Proof.
  unfold eval_search. apply minds_bind; [apply minds_ret|intros [[n ky] fl]]. apply minds_bind; [apply minds_ret|intros _]. destruct f as [f|]; [|apply minds_ret].
  apply minds_bind; [apply minds_ret|intros sk]. apply minds_bind; [|intros cs; apply minds_bind; [apply minds_decode|intros vs; apply minds_ret]].
  unfold fs_search. destruct f; [apply minds_search|apply minds_ret].
Qed.
Lemma minds_expr K vs f : forall e, minds (eval_expr K E vs f e).
Proof.
  fix IH 1. intros e. destruct e as [x|z|b|s|e|e fld|e i|fe args|op l r|op e|t e]; cbn [eval_expr]; try apply minds_ret.
  - apply IH.
  - apply minds_bind; [apply IH|intros v]. apply minds_bind; [apply minds_ret|intros [[nm ky] fl]]. destruct fld; apply minds_ret.
  - repeat (first [apply minds_ret|apply minds_bind; [first [apply IH|apply minds_ret]|intros ?]]).
  - apply minds_bind; [apply IH|intros fv]. apply minds_bind; [apply minds_ret|intros fn].
    destruct fn; repeat match goal with |- minds match ?l with [] => _ | _ => _ end => destruct l end; try apply minds_ret;
    repeat (first [apply minds_ret|apply minds_eval_search|apply minds_bind; [first [apply IH|apply minds_ret]|intros ?]]).
    destruct a0 as [[nm ky] fl]. destruct ky as [[[? ?] ?]|]; apply minds_ret.
  - destruct op; repeat (first [apply minds_ret|apply minds_bind; [first [apply IH|apply minds_ret]|intros ?]]);
    match goal with |- context [if ?x then _ else _] => destruct x end;
    repeat (first [apply minds_ret|apply minds_bind; [first [apply IH|apply minds_ret]|intros ?]]).
  - apply minds_bind; [apply IH|intros v; apply minds_ret].
  - apply minds_bind; [apply IH|intros v]. apply minds_bind; [apply minds_ret|intros z]. destruct (z <? 0)%Z; apply minds_ret.
Qed.
Lemma minds_lhs K vs f e : forall g, minds (lhs_assign K E vs f e g).
Proof.
  induction e; intros g; cbn [lhs_assign]; try apply minds_ret.
  - destruct e2; try apply minds_ret. apply IHe1.
  - apply minds_bind; [apply minds_expr|intros v]. apply minds_bind; [apply minds_ret|intros z]. apply IHe1.
Qed.
Lemma minds_open p : minds (fs_new E p).
Proof.
  intros w w' r H. unfold fs_new in H. injection H as <- <-. apply tame_event. intros Hr.
  destruct (open_path E (tick w) p) as [fd [t|]|[img|]|] eqn:Ho; cbn [ok_or bind okr] in Hr; try discriminate.
  - unfold ensure in Hr. destruct (t =? BTRFS_FSTYPE)%Z eqn:Ht; [|discriminate]. apply Z.eqb_eq in Ht. subst t. exists (FsMounted fd). rewrite Ho. left. exists fd. split; reflexivity.
  - unfold ensure in Hr. destruct (has_superblock_magic img) eqn:Hm; [|discriminate]. exists (FsImage img). rewrite Ho. right. exists img. split; [reflexivity|]. split; [apply magic_iff; exact Hm|reflexivity].
Qed.

(** ** Statements *)
Definition okq (r : ires) : bool := match r with IOk | IQuit | IBreak | IContinue => true | _ => false end.
Definition sminds (b : est -> est * ires) : Prop := forall s s' r, b s = (s', r) -> tame (okq r) (e_w s) (e_w s').
Definition evminds (ev : est -> stmt -> est * ires) : Prop := forall st, sminds (fun s => ev s st).
Lemma sm_end r : sminds (fun s => (s, r)).
Proof. intros s s' r' H. injection H as <- <-. apply tame_refl. Qed.
Lemma sm_expr k e c : (forall v, sminds (fun s => c s v)) -> sminds (fun s => with_expr k E s e c).
Proof.
  intros Hc s s' r H. unfold with_expr in H. destruct (eval_expr k E (e_vars s) (e_fs s) e (e_w s)) as [w [v|x|p|]] eqn:He; apply minds_expr in He; try (injection H as <- <-; exact He).
  eapply tame_trans; [exact He|]. exact (Hc v (with_w s w) s' r H).
Qed.
Lemma sm_list ev l : evminds ev -> sminds (fun s => run_list ev s l).
Proof.
  intros He. induction l as [|st l IH]; intros s s' r H; cbn [run_list] in H; [injection H as <- <-; apply tame_refl|]. destruct (ev s st) as [s1 q] eqn:H1. apply (He st) in H1.
  destruct q; try (injection H as <- <-; exact H1). eapply tame_trans; [exact H1|exact (IH _ _ _ H)].
Qed.
Lemma sm_while ev ke k c b : evminds ev -> sminds (while_loop ev ke E k c b).
Proof.
  intros He. induction k as [|k IH]; intros s s' r H; cbn [while_loop] in H; [injection H as <- <-; apply tame_refl|]. revert s s' r H. apply (sm_expr ke c). intros v s s' r H.
  destruct (as_boolean v) as [[|]|e|p|]; try (injection H as <- <-; apply tame_refl). destruct (run_list ev s b) as [s2 q] eqn:H2. apply (sm_list ev b He) in H2.
  destruct q; try (injection H as <- <-; exact H2); (eapply tame_trans; [exact H2|exact (IH _ _ _ H)]).
Qed.
Lemma sm_insert x v : sminds (est_insert x v).
Proof. intros s s' r. unfold est_insert. destruct (vars_insert x v (e_vars s)); intros H; injection H as <- <-; apply tame_refl. Qed.
Lemma sm_for ev x b items : evminds ev -> sminds (for_loop ev x b items).
Proof.
  intros He. induction items as [|v items IH]; intros s s' r H; cbn [for_loop] in H; [injection H as <- <-; apply tame_refl|].
  destruct (est_insert x v s) as [s1 q1] eqn:H1. apply sm_insert in H1. destruct q1; try (injection H as <- <-; exact H1).
  destruct (run_list ev s1 b) as [s2 q] eqn:H2. apply (sm_list ev b He) in H2. assert (T : tame (okq q) (e_w s) (e_w s2)) by (eapply tame_trans; [exact H1|exact H2]).
  destruct q; try (injection H as <- <-; exact T); (eapply tame_trans; [exact T|exact (IH _ _ _ H)]).
Qed.
Lemma sm_scope b : sminds b -> sminds (fun s => in_scope s b).
Proof.
  intros Hb s s' r H. unfold in_scope in H. destruct (b (with_vars s (push_scope (e_vars s)))) as [s1 q] eqn:H1. apply Hb in H1. cbn [with_vars e_w] in H1.
  destruct (pop_scope (e_vars s1)); injection H as <- <-; [exact H1|]. destruct q; first [exact H1|apply (tame_weak false); exact H1].
Qed.
Lemma sm_write t : sminds (fun s => do_write E s t).
Proof.
  intros s s' r H. unfold do_write in H. destruct (sink E (tick (e_w s)) t) as [|k] eqn:Hs; injection H as <- <-.
  - exists [EvWrite t]. split; [reflexivity|]. apply good_one. exact Hs.
  - exists [EvWrite t]. split; [reflexivity|]. apply good_nil.
Qed.
Lemma sm_stmt inter n : evminds (eval_stmt n E inter).
Proof.
  induction n as [|n IH]; intros st; cbn [eval_stmt]; [apply sm_end|]. destruct st as [lhs rhs|c tb fb|c b|i re b| | | | |e|e|e].
  - apply sm_expr. intros v.
    assert (X : sminds (fun u => let '(w, r) := lhs_assign n E (e_vars u) (e_fs u) lhs (fun _ => Ok v) (e_w u) in match r with Ok vs => (mk_est vs (e_fs u) w, IOk) | _ => (with_w u w, ires_of r) end)).
    { intros u s' r H. destruct (lhs_assign n E (e_vars u) (e_fs u) lhs (fun _ => Ok v) (e_w u)) as [w [a|e|p|]] eqn:Hl; apply minds_lhs in Hl; injection H as <- <-; exact Hl. }
    destruct lhs; try exact X. apply sm_insert.
  - apply sm_scope, sm_expr. intros v. destruct (as_boolean v) as [t|x|p|]; try apply sm_end. apply sm_list. exact IH.
  - apply sm_scope, sm_while. exact IH.
  - apply sm_scope. destruct i; try apply sm_end. apply sm_expr. intros v. destruct (as_vec v) as [items|y|p|]; try apply sm_end. apply sm_for. exact IH.
  - apply sm_end.
  - apply sm_end.
  - apply sm_write.
  - apply sm_end.
  - apply sm_expr. intros v. destruct (as_string true v) as [p|x|p|]; try apply sm_end. intros u s' r H.
    destruct (fs_new E p (e_w u)) as [w [f|x|q|]] eqn:Hf; apply minds_open in Hf; injection H as <- <-; exact Hf.
  - apply sm_expr. intros v. destruct (print_text n (overflow_checks E) v) as [t|x|p|]; try apply sm_end. apply sm_write.
  - apply sm_expr. intros v. destruct inter; [apply sm_write|apply sm_end].
Qed.
Definition oke (q : eres) : bool := match q with ROk | RQuit => true | _ => false end.
Lemma rt_eval_minds n inter r cmd r' q : rt_eval n E inter r cmd = (r', q) -> tame (oke q) (e_w (r_eval r)) (e_w (r_eval r')).
Proof.
  intros H. unfold rt_eval in H. destruct (parse cmd) as [l|e|p|]; try (injection H as <- <-; apply tame_refl).
  destruct (analyze (r_sem r) l) as [sem' [[]|e|p|]]; try (injection H as <- <-; apply tame_refl). unfold eval_prog in H.
  destruct (run_list (eval_stmt n E inter) (r_eval r) l) as [s' q'] eqn:Hr. apply (sm_list _ l (sm_stmt inter n)) in Hr. injection H as <- <-. cbn [r_eval]. destruct q'; first [exact Hr|apply (tame_weak false); exact Hr].
Qed.
End Failures.
