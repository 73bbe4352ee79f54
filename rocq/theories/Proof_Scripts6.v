(** C76: scripts/block_group_dist.btrd as a whole. *)
From Verif Require Import Base Ast Pom Parse Structs Definitions Value Variables Semantics Fs Eval Runtime Input Main Lib Spec_Vars Spec_Decode Spec_Search Spec_Hist Spec_Run Spec_Lang Spec_Exec Spec_Layout Spec_Still Spec_Scripts
  Proof_Vars Proof_Decode Proof_Decode2 Proof_Search Proof_Search2 Proof_Run Proof_Hist Proof_Lang Proof_Exec Proof_Layout Proof_Still Proof_Access Demo_Search Proof_Scripts Proof_Scripts2 Proof_Scripts3 Proof_Scripts4 Proof_Scripts5.
Import Spec_Search.
From Coq Require Import Sorted Lia.
Arguments s_ s%string_scope.

Local Transparent G.
Definition G1 (k : value) : scope value := base ++ [(s_ "k", k)].
Definition G2 (k b : value) : scope value := base ++ [(s_ "k", k); (s_ "bgs", b)].
Definition G3 (k b u : value) : scope value := base ++ [(s_ "k", k); (s_ "bgs", b); (s_ "blk_group_usage", u)].
Lemma base_get : vars_get (s_ "key") [base] = Some (VFun FKey) /\ vars_get (s_ "BTRFS_BLOCK_GROUP_ITEM_KEY") [base] = Some (VInt 192).
Proof. vm_compute. split; reflexivity. Qed.
Lemma ins_k k : vars_insert (s_ "k") k [base] = Some [G1 k].
Proof. vm_compute. reflexivity. Qed.
Lemma rep_k k k' : vars_replace (s_ "k") k' [G1 k] = Some [G1 k'].
Proof. vm_compute. reflexivity. Qed.
Lemma get_G1 k : (vars_get (s_ "k") [G1 k] = Some k /\ vars_get (s_ "search") [G1 k] = Some (VFun FSearch)) /\
  vars_get (s_ "BTRFS_BLOCK_GROUP_ITEM_KEY") [G1 k] = Some (VInt 192) /\ vars_get (s_ "BTRFS_EXTENT_TREE_OBJECTID") [G1 k] = Some (VInt 2).
Proof. vm_compute. repeat split. Qed.
Lemma g1k k : vars_get (s_ "k") [G1 k] = Some k. Proof. exact (proj1 (proj1 (get_G1 k))). Qed.
Lemma g1s k : vars_get (s_ "search") [G1 k] = Some (VFun FSearch). Proof. exact (proj2 (proj1 (get_G1 k))). Qed.
Lemma g1b k : vars_get (s_ "BTRFS_BLOCK_GROUP_ITEM_KEY") [G1 k] = Some (VInt 192). Proof. exact (proj1 (proj2 (get_G1 k))). Qed.
Lemma g1t k : vars_get (s_ "BTRFS_EXTENT_TREE_OBJECTID") [G1 k] = Some (VInt 2). Proof. exact (proj2 (proj2 (get_G1 k))). Qed.
Lemma ins_b k b : vars_insert (s_ "bgs") b [G1 k] = Some [G2 k b].
Proof. vm_compute. reflexivity. Qed.
Lemma hist_2 k b : vars_get (s_ "hist") [G2 k b] = Some (VFun FHist). Proof. vm_compute. reflexivity. Qed.
Lemma ins_u k b u : vars_insert (s_ "blk_group_usage") u [G2 k b] = Some [G3 k b u].
Proof. vm_compute. reflexivity. Qed.
Lemma hist_3 k b u : vars_get (s_ "hist") [G3 k b u] = Some (VFun FHist). Proof. vm_compute. reflexivity. Qed.
Lemma ins_f k b u f : vars_insert (s_ "extent_free_space") f [G3 k b u] = Some [G k b u f].
Proof. vm_compute. reflexivity. Qed.
Lemma vars_start : vars_new VInt VFun = [base].
Proof. vm_compute. reflexivity. Qed.
Lemma new_state E : e_vars (eval_new E) = [base] /\ w_out (e_w (eval_new E)) = [].
Proof. unfold eval_new. rewrite vars_start. destruct (getcwd E) as [cwd|]; [|split; reflexivity]. unfold fs_new. split; reflexivity. Qed.
Local Opaque G G1 G2 G3 base.

Lemma p_hist E f vs : vars_get (s_ "hist") vs = Some (VFun FHist) -> pure E f vs (call (s_ "hist") []) (Fr []).
Proof. intros H n w. unfold call. cbn [eval_expr]. unfold mbind, mret. rewrite H. reflexivity. Qed.

(** what is printed *)
Section Print.
Context (E : env) (i : bool) (Hs : forall n t, sink E n t = SkOk).
Definition shows_text (l : list stmt) (vs : vars value) (f : option fs) (txt : str) : Prop :=
  forall w, exists w', w_out w' = w_out w ++ txt /\ executes_list E i (mk_est vs f w) l (mk_est vs f w') Ended.
Lemma st_nil vs f : shows_text [] vs f [].
Proof. intros w. exists w. split; [symmetry; apply app_nil_r|apply xl_nil]. Qed.
Lemma st_print vs f e v txt l txt' : pure E f vs e v -> prints E v txt -> shows_text l vs f txt' -> shows_text (SPrint e :: l) vs f (txt ++ nl ++ txt').
Proof.
  intros He Hp Hl w. set (w1 := mk_world (w_log w ++ [EvWrite (txt ++ nl)]) (w_out w ++ txt ++ nl)).
  destruct (Hl w1) as (w' & Ho & Hx). exists w'. split.
  - rewrite Ho. unfold w1. cbn [w_out]. rewrite <- !app_assoc. reflexivity.
  - eapply xl_next; [|exact Hx]. pose proof (ex_print E i e (mk_est vs f w) w v txt (mk_est vs f w1) Ended) as H. apply H.
    + apply evals_value. split; [discriminate|]. exists 0. apply He.
    + exact Hp.
    + apply (wr_ok E (mk_est vs f w)). apply Hs.
Qed.
Lemma p_str f vs s : pure E f vs (EStr s) (VStr (utf8 s)). Proof. intros n w. reflexivity. Qed.
End Print.

Lemma hist_text E vals : (forall v, In v vals -> 0 <= v <= 2 ^ 125)%Z -> exists text, histogram vals text /\ prints E (Fr vals) text.
Proof.
  intros H. destruct vals as [|v vals].
  - exists []. split; [left; split; reflexivity|]. apply pr_hist with (k := 0). reflexivity.
  - destruct (as_hist_ok 400 (overflow_checks E) (v :: vals)) as (bs & a & z & text & Ha & Hb & Hr & Hd & _); [apply le_n|discriminate| |].
    + intros x Hx. specialize (H x Hx). assert (0 < 2 ^ 126)%Z by reflexivity. lia.
    + exists text. split; [right; exists bs, a, z; auto|]. eapply pr_hist. exact Ha.
Qed.

Lemma gaps_range es : (forall c, In c es -> (0 <= h_objectid (fst c) < 2 ^ 64)%Z /\ (0 <= h_offset (fst c) < 2 ^ 64)%Z) -> forall last, (0 <= last)%Z -> forall v, In v (gaps last es) -> (0 <= v <= 2 ^ 125)%Z.
Proof.
  induction es as [|c es IH]; intros H last Hl v Hv; [destruct Hv|]. destruct (H c (or_introl eq_refl)) as [Ho Hf]. cbn [gaps] in Hv. apply in_app_or in Hv. destruct Hv as [Hv|Hv].
  - destruct (last <? h_objectid (fst c))%Z eqn:E; [|destruct Hv]. destruct Hv as [<-|[]]. apply Z.ltb_lt in E. assert (2 ^ 64 < 2 ^ 125)%Z by reflexivity. lia.
  - eapply IH; [intros d Hd; apply H; right; exact Hd| |exact Hv]. lia.
Qed.

Section Whole.
Context (E : env) (i : bool) (fd : Z) (forest : Z -> list chunk) (HE : still E fd forest) (Hno : forall n k, ioctl E n fd k <> IoErr).
Context (HT : extent_tree (overflow_checks E) (forest 2)) (Hopen : forall n, open_path E n (s_ "/mnt/btrfs") = OpDir fd (Some BTRFS_FSTYPE)) (Hsink : forall n t, sink E n t = SkOk).
Notation f := (Some (FsMounted fd)).
Lemma percent_range c : In c (forest 2) -> is_data_group c = true -> (0 <= percent c <= 2 ^ 125)%Z.
Proof.
  intros Hin Hd. destruct HT as (_ & HI & HD). destruct (HI c Hin) as (Hc & (l & Hl) & _). destruct (HD c Hin Hd) as [Hlen _].
  assert (Hg : is_group c = true) by (unfold is_data_group in Hd; apply andb_prop in Hd; apply Hd).
  destruct (shown_cons _ c [] l Hc Hl) as [(_ & _ & Hn)|(nm & ms & l' & _ & _ & Hm)]; [congruence|]. destruct (Hm Hg) as (_ & _ & Hu).
  unfold percent. split; [apply Z.div_pos; lia|]. apply Z.div_le_upper_bound; [exact Hlen|]. assert (100 * 2 ^ 64 < 2 ^ 125)%Z by reflexivity. nia.
Qed.
Lemma bgd_runs : exists ut ft s', histogram (usage (forest 2)) ut /\ histogram (free_space (forest 2)) ft /\
  executes_list E i (eval_new E) bgd s' Ended /\
  w_out (e_w s') = s_ "block group usage:" ++ nl ++ s_ "------------------" ++ nl ++ ut ++ nl ++ nl ++
                   s_ "extent free space:" ++ nl ++ s_ "------------------" ++ nl ++ ft ++ nl.
Proof.
  pose proof HT as (HS & HI & HD).
  destruct (hist_text E (usage (forest 2))) as (ut & Hu & Pu).
  { intros v Hv. unfold usage in Hv. apply in_map_iff in Hv. destruct Hv as (c & <- & Hc). apply filter_In in Hc. apply percent_range; apply Hc. }
  destruct (hist_text E (free_space (forest 2))) as (ft & Hf & Pf).
  { intros v Hv. unfold free_space in Hv. apply in_flat_map in Hv. destruct Hv as (g & Hg & Hv). apply filter_In in Hg. destruct Hg as [Hg _].
    eapply gaps_range; [| |exact Hv].
    - intros c Hc. unfold extents_in in Hc. apply filter_In in Hc. destruct (HI c (proj1 Hc)) as ((_ & Ho & Hof & _) & _). split; [exact Ho|exact Hof].
    - destruct (HI g Hg) as ((_ & Ho & _) & _). apply u_bound in Ho. lia. }
  set (s0 := eval_new E). assert (Hv0 : e_vars s0 = [base]) by apply new_state.
  assert (Hw0 : w_out (e_w s0) = []) by apply new_state. clearbody s0. destruct s0 as [vs0 f0 w0']. cbn [e_vars] in Hv0. subst vs0. cbn [e_w] in Hw0.
  set (w1 := log_event w0' (EvOpen (s_ "/mnt/btrfs"))).
  assert (S1 : executes E i (mk_est [base] f0 w0') (SFilesystem (EStr (s_ "/mnt/btrfs"))) (mk_est [base] f w1) Ended).
  { pose proof (ex_filesystem E i (EStr (s_ "/mnt/btrfs")) (mk_est [base] f0 w0') w0' (utf8 (s_ "/mnt/btrfs")) w1 (FsMounted fd)) as H. apply H.
    - apply evals_value. split; [discriminate|]. exists 0. reflexivity.
    - change (escape true (utf8 (s_ "/mnt/btrfs"))) with (s_ "/mnt/btrfs"). unfold fs_new. fold w1. rewrite Hopen. cbn [ok_or bind]. rewrite Z.eqb_refl. reflexivity. }
  assert (S2 : executes E i (mk_est [base] f w1) (SAssign (V (s_ "k")) (call (s_ "key") [EInt 0; V (s_ "BTRFS_BLOCK_GROUP_ITEM_KEY"); EInt 0; EInt 0])) (mk_est [G1 (key_struct 0 192 0 0)] f w1) Ended).
  { eapply x_assign; [|apply ins_k]. apply p_key; [exact (proj1 base_get)|apply p_int|apply p_var; exact (proj2 base_get)|apply p_int|apply p_int]. }
  set (kv := key_value k1_fields).
  assert (S3 : executes E i (mk_est [G1 (key_struct 0 192 0 0)] f w1) (SAssign (F (s_ "k") (s_ "max_type")) (V (s_ "BTRFS_BLOCK_GROUP_ITEM_KEY"))) (mk_est [G1 kv] f w1) Ended).
  { eapply x_field with (v := VInt 192) (fs' := k1_fields); [|apply g1k|reflexivity|apply rep_k]. apply p_var. apply g1b. }
  destruct (search_value E fd forest HE Hno [G1 kv] w1 search_groups 2 kv k1_fields k1) as (w2 & l & K0 & Hout & Hl & Hev).
  { unfold search_groups, call. exists (EIdent (s_ "search")), (V (s_ "BTRFS_EXTENT_TREE_OBJECTID")), (V (s_ "k")), w1, w1. split; [reflexivity|]. split; [|split].
    - apply (p_var E f [G1 kv] (s_ "search")). apply g1s.
    - apply p_var. apply g1t.
    - apply p_var. apply g1k. }
  { exists None. reflexivity. }
  { exact k1_requested. }
  { right. left. discriminate. }
  { exact HS. }
  { intros d Hdin. apply (HI d Hdin). }
  change (sk_tree k1) with 2%Z in Hl.
  set (bv := VArr l false).
  assert (S4 : executes E i (mk_est [G1 kv] f w1) (SAssign (V (s_ "bgs")) search_groups) (mk_est [G2 kv bv] f w2) Ended).
  { apply (ex_set E i (s_ "bgs") search_groups (mk_est [G1 kv] f w1) w2 bv).
    - apply evals_value. split; [discriminate|]. exists K0. apply Hev. exact (le_n _).
    - eexists. split; [|reflexivity]. cbn [e_vars with_w]. apply ins_b. }
  assert (S5 : executes E i (mk_est [G2 kv bv] f w2) (SAssign (V (s_ "blk_group_usage")) (call (s_ "hist") [])) (mk_est [G3 kv bv (Fr [])] f w2) Ended).
  { eapply x_assign; [apply p_hist; apply hist_2|apply ins_u]. }
  assert (S6 : executes E i (mk_est [G3 kv bv (Fr [])] f w2) (SAssign (V (s_ "extent_free_space")) (call (s_ "hist") [])) (mk_est [G kv bv (Fr []) (Fr [])] f w2) Ended).
  { eapply x_assign; [apply p_hist; apply hist_3|apply ins_f]. }
  destruct (outer_loop E i fd forest HE Hno HT kv bv (filter (in_rangeb k1) (forest 2)) (fun c H => proj1 (proj1 (filter_In _ _ _) H)) l [] [] [] w2 Hl (inside_nil _)) as (m' & w3 & _ & Hout3 & Hx).
  rewrite k1_filter in Hx by (intros d Hdin; apply (HI d Hdin)). cbn [app] in Hx.
  assert (S7 : executes E i (mk_est [G kv bv (Fr []) (Fr [])] f w2) (SFor (V (s_ "bg")) (V (s_ "bgs")) outer_body) (mk_est [G kv bv (Fr (usage (forest 2))) (Fr (free_space (forest 2)))] f w3) Ended).
  { pose proof (ex_for E i (s_ "bg") (V (s_ "bgs")) outer_body (mk_est [G kv bv (Fr []) (Fr [])] f w2) w2 l false
       (mk_est [m'; G kv bv (Fr (usage (forest 2))) (Fr (free_space (forest 2)))] f w3) Ended) as Hfor.
    apply Hfor.
    - apply evals_value. split; [discriminate|]. exists 0. apply (p_var E f). cbn [enter e_vars]. rewrite get_nil. apply gG2.
    - exact Hx. }
  assert (P : shows_text E i report [G kv bv (Fr (usage (forest 2))) (Fr (free_space (forest 2)))] f
     (s_ "block group usage:" ++ nl ++ s_ "------------------" ++ nl ++ ut ++ nl ++ [] ++ nl ++ s_ "extent free space:" ++ nl ++ s_ "------------------" ++ nl ++ ft ++ nl ++ [])).
  { unfold report.
    apply st_print with (v := VStr (utf8 (s_ "block group usage:"))); [exact Hsink|apply p_str|exact (pr_str E (utf8 (s_ "block group usage:")))|].
    apply st_print with (v := VStr (utf8 (s_ "------------------"))); [exact Hsink|apply p_str|exact (pr_str E (utf8 (s_ "------------------")))|].
    apply st_print with (v := Fr (usage (forest 2))); [exact Hsink|apply p_var; apply gG3|exact Pu|].
    apply st_print with (v := VStr (utf8 [])); [exact Hsink|apply p_str|exact (pr_str E (utf8 []))|].
    apply st_print with (v := VStr (utf8 (s_ "extent free space:"))); [exact Hsink|apply p_str|exact (pr_str E (utf8 (s_ "extent free space:")))|].
    apply st_print with (v := VStr (utf8 (s_ "------------------"))); [exact Hsink|apply p_str|exact (pr_str E (utf8 (s_ "------------------")))|].
    apply st_print with (v := Fr (free_space (forest 2))); [exact Hsink|apply p_var; apply gG4|exact Pf|].
    apply st_nil. }
  destruct (P w3) as (w4 & Hout4 & Hp).
  exists ut, ft, (mk_est [G kv bv (Fr (usage (forest 2))) (Fr (free_space (forest 2)))] f w4). split; [exact Hu|]. split; [exact Hf|]. split.
  - unfold bgd. eapply xl_app; [unfold prelude; step; [exact S1|]; step; [exact S2|]; step; [exact S3|]; apply xl_nil|].
    step; [exact S4|]. eapply xl_app; [unfold middle; step; [exact S5|]; step; [exact S6|]; apply xl_nil|]. step; [exact S7|]. exact Hp.
  - cbn [e_w]. rewrite Hout4, Hout3, Hout. unfold w1. cbn [log_event w_out app]. rewrite Hw0. reflexivity.
Qed.
End Whole.
