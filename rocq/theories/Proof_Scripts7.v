(** C76: scripts/example.btrd. *)
From Verif Require Import Base Ast Pom Parse Structs Definitions Value Variables Semantics Fs Eval Runtime Input Main Lib Spec_Vars Spec_Decode Spec_Search Spec_Hist Spec_Run Spec_Lang Spec_Exec Spec_Layout Spec_Still Spec_Scripts
  Proof_Vars Proof_Decode Proof_Decode2 Proof_Search Proof_Search2 Proof_Run Proof_Hist Proof_Lang Proof_Exec Proof_Layout Proof_Still Proof_Access Demo_Search Proof_Scripts Proof_Scripts2 Proof_Scripts3 Proof_Scripts4 Proof_Scripts5 Proof_Scripts6.
Import Spec_Search.
From Coq Require Import Sorted Lia.
Arguments s_ s%string_scope.

Lemma chunk_dec (a b : chunk) : {a = b} + {a <> b}.
Proof. destruct a as [[a1 a2 a3 a4 a5] p], b as [[b1 b2 b3 b4 b5] q]. destruct (list_eq_dec N.eq_dec p q) as [->|]; [|right; congruence].
  destruct (Z.eq_dec a1 b1) as [->|]; [|right; congruence]. destruct (Z.eq_dec a2 b2) as [->|]; [|right; congruence]. destruct (Z.eq_dec a3 b3) as [->|]; [|right; congruence].
  destruct (Z.eq_dec a4 b4) as [->|]; [|right; congruence]. destruct (Z.eq_dec a5 b5) as [->|]; [|right; congruence]. left. reflexivity.
Qed.

(** one answer on a still filesystem: the beginning of the selection *)
Lemma answer_prefix tree n k items : StronglySorted klt (map key_of tree) -> answer_ok (fun _ _ st => st = tree) n k items ->
  exists rest, filter (in_rangeb k) tree = items ++ rest /\ (rest <> [] -> items <> []).
Proof.
  intros HS (S1 & S2 & _ & S3). set (sel := filter (in_rangeb k) tree).
  exists (filter (fun c => if in_dec chunk_dec c items then false else true) sel). split.
  - assert (Hsel : forall c, In c sel <-> In c tree /\ in_range k c) by (intros c; unfold sel; rewrite filter_In, in_rangeb_spec; reflexivity).
    assert (Ssel : StronglySorted klt (map key_of sel)) by (apply sorted_map_filter; exact HS).
    assert (Hit : forall c, In c items -> In c sel). { intros c Hc. destruct (S2 c Hc) as (_ & Hr & st & -> & Hin). apply Hsel. auto. }
    apply sorted_ext; [exact Ssel| |].
    + rewrite map_app. apply sorted_app; [exact S1|apply sorted_map_filter; exact Ssel|]. intros x y Hx Hy. apply in_map_iff in Hx, Hy. destruct Hx as (cx & <- & Hx), Hy as (cy & <- & Hy).
      apply filter_In in Hy. destruct Hy as [Hy Hn]. destruct (in_dec chunk_dec cy items) as [|Hno]; [discriminate|]. apply Hsel in Hy. destruct Hy as [Hy Hr].
      destruct (S3 cy Hr) as [|[_ Hlt]]; [intros st ->; exact Hy|contradiction|]. apply Hlt. exact Hx.
    + intros c. rewrite in_app_iff, filter_In. split.
      * intros Hc. destruct (in_dec chunk_dec c items) as [Hi|Hi]; [left; exact Hi|right; auto].
      * intros [Hc|[Hc _]]; [apply Hit; exact Hc|exact Hc].
  - intros Hne. destruct (filter _ sel) as [|c r] eqn:Ef; [congruence|]. assert (Hc : In c (filter (fun c => if in_dec chunk_dec c items then false else true) sel)) by (rewrite Ef; left; reflexivity).
    apply filter_In in Hc. destruct Hc as [Hc Hn]. destruct (in_dec chunk_dec c items) as [|Hno]; [discriminate|]. unfold sel in Hc. apply filter_In in Hc. destruct Hc as [Hc Hr]. apply in_rangeb_spec in Hr.
    destruct (S3 c Hr) as [|[Hi _]]; [intros st ->; exact Hc|contradiction|exact Hi].
Qed.

Section First.
Context (E : env) (fd : Z) (forest : Z -> list chunk) (HE : still E fd forest) (Hno : forall n k, ioctl E n fd k <> IoErr).
Lemma first_answer_value vs w e tree key flds k :
  calls_search 0 E vs (Some (FsMounted fd)) e w tree key w -> is_search_key key flds -> requested tree flds k -> ~ bounded k ->
  StronglySorted klt (map key_of (forest (sk_tree k))) ->
  (forall c, In c (forest (sk_tree k)) -> exists l, shown (overflow_checks E) [c] l) ->
  exists w' l items rest, w_out w' = w_out w /\ filter (in_rangeb k) (forest (sk_tree k)) = items ++ rest /\ (rest <> [] -> items <> []) /\
    shown (overflow_checks E) items l /\ eval_expr 1 E vs (Some (FsMounted fd)) e w = (w', Ok (VArr l false)).
Proof.
  intros Hc Hk Hr Hb HS HI.
  assert (Hreq : request_ok k) by (unfold requested in Hr; tauto).
  destruct (fs_search 1 E (FsMounted fd) k w) as [w1 r1] eqn:Hf.
  assert (Hok : exists items, r1 = Ok items).
  { unfold fs_search in Hf.
    assert (Hz : negb (sk_max_objectid k =? U64_MAX)%Z || negb (sk_max_type k =? U8_MAX)%Z || negb (sk_max_offset k =? U64_MAX)%Z || negb (sk_max_transid k =? U64_MAX)%Z = false).
    { apply not_true_is_false. intros Ht. apply Hb. unfold bounded, U64_MAX, U8_MAX in *. rewrite !orb_true_iff, !negb_true_iff, !Z.eqb_neq in Ht. tauto. }
    rewrite Hz in Hf. cbn [search_loop] in Hf. destruct (HE (tick w) k) as [He|(its & He & Hans)]; [elim (Hno _ _ He)|]. rewrite He in Hf.
    pose proof Hans as (Hs & Hin & Hsz & _).
    assert (Hok : Forall item_ok its) by (apply Forall_forall; intros c Hci; apply (Hin c Hci)).
    pose proof (extract_ok (overflow_checks E) its [] [] [] 0%Z Hok (sorted_nodup_headers _ Hs) Hsz) as Hx.
    cbn [app length Z.of_nat] in Hx. rewrite app_nil_r in Hx. unfold zlen in Hf. rewrite Nat2Z.id in Hf. change chunk with (header * str)%type in *. rewrite Hx in Hf. cbn [negb orb] in Hf.
    cbn [ensure bind Z.eqb] in Hf. injection Hf as _ <-. eexists. reflexivity. }
  destruct Hok as [items ->].
  destruct (unbounded_search 1 E fd _ k w w1 items HE Hreq Hb Hf) as (_ & Hans & _).
  destruct (answer_prefix (forest (sk_tree k)) (tick w) k items HS Hans) as (rest & Hsel & Hne).
  assert (Hsub : forall c, In c items -> In c (forest (sk_tree k))).
  { intros c Hi. assert (Hc' : In c (filter (in_rangeb k) (forest (sk_tree k)))) by (rewrite Hsel; apply in_or_app; left; exact Hi). apply filter_In in Hc'. tauto. }
  destruct (shown_all (overflow_checks E) items) as [l Hl]; [intros c Hin; apply HI, Hsub, Hin|].
  pose proof (shown_decode_chunks _ _ _ Hl w1) as Hd. destruct (decode_chunks (overflow_checks E) items w1) as [w3 r3] eqn:Hd3. cbn [snd] in Hd. subst r3.
  assert (Hc' : calls_search 1 E vs (Some (FsMounted fd)) e w tree key w).
  { destruct Hc as (fe & a & b & wf & wa & -> & Hf' & Ha & Hb'). exists fe, a, b, wf, wa. split; [reflexivity|].
    repeat split; (eapply eval_expr_mono; [apply Nat.le_succ_diag_r|eassumption|discriminate]). }
  assert (Hev : eval_expr 1 E vs (Some (FsMounted fd)) e w = (w3, Ok (VArr l false))).
  { rewrite (calls_search_eq _ _ _ _ _ _ _ _ _ Hc'), (eval_search_ok _ _ _ _ _ flds k) by assumption.
    unfold mbind at 1. rewrite Hf. unfold mbind, mret. rewrite Hd3. reflexivity. }
  exists w3, l, items, rest. split; [|auto]. destruct (eval_asking 1 E vs _ e w w3 _ Hev) as [Hout _]. exact Hout.
Qed.
End First.

(** ** The program *)
Definition ex_body : list stmt :=
  [SIf (EBin OEquals (V (s_ "i")) (EInt 3)) [SBreak] [];
   SPrint (EIndex (V (s_ "res")) (V (s_ "i")));
   SAssign (V (s_ "i")) (EBin OPlus (V (s_ "i")) (EInt 1))].
Definition search_roots : expr := call (s_ "search") [V (s_ "BTRFS_ROOT_TREE_OBJECTID"); V (s_ "k")].
Definition exs : list stmt :=
  [SFilesystem (EStr (s_ "/mnt/btrfs"));
   SAssign (V (s_ "k")) (call (s_ "key") [V (s_ "BTRFS_DEV_TREE_OBJECTID"); V (s_ "BTRFS_ROOT_ITEM_KEY"); EInt 0; EInt 0]);
   SAssign (V (s_ "res")) search_roots;
   SAssign (V (s_ "i")) (EInt 0);
   SFor (V (s_ "v")) (V (s_ "res")) ex_body].
Lemma parse_exs : parse (strip_comments example_script) = Ok exs.
Proof. vm_compute. reflexivity. Qed.
Lemma analyze_exs : exists sem, analyze sem_new exs = (sem, Ok tt).
Proof. eexists. vm_compute. reflexivity. Qed.

Local Transparent base G1.
Definition X2 (k r : value) : scope value := base ++ [(s_ "k", k); (s_ "res", r)].
Definition X3 (k r i : value) : scope value := base ++ [(s_ "k", k); (s_ "res", r); (s_ "i", i)].
Lemma xbase1 : vars_get (s_ "BTRFS_DEV_TREE_OBJECTID") [base] = Some (VInt 4). Proof. vm_compute. reflexivity. Qed.
Lemma xbase2 : vars_get (s_ "BTRFS_ROOT_ITEM_KEY") [base] = Some (VInt 132). Proof. vm_compute. reflexivity. Qed.
Lemma xg1t k : vars_get (s_ "BTRFS_ROOT_TREE_OBJECTID") [G1 k] = Some (VInt 1). Proof. vm_compute. reflexivity. Qed.
Lemma xins_r k r : vars_insert (s_ "res") r [G1 k] = Some [X2 k r]. Proof. vm_compute. reflexivity. Qed.
Lemma xins_i k r i : vars_insert (s_ "i") i [X2 k r] = Some [X3 k r i]. Proof. vm_compute. reflexivity. Qed.
Lemma xget_r k r i : vars_get (s_ "res") [X3 k r i] = Some r. Proof. vm_compute. reflexivity. Qed.
Lemma xget_i k r i : vars_get (s_ "i") [X3 k r i] = Some i. Proof. vm_compute. reflexivity. Qed.
Lemma xrep_i k r i i' : vars_replace (s_ "i") i' [X3 k r i] = Some [X3 k r i']. Proof. vm_compute. reflexivity. Qed.
Lemma xrep_v k r i v : vars_replace (s_ "v") v [X3 k r i] = None. Proof. vm_compute. reflexivity. Qed.
Local Opaque base G1 X2 X3.

Lemma p_index E f vs a b l h z v : pure E f vs a (VArr l h) -> pure E f vs b (VInt z) -> (0 <= z < 2 ^ 64)%Z -> nth_error l (Z.to_nat z) = Some v -> pure E f vs (EIndex a b) v.
Proof.
  intros Ha Hb Hz Hn n w. cbn [eval_expr]. unfold mbind, mret. rewrite Ha. cbn [as_vec]. rewrite Hb. cbn [as_integer]. unfold try_into_u.
  replace ((0 <=? z) && (z <? 2 ^ 64))%Z with true by lia. cbn [ok_or bind ensure]. 
  assert (Hlt : (z <? zlen l)%Z = true). { unfold zlen. assert (Hl := proj1 (nth_error_Some l (Z.to_nat z)) ltac:(congruence)). lia. }
  rewrite Hlt, Hn. reflexivity.
Qed.

Definition lines_of (l : list value) : str := flat_map (fun v => display v ++ nl) l.
Section Loop.
Context (E : env) (i : bool) (Hs : forall n t, sink E n t = SkOk) (f : option fs) (kv : value) (l : list value) (Hst : forall v, In v l -> exists nm key ms, v = VStruct nm key ms).
Definition noi (m : scope value) : Prop := forall x, assoc x m <> None -> x = s_ "v".
Lemma noi_get m r x : noi m -> str_eqb x (s_ "v") = false -> vars_get x (m :: r) = vars_get x r.
Proof. intros Hm Hx. apply get_out. destruct (assoc x m) eqn:Ea; [|reflexivity]. rewrite (Hm x) in Hx; [rewrite str_eqb_refl in Hx; discriminate|congruence]. Qed.
Lemma ex_loop : forall r done m w, l = done ++ r -> length done <= 3 -> noi m ->
  exists m' z w', w_out w' = w_out w ++ lines_of (firstn (3 - length done) r) /\
    each E i (s_ "v") ex_body r (mk_est [m; X3 kv (VArr l false) (VInt (zlen done))] f w) (mk_est [m'; X3 kv (VArr l false) z] f w') Ended.
Proof.
  induction r as [|v r IH]; intros done m w Hl Hd Hm.
  - exists m, (VInt (zlen done)), w. rewrite firstn_nil. cbn [lines_of flat_map]. rewrite app_nil_r. split; [reflexivity|]. apply ea_done.
  - set (m' := scope_insert (s_ "v") v m). set (GX := fun z => X3 kv (VArr l false) z).
    assert (Hm' : noi m') by (intros x Hx; unfold m' in Hx; rewrite assoc_insert in Hx; destruct (str_eqb (s_ "v") x) eqn:Ev; [symmetry; apply str_eqb_eq; exact Ev|apply Hm; exact Hx]).
    assert (Hass : assigned (mk_est [m; GX (VInt (zlen done))] f w) (s_ "v") v (mk_est [m'; GX (VInt (zlen done))] f w)).
    { eexists. split; [|reflexivity]. cbn [e_vars]. apply ins_head. apply xrep_v. }
    assert (C : pure E f [[]; m'; GX (VInt (zlen done))] (EBin OEquals (V (s_ "i")) (EInt 3)) (VBool (zlen done =? 3)%Z)).
    { apply p_eq; [apply p_var; rewrite get_nil, noi_get; [apply xget_i|exact Hm'|reflexivity]|apply p_int]. }
    destruct (Nat.eq_dec (length done) 3) as [H3|H3].
    + exists m', (VInt (zlen done)), w. rewrite H3. cbn [firstn Nat.sub lines_of flat_map]. rewrite app_nil_r. split; [reflexivity|].
      eapply ea_break; [exact Hass|]. unfold ex_body. apply xl_stop; [|discriminate]. eapply x_if; [exact C|]. unfold zlen. rewrite H3. apply xl_stop; [apply ex_break|discriminate].
    + replace (zlen done =? 3)%Z with false in C by (unfold zlen; lia).
      destruct (Hst v) as (nm & key & ms & Hv); [rewrite Hl; apply in_or_app; right; left; reflexivity|].
      set (w1 := mk_world (w_log w ++ [EvWrite (display v ++ nl)]) (w_out w ++ display v ++ nl)).
      destruct (IH (done ++ [v]) m' w1) as (m'' & z & w' & Ho & Hx); [rewrite <- app_assoc; exact Hl|rewrite app_length; cbn [length]; lia|exact Hm'|].
      exists m'', z, w'. split.
      * rewrite Ho. rewrite app_length. cbn [length w1 w_out]. replace (3 - length done) with (S (3 - (length done + 1))) by lia. cbn [firstn]. unfold lines_of. cbn [flat_map]. rewrite <- !app_assoc. reflexivity.
      * eapply ea_next; [exact Hass| |left; reflexivity|exact Hx]. unfold ex_body. step; [apply x_if_no; exact C|].
        step; [|step; [|apply xl_nil]].
        -- assert (Hpv : pure E f [m'; GX (VInt (zlen done))] (EIndex (V (s_ "res")) (V (s_ "i"))) v).
           { eapply p_index; [apply p_var; rewrite noi_get; [apply xget_r|exact Hm'|reflexivity]|apply p_var; rewrite noi_get; [apply xget_i|exact Hm'|reflexivity]| |].
             - unfold zlen. assert (3 < 2 ^ 64)%Z by reflexivity. lia.
             - unfold zlen. rewrite Nat2Z.id, Hl, nth_error_app2, Nat.sub_diag by lia. reflexivity. }
           pose proof (ex_print E i (EIndex (V (s_ "res")) (V (s_ "i"))) (mk_est [m'; GX (VInt (zlen done))] f w) w v (display v) (mk_est [m'; GX (VInt (zlen done))] f w1) Ended) as Hq.
           apply Hq.
           ++ apply evals_value. split; [discriminate|]. exists 0. apply Hpv.
           ++ subst v. apply pr_other; intros; discriminate.
           ++ apply (wr_ok E (mk_est [m'; GX (VInt (zlen done))] f w)). apply Hs.
        -- apply x_assign with (v := VInt (zlen done + 1)).
           ++ apply p_plus; [apply p_var; rewrite noi_get; [apply xget_i|exact Hm'|reflexivity]|apply p_int|]. unfold zlen. assert (4 < 2 ^ 100)%Z by reflexivity. lia.
           ++ replace (zlen done + 1)%Z with (zlen (done ++ [v])) by (unfold zlen; rewrite app_length; cbn [length]; lia). apply ins_rep. apply rep_out; [|apply xrep_i].
              destruct (assoc (s_ "i") m') eqn:Ea; [|reflexivity]. assert (Hv' : s_ "i" = s_ "v") by (apply Hm'; congruence). discriminate Hv'.
Qed.
End Loop.

Definition kx_fields : list (str * value) :=
  [(s_ "min_objectid", VInt 4); (s_ "max_objectid", VInt (2 ^ 64 - 1)); (s_ "min_type", VInt 132); (s_ "max_type", VInt 255);
   (s_ "min_offset", VInt 0); (s_ "max_offset", VInt (2 ^ 64 - 1)); (s_ "min_transid", VInt 0); (s_ "max_transid", VInt (2 ^ 64 - 1))].
Definition kx : skey := mk_skey 1 4 (2 ^ 64 - 1) 132 255 0 (2 ^ 64 - 1) 0 (2 ^ 64 - 1).
Lemma kx_requested : requested 1 kx_fields kx.
Proof. unfold requested, kx, kx_fields, key_field, request_ok, u. cbn [sk_tree sk_min_objectid sk_max_objectid sk_min_type sk_max_type sk_min_offset sk_max_offset sk_min_transid sk_max_transid]. repeat split; reflexivity || discriminate. Qed.

Section Whole.
Context (E : env) (i : bool) (fd : Z) (forest : Z -> list chunk) (HE : still E fd forest) (Hno : forall n k, ioctl E n fd k <> IoErr).
Context (HS : StronglySorted klt (map key_of (forest 1))) (HI : forall c, In c (forest 1) -> item_ok c /\ exists l, shown (overflow_checks E) [c] l)
  (Hopen : forall n, open_path E n (s_ "/mnt/btrfs") = OpDir fd (Some BTRFS_FSTYPE)) (Hsink : forall n t, sink E n t = SkOk).
Notation f := (Some (FsMounted fd)).
Lemma exs_runs : exists items rest l s', filter (in_rangeb kx) (forest 1) = items ++ rest /\ (rest <> [] -> items <> []) /\ shown (overflow_checks E) items l /\
  executes_list E i (eval_new E) exs s' Ended /\ w_out (e_w s') = lines_of (firstn 3 l).
Proof.
  set (s0 := eval_new E). assert (Hv0 : e_vars s0 = [base]) by apply new_state.
  assert (Hw0 : w_out (e_w s0) = []) by apply new_state. clearbody s0. destruct s0 as [vs0 f0 w0']. cbn [e_vars] in Hv0. subst vs0. cbn [e_w] in Hw0.
  set (w1 := log_event w0' (EvOpen (s_ "/mnt/btrfs"))).
  assert (S1 : executes E i (mk_est [base] f0 w0') (SFilesystem (EStr (s_ "/mnt/btrfs"))) (mk_est [base] f w1) Ended).
  { pose proof (ex_filesystem E i (EStr (s_ "/mnt/btrfs")) (mk_est [base] f0 w0') w0' (utf8 (s_ "/mnt/btrfs")) w1 (FsMounted fd)) as H. apply H.
    - apply evals_value. split; [discriminate|]. exists 0. reflexivity.
    - change (escape true (utf8 (s_ "/mnt/btrfs"))) with (s_ "/mnt/btrfs"). unfold fs_new. fold w1. rewrite Hopen. cbn [ok_or bind]. rewrite Z.eqb_refl. reflexivity. }
  set (kv := key_value kx_fields).
  assert (S2 : executes E i (mk_est [base] f w1) (SAssign (V (s_ "k")) (call (s_ "key") [V (s_ "BTRFS_DEV_TREE_OBJECTID"); V (s_ "BTRFS_ROOT_ITEM_KEY"); EInt 0; EInt 0])) (mk_est [G1 kv] f w1) Ended).
  { eapply x_assign; [|apply ins_k]. apply (p_key E f [base] _ _ _ _ 4 132 0 0); [exact (proj1 base_get)|apply p_var; exact xbase1|apply p_var; exact xbase2|apply p_int|apply p_int]. }
  destruct (first_answer_value E fd forest HE Hno [G1 kv] w1 search_roots 1 kv kx_fields kx) as (w2 & l & items & rest & Hout & Hsel & Hne & Hl & Hev).
  { unfold search_roots, call. exists (EIdent (s_ "search")), (V (s_ "BTRFS_ROOT_TREE_OBJECTID")), (V (s_ "k")), w1, w1. split; [reflexivity|]. split; [|split].
    - apply (p_var E f [G1 kv] (s_ "search")). apply g1s.
    - apply p_var. apply xg1t.
    - apply p_var. apply g1k. }
  { exists None. reflexivity. }
  { exact kx_requested. }
  { unfold bounded, kx. cbn [sk_max_objectid sk_max_type sk_max_offset sk_max_transid]. tauto. }
  { exact HS. }
  { intros d Hdin. apply (HI d Hdin). }
  change (sk_tree kx) with 1%Z in Hsel.
  assert (S3 : executes E i (mk_est [G1 kv] f w1) (SAssign (V (s_ "res")) search_roots) (mk_est [X2 kv (VArr l false)] f w2) Ended).
  { apply (ex_set E i (s_ "res") search_roots (mk_est [G1 kv] f w1) w2 (VArr l false)).
    - apply evals_value. split; [discriminate|]. exists 1. exact Hev.
    - eexists. split; [|reflexivity]. cbn [e_vars with_w]. apply xins_r. }
  assert (S4 : executes E i (mk_est [X2 kv (VArr l false)] f w2) (SAssign (V (s_ "i")) (EInt 0)) (mk_est [X3 kv (VArr l false) (VInt 0)] f w2) Ended).
  { eapply x_assign; [apply p_int|apply xins_i]. }
  assert (Hst : forall v, In v l -> exists nm key ms, v = VStruct nm key ms).
  { assert (Hok : forall c, In c items -> item_ok c).
    { intros c Hc. assert (Hin : In c (filter (in_rangeb kx) (forest 1))) by (rewrite Hsel; apply in_or_app; left; exact Hc). apply filter_In in Hin. apply (HI c (proj1 Hin)). }
    clear -Hl Hok. revert l Hl. induction items as [|c items IH]; intros l Hl v Hv; [inversion Hl; subst; destruct Hv|].
    destruct (shown_cons _ c items l (Hok c (or_introl eq_refl)) Hl) as [(Hl' & _)|(nm & ms & l' & -> & Hl' & _)].
    - eapply IH; [intros d Hd; apply Hok; right; exact Hd|exact Hl'|exact Hv].
    - destruct Hv as [<-|Hv]; [eauto|]. eapply IH; [intros d Hd; apply Hok; right; exact Hd|exact Hl'|exact Hv]. }
  destruct (ex_loop E i Hsink f kv l Hst l [] [] w2 eq_refl) as (m' & z & w3 & Ho & Hx); [cbn; lia|intros x Hx; elim Hx; reflexivity|].
  exists items, rest, l, (mk_est [X3 kv (VArr l false) z] f w3). split; [exact Hsel|]. split; [exact Hne|]. split; [exact Hl|]. split.
  - unfold exs. step; [exact S1|]. step; [exact S2|]. step; [exact S3|]. step; [exact S4|]. step; [|apply xl_nil].
    pose proof (ex_for E i (s_ "v") (V (s_ "res")) ex_body (mk_est [X3 kv (VArr l false) (VInt 0)] f w2) w2 l false (mk_est [m'; X3 kv (VArr l false) z] f w3) Ended) as Hfor. apply Hfor.
    + apply evals_value. split; [discriminate|]. exists 0. apply (p_var E f). cbn [enter e_vars]. rewrite get_nil. apply xget_r.
    + exact Hx.
  - cbn [e_w]. rewrite Ho, Hout. unfold w1. cbn [log_event w_out length Nat.sub]. rewrite Hw0. reflexivity.
Qed.
End Whole.
