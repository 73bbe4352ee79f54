(** C76: scripts/block_group_dist.btrd, one block group. *)
From Verif Require Import Base Ast Pom Parse Structs Definitions Value Variables Semantics Fs Eval Runtime Input Main Lib Spec_Vars Spec_Decode Spec_Search Spec_Hist Spec_Run Spec_Lang Spec_Exec Spec_Layout Spec_Still Spec_Scripts
  Proof_Vars Proof_Decode Proof_Decode2 Proof_Search Proof_Search2 Proof_Run Proof_Hist Proof_Lang Proof_Exec Proof_Layout Proof_Still Proof_Access Demo_Search Proof_Scripts Proof_Scripts2 Proof_Scripts3 Proof_Scripts4.
Import Spec_Search.
From Coq Require Import Sorted Lia.
Arguments s_ s%string_scope.

Lemma land_1_0 z : (Z.land z 1 =? 0)%Z = negb (Z.odd z).
Proof.
  change 1%Z with (Z.ones 1). rewrite Z.land_ones by lia. change (2 ^ 1)%Z with 2%Z. rewrite Zmod_odd. destruct (Z.odd z); reflexivity.
Qed.

(** the keys the script searches with *)
Definition k1_fields : list (str * value) :=
  [(s_ "min_objectid", VInt 0); (s_ "max_objectid", VInt (2 ^ 64 - 1)); (s_ "min_type", VInt 192); (s_ "max_type", VInt 192);
   (s_ "min_offset", VInt 0); (s_ "max_offset", VInt (2 ^ 64 - 1)); (s_ "min_transid", VInt 0); (s_ "max_transid", VInt (2 ^ 64 - 1))].
Definition k1 : skey := mk_skey 2 0 (2 ^ 64 - 1) 192 192 0 (2 ^ 64 - 1) 0 (2 ^ 64 - 1).
Definition k2_fields (start max : Z) : list (str * value) :=
  [(s_ "min_objectid", VInt start); (s_ "max_objectid", VInt max); (s_ "min_type", VInt 168); (s_ "max_type", VInt 168);
   (s_ "min_offset", VInt 0); (s_ "max_offset", VInt (2 ^ 64 - 1)); (s_ "min_transid", VInt 0); (s_ "max_transid", VInt (2 ^ 64 - 1))].
Definition k2 (start max : Z) : skey := mk_skey 2 start max 168 168 0 (2 ^ 64 - 1) 0 (2 ^ 64 - 1).
Definition key_value (flds : list (str * value)) : value := VStruct (s_ "_btrfs_ioctl_search_key") None flds.
Lemma k1_requested : requested 2 k1_fields k1.
Proof. unfold requested, k1, k1_fields, key_field, request_ok, u. cbn [sk_tree sk_min_objectid sk_max_objectid sk_min_type sk_max_type sk_min_offset sk_max_offset sk_min_transid sk_max_transid]. repeat split; reflexivity || discriminate. Qed.
Lemma k2_requested start max : (0 <= start < 2 ^ 64)%Z -> (0 <= max < 2 ^ 64)%Z -> requested 2 (k2_fields start max) (k2 start max).
Proof. intros H1 H2. unfold requested, k2, k2_fields, key_field, request_ok, u. cbn [sk_tree sk_min_objectid sk_max_objectid sk_min_type sk_max_type sk_min_offset sk_max_offset sk_min_transid sk_max_transid]. repeat split; reflexivity || discriminate || lia. Qed.
Lemma k1_filter tree : (forall c, In c tree -> item_ok c) -> filter is_data_group (filter (in_rangeb k1) tree) = filter is_data_group tree.
Proof.
  induction tree as [|c tree IH]; intros H; [reflexivity|]. cbn [filter].
  assert (IH' := IH (fun d Hd => H d (or_intror Hd))). destruct (in_rangeb k1 c) eqn:Hr; cbn [filter]; rewrite IH'; [reflexivity|].
  destruct (is_data_group c) eqn:Hd; [|reflexivity]. exfalso.
  enough (in_rangeb k1 c = true) by congruence. apply in_rangeb_spec. unfold is_data_group, is_group in Hd. apply andb_prop in Hd. destruct Hd as [Ht _]. apply Z.eqb_eq in Ht.
  destruct (H c (or_introl eq_refl)) as (Hx & Ho & Hf & _). apply u_bound in Hx, Ho, Hf.
  unfold in_range, key_of, min_key, max_key, klt, k1. cbn [sk_min_objectid sk_max_objectid sk_min_type sk_max_type sk_min_offset sk_max_offset sk_min_transid sk_max_transid]. rewrite Ht.
  clear -Hx Ho Hf. lia.
Qed.
Lemma k2_filter tree start glen : (forall c, In c tree -> item_ok c) ->
  filter is_extent (filter (in_rangeb (k2 start (start + glen - 1))) tree) =
  filter (fun c => is_extent c && (start <=? h_objectid (fst c))%Z && (h_objectid (fst c) <? start + glen)%Z) tree.
Proof.
  induction tree as [|c tree IH]; intros H; [reflexivity|]. cbn [filter].
  assert (IH' := IH (fun d Hd => H d (or_intror Hd))).
  destruct (H c (or_introl eq_refl)) as (Hx & Ho & Hf & _). apply u_bound in Hx, Ho, Hf.
  destruct (is_extent c) eqn:He.
  2: { cbn [andb]. destruct (in_rangeb (k2 start (start + glen - 1)) c); cbn [filter]; rewrite ?He; exact IH'. }
  assert (Hr : in_rangeb (k2 start (start + glen - 1)) c = (true && (start <=? h_objectid (fst c))%Z && (h_objectid (fst c) <? start + glen)%Z)%bool).
  { apply Bool.eq_iff_eq_true. rewrite in_rangeb_spec. unfold is_extent in He. apply Z.eqb_eq in He.
    unfold in_range, key_of, min_key, max_key, klt, k2. cbn [sk_min_objectid sk_max_objectid sk_min_type sk_max_type sk_min_offset sk_max_offset sk_min_transid sk_max_transid]. rewrite He.
    cbn [andb]. rewrite Bool.andb_true_iff, Z.leb_le, Z.ltb_lt. clear -Hx Ho Hf. lia. }
  rewrite Hr. destruct (true && _ && _)%bool; cbn [filter]; rewrite ?He, IH'; reflexivity.
Qed.

Section Group.
Context (E : env) (i : bool) (fd : Z) (forest : Z -> list chunk) (HE : still E fd forest) (Hno : forall n k, ioctl E n fd k <> IoErr).
Context (HT : extent_tree (overflow_checks E) (forest 2)).
Notation f := (Some (FsMounted fd)).
Context (k b : value).
Notation GG us fr := (G k b (Fr us) (Fr fr)).

(** variables of the group *)
Lemma set_local w m us fr x e v : inside outer_names m -> existsb (str_eqb x) outer_names = true -> pure E f [m; GG us fr] e v ->
  executes E i (mk_est [m; GG us fr] f w) (SAssign (V x) e) (mk_est [scope_insert x v m; GG us fr] f w) Ended /\ inside outer_names (scope_insert x v m).
Proof.
  intros I Hx He. split; [|apply inside_insert; assumption]. eapply x_assign; [exact He|]. apply ins_head. apply rep_G_local.
  apply existsb_exists in Hx. destruct Hx as (y & Hy & Hxy). apply existsb_exists. exists y. split; [|exact Hxy]. right. apply in_or_app. right. exact Hy.
Qed.
Lemma glob m us fr x v : inside outer_names m -> existsb (str_eqb x) outer_names = false -> vars_get x [GG us fr] = Some v -> vars_get x [m; GG us fr] = Some v.
Proof. intros I Hx H. rewrite get_out; [exact H|]. eapply inside_none; eassumption. Qed.

Lemma group_skip nm o t len ms m us fr w : inside outer_names m ->
  (t = 192%Z -> exists fl, assoc (s_ "flags") ms = Some (VInt fl) /\ Z.odd fl = false) ->
  exists m', inside outer_names m' /\
    executes_list E i (mk_est [scope_insert (s_ "bg") (VStruct nm (Some (o, t, len)) ms) m; GG us fr] f w) outer_body (mk_est [m'; GG us fr] f w) Continues.
Proof.
  intros I Hf. set (m0 := scope_insert (s_ "bg") _ m). assert (I0 : inside outer_names m0) by (apply inside_insert; [exact I|reflexivity]).
  assert (X0 : assoc (s_ "bg") m0 = Some (VStruct nm (Some (o, t, len)) ms)) by (unfold m0; rewrite assoc_insert; reflexivity). clearbody m0.
  set (m1 := scope_insert (s_ "bg_key") (disk_key o t len) m0).
  destruct (set_local w m0 us fr (s_ "bg_key") (call (s_ "keyof") [V (s_ "bg")]) (disk_key o t len) I0 eq_refl) as [S1 I1].
  { apply p_keyof with nm ms; [apply glob; [exact I0|reflexivity|apply gG9]|]. apply p_var. apply get_in. exact X0. }
  fold m1 in S1, I1.
  assert (Kk : assoc (s_ "bg_key") m1 = Some (disk_key o t len)) by (unfold m1; rewrite assoc_insert; reflexivity).
  assert (Kb : assoc (s_ "bg") m1 = Some (VStruct nm (Some (o, t, len)) ms)) by (unfold m1; rewrite assoc_insert; exact X0). clearbody m1.
  assert (C2 : pure E f [[]; m1; GG us fr] (EBin ONotEquals (F (s_ "bg_key") (s_ "type")) (V (s_ "BTRFS_BLOCK_GROUP_ITEM_KEY"))) (VBool (negb (t =? 192)%Z))).
  { apply p_ne; [eapply p_field; [rewrite get_nil; apply get_in; exact Kk|reflexivity]|apply p_var; rewrite get_nil; apply glob; [exact I1|reflexivity|apply gG5]]. }
  exists m1. split; [exact I1|]. unfold outer_body. apply xl_app_stop; [|discriminate]. unfold group_head.
  step; [exact S1|]. destruct (Z.eqb_spec t 192) as [Ht|Hne].
  2: { apply xl_stop; [|discriminate]. apply x_continue_if. exact C2. }
  cbn [negb] in C2. step; [apply x_if_no; exact C2|]. apply xl_stop; [|discriminate]. apply x_continue_if.
  destruct (Hf Ht) as (fl & Hfl & Hodd).
  enough (Hx : pure E f [[]; m1; GG us fr] (EUn UNot (EParen (EBin OBitAnd (F (s_ "bg") (s_ "flags")) (V (s_ "BTRFS_BLOCK_GROUP_DATA"))))) (VBool (Z.land fl 1 =? 0)%Z)).
  { rewrite land_1_0, Hodd in Hx. exact Hx. }
  apply p_not, p_paren, p_and; [eapply p_field; [rewrite get_nil; apply get_in; exact Kb|exact Hfl]|apply p_var; rewrite get_nil; apply glob; [exact I1|reflexivity|apply gG7]].
Qed.

Lemma group_step c nm ms m us fr w : In c (forest 2) -> is_data_group c = true -> inside outer_names m ->
  assoc (s_ "used") ms = Some (VInt (bg_used c)) -> assoc (s_ "flags") ms = Some (VInt (bg_flags c)) -> (0 <= bg_used c < 2 ^ 64)%Z ->
  exists m' w', inside outer_names m' /\ w_out w' = w_out w /\
    executes_list E i (mk_est [scope_insert (s_ "bg") (VStruct nm (Some (h_objectid (fst c), h_type (fst c), h_offset (fst c))) ms) m; GG us fr] f w) outer_body
      (mk_est [m'; GG (us ++ [percent c]) (fr ++ gaps (h_objectid (fst c)) (extents_in (forest 2) c))] f w') Ended.
Proof.
  intros Hin Hd I Hused Hflags Hu. destruct HT as (HS & HI & HD).
  destruct (HD c Hin Hd) as [Hlen Hend]. destruct (HI c Hin) as (Hc & _). pose proof Hc as (_ & Ho & Hof & _). apply u_bound in Ho, Hof.
  unfold is_data_group, is_group in Hd. apply andb_prop in Hd. destruct Hd as [Ht Hodd]. apply Z.eqb_eq in Ht.
  set (start := h_objectid (fst c)) in *. set (len := h_offset (fst c)) in *. rewrite Ht.
  set (m0 := scope_insert (s_ "bg") _ m). assert (I0 : inside outer_names m0) by (apply inside_insert; [exact I|reflexivity]).
  assert (X0 : assoc (s_ "bg") m0 = Some (VStruct nm (Some (start, 192%Z, len)) ms)) by (unfold m0; rewrite assoc_insert; reflexivity). clearbody m0.
  destruct (set_local w m0 us fr (s_ "bg_key") (call (s_ "keyof") [V (s_ "bg")]) (disk_key start 192 len) I0 eq_refl) as [S1 I1].
  { apply p_keyof with nm ms; [apply glob; [exact I0|reflexivity|apply gG9]|]. apply p_var. apply get_in. exact X0. }
  set (m1 := scope_insert (s_ "bg_key") _ m0) in *.
  assert (Kk : assoc (s_ "bg_key") m1 = Some (disk_key start 192 len)) by (unfold m1; rewrite assoc_insert; reflexivity).
  assert (Kb : assoc (s_ "bg") m1 = Some (VStruct nm (Some (start, 192%Z, len)) ms)) by (unfold m1; rewrite assoc_insert; exact X0). clearbody m1.
  assert (C2 : pure E f [[]; m1; GG us fr] (EBin ONotEquals (F (s_ "bg_key") (s_ "type")) (V (s_ "BTRFS_BLOCK_GROUP_ITEM_KEY"))) (VBool (negb (192 =? 192)%Z))).
  { apply p_ne; [eapply p_field; [rewrite get_nil; apply get_in; exact Kk|reflexivity]|apply p_var; rewrite get_nil; apply glob; [exact I1|reflexivity|apply gG5]]. }
  assert (C3 : pure E f [[]; m1; GG us fr] (EUn UNot (EParen (EBin OBitAnd (F (s_ "bg") (s_ "flags")) (V (s_ "BTRFS_BLOCK_GROUP_DATA"))))) (VBool (Z.land (bg_flags c) 1 =? 0)%Z)).
  { apply p_not, p_paren, p_and; [eapply p_field; [rewrite get_nil; apply get_in; exact Kb|exact Hflags]|apply p_var; rewrite get_nil; apply glob; [exact I1|reflexivity|apply gG7]]. }
  rewrite land_1_0, Hodd in C3. cbn [negb] in C3. change (negb (192 =? 192)%Z) with false in C2.
  (* percent_used, blk_group_usage *)
  destruct (set_local w m1 us fr (s_ "percent_used") (EBin ODivide (EBin OMultiply (EInt 100) (F (s_ "bg") (s_ "used"))) (F (s_ "bg_key") (s_ "offset"))) (VInt (percent c)) I1 eq_refl) as [S2 I2].
  { unfold percent. apply p_div; [apply p_mult; [apply p_int|eapply p_field; [apply get_in; exact Kb|exact Hused]|]|eapply p_field; [apply get_in; exact Kk|reflexivity]| |exact Hlen].
    - clear -Hu. assert (2 ^ 100 = 2 ^ 64 * 68719476736)%Z by reflexivity. lia.
    - clear -Hu. assert (2 ^ 100 = 2 ^ 64 * 68719476736)%Z by reflexivity. lia. }
  set (m2 := scope_insert (s_ "percent_used") _ m1) in *.
  assert (Kp : assoc (s_ "percent_used") m2 = Some (VInt (percent c))) by (unfold m2; rewrite assoc_insert; reflexivity).
  assert (Kk2 : assoc (s_ "bg_key") m2 = Some (disk_key start 192 len)) by (unfold m2; rewrite assoc_insert; exact Kk). clearbody m2.
  set (us' := us ++ [percent c]).
  assert (S3 : executes E i (mk_est [m2; GG us fr] f w) (SAssign (V (s_ "blk_group_usage")) (EBin OPlus (V (s_ "blk_group_usage")) (V (s_ "percent_used")))) (mk_est [m2; GG us' fr] f w) Ended).
  { unfold us'. rewrite map_app. apply x_assign with (v := VArr (map VInt us ++ [VInt (percent c)]) true).
    - apply p_push; [apply p_var; apply glob; [exact I2|reflexivity|apply gG3]|apply p_var; apply get_in; exact Kp].
    - apply ins_rep. apply rep_out; [eapply inside_none; [exact I2|reflexivity]|]. apply rep_G_u. }
  (* bg_start, bg_len, last_end *)
  destruct (set_local w m2 us' fr (s_ "bg_start") (F (s_ "bg_key") (s_ "objectid")) (VInt start) I2 eq_refl) as [S4 I3]; [eapply p_field; [apply get_in; exact Kk2|reflexivity]|].
  set (m3 := scope_insert (s_ "bg_start") _ m2) in *.
  assert (Ks3 : assoc (s_ "bg_start") m3 = Some (VInt start)) by (unfold m3; rewrite assoc_insert; reflexivity).
  assert (Kk3 : assoc (s_ "bg_key") m3 = Some (disk_key start 192 len)) by (unfold m3; rewrite assoc_insert; exact Kk2). clearbody m3.
  destruct (set_local w m3 us' fr (s_ "bg_len") (F (s_ "bg_key") (s_ "offset")) (VInt len) I3 eq_refl) as [S5 I4]; [eapply p_field; [apply get_in; exact Kk3|reflexivity]|].
  set (m4 := scope_insert (s_ "bg_len") _ m3) in *.
  assert (Ks4 : assoc (s_ "bg_start") m4 = Some (VInt start)) by (unfold m4; rewrite assoc_insert; exact Ks3).
  assert (Kl4 : assoc (s_ "bg_len") m4 = Some (VInt len)) by (unfold m4; rewrite assoc_insert; reflexivity). clearbody m4.
  destruct (set_local w m4 us' fr (s_ "last_end") (V (s_ "bg_start")) (VInt start) I4 eq_refl) as [S6 I5]; [apply p_var; apply get_in; exact Ks4|].
  set (m5 := scope_insert (s_ "last_end") _ m4) in *.
  assert (Ks5 : assoc (s_ "bg_start") m5 = Some (VInt start)) by (unfold m5; rewrite assoc_insert; exact Ks4).
  assert (Kl5 : assoc (s_ "bg_len") m5 = Some (VInt len)) by (unfold m5; rewrite assoc_insert; exact Kl4).
  assert (Ke5 : assoc (s_ "last_end") m5 = Some (VInt start)) by (unfold m5; rewrite assoc_insert; reflexivity). clearbody m5.
  (* k2 *)
  destruct (set_local w m5 us' fr (s_ "k2") (call (s_ "key") [V (s_ "bg_start"); V (s_ "BTRFS_EXTENT_ITEM_KEY"); EInt 0; EInt 0]) (key_struct start 168 0 0) I5 eq_refl) as [S7 I6].
  { apply p_key; [apply glob; [exact I5|reflexivity|apply gG10]|apply p_var; apply get_in; exact Ks5|apply p_var; apply glob; [exact I5|reflexivity|apply gG6]|apply p_int|apply p_int]. }
  set (m6 := scope_insert (s_ "k2") _ m5) in *.
  assert (Ks6 : assoc (s_ "bg_start") m6 = Some (VInt start)) by (unfold m6; rewrite assoc_insert; exact Ks5).
  assert (Kl6 : assoc (s_ "bg_len") m6 = Some (VInt len)) by (unfold m6; rewrite assoc_insert; exact Kl5).
  assert (Ke6 : assoc (s_ "last_end") m6 = Some (VInt start)) by (unfold m6; rewrite assoc_insert; exact Ke5).
  assert (K26 : assoc (s_ "k2") m6 = Some (key_struct start 168 0 0)) by (unfold m6; rewrite assoc_insert; reflexivity). clearbody m6.
  set (max := (start + len - 1)%Z).
  pose (half := [(s_ "min_objectid", VInt start); (s_ "max_objectid", VInt max); (s_ "min_type", VInt 168); (s_ "max_type", VInt 255);
     (s_ "min_offset", VInt 0); (s_ "max_offset", VInt (2 ^ 64 - 1)); (s_ "min_transid", VInt 0); (s_ "max_transid", VInt (2 ^ 64 - 1))]).
  set (m7 := scope_insert (s_ "k2") (key_value half) m6).
  assert (S8 : executes E i (mk_est [m6; GG us' fr] f w) (SAssign (F (s_ "k2") (s_ "max_objectid")) (EBin OMinus (EBin OPlus (V (s_ "bg_start")) (V (s_ "bg_len"))) (EInt 1)))
     (mk_est [m7; GG us' fr] f w) Ended).
  { eapply x_field with (v := VInt max) (fs' := half); [|apply get_in; exact K26|reflexivity|eapply rep_here; exact K26].
    apply p_minus; [apply p_plus; [apply p_var; apply get_in; exact Ks6|apply p_var; apply get_in; exact Kl6|]|apply p_int|];
    clear -Ho Hof; assert (2 ^ 64 * 4 < 2 ^ 100)%Z by reflexivity; lia. }
  assert (I7 : inside outer_names m7) by (apply inside_insert; [exact I6|reflexivity]).
  assert (Ks7 : assoc (s_ "bg_start") m7 = Some (VInt start)) by (unfold m7; rewrite assoc_insert; exact Ks6).
  assert (Kl7 : assoc (s_ "bg_len") m7 = Some (VInt len)) by (unfold m7; rewrite assoc_insert; exact Kl6).
  assert (Ke7 : assoc (s_ "last_end") m7 = Some (VInt start)) by (unfold m7; rewrite assoc_insert; exact Ke6).
  assert (K27 : assoc (s_ "k2") m7 = Some (key_value half)) by (unfold m7; rewrite assoc_insert; reflexivity). clearbody m7.
  set (m8 := scope_insert (s_ "k2") (key_value (k2_fields start max)) m7).
  assert (S9 : executes E i (mk_est [m7; GG us' fr] f w) (SAssign (F (s_ "k2") (s_ "max_type")) (V (s_ "BTRFS_EXTENT_ITEM_KEY"))) (mk_est [m8; GG us' fr] f w) Ended).
  { eapply x_field with (v := VInt 168) (fs' := k2_fields start max); [|apply get_in; exact K27|reflexivity|eapply rep_here; exact K27].
    apply p_var. apply glob; [exact I7|reflexivity|apply gG6]. }
  assert (I8 : inside outer_names m8) by (apply inside_insert; [exact I7|reflexivity]).
  assert (Ks8 : assoc (s_ "bg_start") m8 = Some (VInt start)) by (unfold m8; rewrite assoc_insert; exact Ks7).
  assert (Kl8 : assoc (s_ "bg_len") m8 = Some (VInt len)) by (unfold m8; rewrite assoc_insert; exact Kl7).
  assert (Ke8 : assoc (s_ "last_end") m8 = Some (VInt start)) by (unfold m8; rewrite assoc_insert; exact Ke7).
  assert (K28 : assoc (s_ "k2") m8 = Some (key_value (k2_fields start max))) by (unfold m8; rewrite assoc_insert; reflexivity). clearbody m8.
  (* the search *)
  destruct (search_value E fd forest HE Hno [m8; GG us' fr] w search_extents 2 (key_value (k2_fields start max)) (k2_fields start max) (k2 start max)) as (w' & l & K0 & Hout & Hl & Hev).
  { unfold search_extents, call. exists (EIdent (s_ "search")), (V (s_ "BTRFS_EXTENT_TREE_OBJECTID")), (V (s_ "k2")), w, w. split; [reflexivity|]. split; [|split].
    - apply (p_var E f [m8; GG us' fr] (s_ "search")). apply glob; [exact I8|reflexivity|apply gG11].
    - apply p_var. apply glob; [exact I8|reflexivity|apply gG8].
    - apply p_var. apply get_in. exact K28. }
  { exists None. reflexivity. }
  { apply k2_requested; [exact Ho|]. unfold max. clear -Ho Hlen Hend. lia. }
  { right. left. discriminate. }
  { exact HS. }
  { intros d Hdin. apply (HI d Hdin). }
  cbn [k2 sk_tree] in Hl. change (sk_tree (k2 start max)) with 2%Z in Hl.
  set (m9 := scope_insert (s_ "extents") (VArr l false) m8).
  assert (S10 : executes E i (mk_est [m8; GG us' fr] f w) (SAssign (V (s_ "extents")) search_extents) (mk_est [m9; GG us' fr] f w') Ended).
  { apply (ex_set E i (s_ "extents") search_extents (mk_est [m8; GG us' fr] f w) w' (VArr l false)).
    - apply evals_value. split; [discriminate|]. exists K0. apply Hev. exact (le_n _).
    - eexists. split; [|reflexivity]. cbn [e_vars with_w]. apply ins_head. apply rep_G_local. reflexivity. }
  assert (I9 : inside outer_names m9) by (apply inside_insert; [exact I8|reflexivity]).
  assert (Kx : assoc (s_ "extents") m9 = Some (VArr l false)) by (unfold m9; rewrite assoc_insert; reflexivity).
  assert (Ks9 : assoc (s_ "bg_start") m9 = Some (VInt start)) by (unfold m9; rewrite assoc_insert; exact Ks8).
  assert (Kl9 : assoc (s_ "bg_len") m9 = Some (VInt len)) by (unfold m9; rewrite assoc_insert; exact Kl8).
  assert (Ke9 : assoc (s_ "last_end") m9 = Some (VInt start)) by (unfold m9; rewrite assoc_insert; exact Ke8). clearbody m9.
  (* the loop *)
  destruct (inner_loop E i f w' k b (Fr us') start len Ho Hof (overflow_checks E) (filter (in_rangeb (k2 start max)) (forest 2)) l [] m9 fr start Hl) as (m2' & m1' & J1 & Hx).
  { intros d Hdin. apply filter_In in Hdin. destruct Hdin as [Hdin Hr]. split; [apply (HI d Hdin)|]. intros Hext. apply in_rangeb_spec in Hr.
    unfold is_extent in Hext. apply Z.eqb_eq in Hext. destruct Hr as (_ & Hmx & _). clear -Hmx Hext. unfold max in Hmx.
    unfold key_of, max_key, klt, k2 in Hmx. cbn [sk_max_objectid sk_max_type sk_max_offset] in Hmx. rewrite Hext in Hmx. lia. }
  { apply inside_nil. }
  { split; [exact I9|]. split; [exact Ks9|]. split; [exact Kl9|]. split; [exact Ke9|]. clear -Ho. assert (2 ^ 64 < 2 ^ 66)%Z by reflexivity. lia. }
  unfold max in Hx. rewrite k2_filter in Hx by (intros d Hdin; apply (HI d Hdin)).
  exists m1', w'. split; [exact J1|]. split; [exact Hout|]. unfold outer_body. eapply xl_app; [|eapply xl_app].
  - unfold group_head. step; [exact S1|]. step; [apply x_if_no; exact C2|]. step; [apply x_if_no; exact C3|]. apply xl_nil.
  - unfold group_body. step; [exact S2|]. step; [exact S3|]. step; [exact S4|]. step; [exact S5|]. step; [exact S6|]. step; [exact S7|]. step; [exact S8|]. step; [exact S9|]. apply xl_nil.
  - unfold group_extents. step; [exact S10|]. step; [|apply xl_nil].
    pose proof (ex_for E i (s_ "extent") (V (s_ "extents")) inner_body (mk_est [m9; GG us' fr] f w') w' l false
       (mk_est [m2'; m1'; GG us' (fr ++ gaps start (extents_in (forest 2) c))] f w') Ended) as Hfor.
    apply Hfor.
    + apply evals_value. split; [discriminate|]. exists 0. apply (p_var E f). cbn [enter e_vars]. rewrite get_nil. apply get_in. exact Kx.
    + exact Hx.
Qed.

(** ** The outer loop *)
Lemma outer_loop items : (forall c, In c items -> In c (forest 2)) -> forall l m us fr w, shown (overflow_checks E) items l -> inside outer_names m ->
  exists m' w', inside outer_names m' /\ w_out w' = w_out w /\
    each E i (s_ "bg") outer_body l (mk_est [m; GG us fr] f w)
      (mk_est [m'; GG (us ++ map percent (filter is_data_group items))
                      (fr ++ flat_map (fun g => gaps (h_objectid (fst g)) (extents_in (forest 2) g)) (filter is_data_group items))] f w') Ended.
Proof.
  induction items as [|c items IH]; intros Hsub l m us fr w Hl I.
  - inversion Hl; subst. exists m, w. split; [exact I|]. split; [reflexivity|]. cbn [filter map flat_map]. rewrite !app_nil_r. apply ea_done.
  - assert (Hin : In c (forest 2)) by (apply Hsub; left; reflexivity). assert (IH' := IH (fun d Hd => Hsub d (or_intror Hd))). clear IH.
    destruct (proj1 (proj2 HT) c Hin) as (Hc & _).
    destruct (shown_cons _ c items l Hc Hl) as [(Hl' & _ & Hg)|(nm & ms & l' & -> & Hl' & Hm)].
    + assert (Hd : is_data_group c = false) by (unfold is_data_group; rewrite Hg; reflexivity). cbn [filter]. rewrite Hd. apply IH'; assumption.
    + assert (Hass : assigned (mk_est [m; GG us fr] f w) (s_ "bg") (VStruct nm (Some (h_objectid (fst c), h_type (fst c), h_offset (fst c))) ms)
        (mk_est [scope_insert (s_ "bg") (VStruct nm (Some (h_objectid (fst c), h_type (fst c), h_offset (fst c))) ms) m; GG us fr] f w)).
      { eexists. split; [|reflexivity]. cbn [e_vars]. apply ins_head. apply rep_G_local. reflexivity. }
      cbn [filter]. destruct (is_data_group c) eqn:Hd.
      * assert (Hg : is_group c = true) by (unfold is_data_group in Hd; apply andb_prop in Hd; apply Hd). destruct (Hm Hg) as (M1 & M2 & M3).
        destruct (group_step c nm ms m us fr w Hin Hd I M1 M2 M3) as (m' & w' & J & Hout & Hx).
        destruct (IH' l' m' (us ++ [percent c]) (fr ++ gaps (h_objectid (fst c)) (extents_in (forest 2) c)) w' Hl' J) as (m'' & w'' & K & Hout' & Hy).
        exists m'', w''. split; [exact K|]. split; [congruence|]. eapply ea_next; [exact Hass|exact Hx|left; reflexivity|].
        cbn [map flat_map]. rewrite <- !app_assoc in Hy. exact Hy.
      * destruct (group_skip nm (h_objectid (fst c)) (h_type (fst c)) (h_offset (fst c)) ms m us fr w I) as (m' & J & Hx).
        { intros Ht. assert (Hg : is_group c = true) by (unfold is_group; rewrite Ht; reflexivity). destruct (Hm Hg) as (_ & M2 & _). exists (bg_flags c). split; [exact M2|].
          unfold is_data_group in Hd. rewrite Hg in Hd. exact Hd. }
        destruct (IH' l' m' us fr w Hl' J) as (m'' & w'' & K & Hout' & Hy).
        exists m'', w''. split; [exact K|]. split; [exact Hout'|]. eapply ea_next; [exact Hass|exact Hx|right; reflexivity|exact Hy].
Qed.
End Group.
