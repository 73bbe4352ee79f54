(** C76: scripts/block_group_dist.btrd, the loops. *)
From Verif Require Import Base Ast Pom Parse Structs Definitions Value Variables Semantics Fs Eval Runtime Input Main Lib Spec_Vars Spec_Decode Spec_Search Spec_Hist Spec_Run Spec_Lang Spec_Exec Spec_Layout Spec_Still Spec_Scripts
  Proof_Vars Proof_Decode Proof_Search Proof_Search2 Proof_Run Proof_Hist Proof_Lang Proof_Exec Proof_Layout Proof_Still Proof_Access Demo_Search Proof_Scripts Proof_Scripts2.
Import Spec_Search.
From Coq Require Import Sorted Lia.
Arguments s_ s%string_scope.

Lemma gG1 k b u f : vars_get (s_ "k") [G k b u f] = Some k. Proof. destruct (get_G k b u f) as [[H _] _]. exact H. Qed.
Lemma gG2 k b u f : vars_get (s_ "bgs") [G k b u f] = Some b. Proof. destruct (get_G k b u f) as [[_ H] _]. exact H. Qed.
Lemma gG3 k b u f : vars_get (s_ "blk_group_usage") [G k b u f] = Some u. Proof. destruct (get_G k b u f) as (_ & [H _] & _). exact H. Qed.
Lemma gG4 k b u f : vars_get (s_ "extent_free_space") [G k b u f] = Some f. Proof. destruct (get_G k b u f) as (_ & [_ H] & _). exact H. Qed.
Lemma gG5 k b u f : vars_get (s_ "BTRFS_BLOCK_GROUP_ITEM_KEY") [G k b u f] = Some (VInt 192). Proof. destruct (get_G k b u f) as (_ & _ & [H _] & _). exact H. Qed.
Lemma gG6 k b u f : vars_get (s_ "BTRFS_EXTENT_ITEM_KEY") [G k b u f] = Some (VInt 168). Proof. destruct (get_G k b u f) as (_ & _ & [_ H] & _). exact H. Qed.
Lemma gG7 k b u f : vars_get (s_ "BTRFS_BLOCK_GROUP_DATA") [G k b u f] = Some (VInt 1). Proof. destruct (get_G k b u f) as (_ & _ & _ & [H _] & _). exact H. Qed.
Lemma gG8 k b u f : vars_get (s_ "BTRFS_EXTENT_TREE_OBJECTID") [G k b u f] = Some (VInt 2). Proof. destruct (get_G k b u f) as (_ & _ & _ & [_ H] & _). exact H. Qed.
Lemma gG9 k b u f : vars_get (s_ "keyof") [G k b u f] = Some (VFun FKeyOf). Proof. destruct (get_G k b u f) as (_ & _ & _ & _ & [H _] & _). exact H. Qed.
Lemma gG10 k b u f : vars_get (s_ "key") [G k b u f] = Some (VFun FKey). Proof. destruct (get_G k b u f) as (_ & _ & _ & _ & [_ H] & _). exact H. Qed.
Lemma gG11 k b u f : vars_get (s_ "search") [G k b u f] = Some (VFun FSearch). Proof. destruct (get_G k b u f) as (_ & _ & _ & _ & _ & H). exact H. Qed.
Global Hint Rewrite gG1 gG2 gG3 gG4 gG5 gG6 gG7 gG8 gG9 gG10 gG11 : gg.
Lemma get_nil {A} x (r : vars A) : vars_get x ([] :: r) = vars_get x r.
Proof. reflexivity. Qed.


Definition disk_key (o t f : Z) : value :=
  VStruct (s_ "btrfs_key") None [(s_ "objectid", VInt o); (s_ "type", VInt t); (s_ "offset", VInt f)].
Lemma checked_ok z : (- 2 ^ 100 < z < 2 ^ 100)%Z -> checked z = Some z.
Proof.
  intros H. destruct (checked_cases z) as [[_ Hc]|[Hn _]]; [exact Hc|]. elim Hn. unfold Spec_Arith.fits128.
  assert (2 ^ 100 < 2 ^ 127)%Z by reflexivity. lia.
Qed.

(** ** Expressions that neither search nor fail *)
Section Pure.
Context (E : env) (f : option fs) (vs : vars value).
Definition pure (e : expr) (v : value) : Prop := forall n w, eval_expr n E vs f e w = (w, Ok v).
Lemma p_int z : pure (EInt z) (VInt z). Proof. intros n w. reflexivity. Qed.
Lemma p_var x v : vars_get x vs = Some v -> pure (V x) v.
Proof. intros H n w. unfold V. cbn [eval_expr]. unfold mret. rewrite H. reflexivity. Qed.
Lemma p_paren e v : pure e v -> pure (EParen e) v.
Proof. intros H n w. cbn [eval_expr]. apply H. Qed.
Lemma p_field x fl v nm key fs : vars_get x vs = Some (VStruct nm key fs) -> assoc fl fs = Some v -> pure (F x fl) v.
Proof. intros H Ha n w. unfold F. cbn [eval_expr]. unfold mbind, mret. rewrite H. cbn [ok_or as_struct]. unfold get_field. rewrite Ha. reflexivity. Qed.
Lemma p_plus a b x y : pure a (VInt x) -> pure b (VInt y) -> (- 2 ^ 100 < x + y < 2 ^ 100)%Z -> pure (EBin OPlus a b) (VInt (x + y)).
Proof. intros Ha Hb Hz n w. cbn [eval_expr]. unfold mbind, mret. rewrite Ha, Hb. cbn [eval_plus]. rewrite checked_ok by exact Hz. reflexivity. Qed.
Lemma p_push a b l h v : pure a (VArr l h) -> pure b v -> pure (EBin OPlus a b) (VArr (l ++ [v]) h).
Proof. intros Ha Hb n w. cbn [eval_expr]. unfold mbind, mret. rewrite Ha, Hb. reflexivity. Qed.
Lemma p_ne a b x y : pure a (VInt x) -> pure b (VInt y) -> pure (EBin ONotEquals a b) (VBool (negb (x =? y)%Z)).
Proof. intros Ha Hb n w. cbn [eval_expr]. unfold mbind, mret. rewrite Ha, Hb. reflexivity. Qed.
Lemma p_eq a b x y : pure a (VInt x) -> pure b (VInt y) -> pure (EBin OEquals a b) (VBool (x =? y)%Z).
Proof. intros Ha Hb n w. cbn [eval_expr]. unfold mbind, mret. rewrite Ha, Hb. reflexivity. Qed.
Lemma p_op op a b x y v : pure a (VInt x) -> pure b (VInt y) -> eval_int_op op x y = Ok v ->
  match op with OPlus | OEquals | ONotEquals | OLogicalOr | OLogicalAnd => False | _ => True end -> pure (EBin op a b) v.
Proof. intros Ha Hb Hv Ho n w. destruct op; try contradiction; cbn [eval_expr]; unfold mbind, mret; rewrite Ha; cbn [as_integer]; rewrite Hb; cbn [as_integer]; rewrite Hv; reflexivity. Qed.
Lemma p_minus a b x y : pure a (VInt x) -> pure b (VInt y) -> (- 2 ^ 100 < x - y < 2 ^ 100)%Z -> pure (EBin OMinus a b) (VInt (x - y)).
Proof. intros Ha Hb Hz. apply p_op with x y; [exact Ha|exact Hb| |exact I]. cbn [eval_int_op]. rewrite checked_ok by exact Hz. reflexivity. Qed.
Lemma p_mult a b x y : pure a (VInt x) -> pure b (VInt y) -> (- 2 ^ 100 < x * y < 2 ^ 100)%Z -> pure (EBin OMultiply a b) (VInt (x * y)).
Proof. intros Ha Hb Hz. apply p_op with x y; [exact Ha|exact Hb| |exact I]. cbn [eval_int_op]. rewrite checked_ok by exact Hz. reflexivity. Qed.
Lemma p_lt a b x y : pure a (VInt x) -> pure b (VInt y) -> pure (EBin OLessThan a b) (VBool (x <? y)%Z).
Proof. intros Ha Hb. apply p_op with x y; [exact Ha|exact Hb|reflexivity|exact I]. Qed.
Lemma p_ge a b x y : pure a (VInt x) -> pure b (VInt y) -> pure (EBin OGreaterThanEquals a b) (VBool (x >=? y)%Z).
Proof. intros Ha Hb. apply p_op with x y; [exact Ha|exact Hb|reflexivity|exact I]. Qed.
Lemma p_and a b x y : pure a (VInt x) -> pure b (VInt y) -> pure (EBin OBitAnd a b) (VInt (Z.land x y)).
Proof. intros Ha Hb. apply p_op with x y; [exact Ha|exact Hb|reflexivity|exact I]. Qed.
Lemma p_div a b x y : pure a (VInt x) -> pure b (VInt y) -> (0 <= x < 2 ^ 100)%Z -> (0 < y)%Z -> pure (EBin ODivide a b) (VInt (x / y)).
Proof.
  intros Ha Hb Hx Hy. apply p_op with x y; [exact Ha|exact Hb| |exact I]. cbn [eval_int_op]. unfold checked_div.
  replace (y =? 0)%Z with false by lia. replace (y =? -1)%Z with false by lia. rewrite Bool.andb_false_r, Z.quot_div_nonneg by lia. reflexivity.
Qed.
Lemma p_not a x : pure a (VInt x) -> pure (EUn UNot a) (VBool (x =? 0)%Z).
Proof. intros Ha n w. cbn [eval_expr]. unfold mbind, mret. rewrite Ha. reflexivity. Qed.
Lemma p_keyof a o t l nm ms : vars_get (s_ "keyof") vs = Some (VFun FKeyOf) -> pure a (VStruct nm (Some (o, t, l)) ms) ->
  pure (call (s_ "keyof") [a]) (disk_key o t l).
Proof. intros H Ha n w. unfold call. cbn [eval_expr]. unfold mbind, mret. rewrite H. cbn [ok_or as_function]. rewrite Ha. cbn [as_struct]. rewrite make_disk_key_eq. reflexivity. Qed.
Lemma p_key a b c d x y z u : vars_get (s_ "key") vs = Some (VFun FKey) -> pure a (VInt x) -> pure b (VInt y) -> pure c (VInt z) -> pure d (VInt u) ->
  pure (call (s_ "key") [a; b; c; d]) (key_struct x y z u).
Proof.
  intros H Ha Hb Hc Hd n w. unfold call. cbn [eval_expr]. unfold mbind, mret. rewrite H. cbn [ok_or as_function].
  rewrite Ha. cbn [as_integer]. rewrite Hb. cbn [as_integer]. rewrite Hc. cbn [as_integer]. rewrite Hd. cbn [as_integer]. rewrite make_search_key_eq. reflexivity.
Qed.
End Pure.

(** ** Statements *)
Section Rules.
Context (E : env) (i : bool).
Lemma x_assign vs f w x e v vs' : pure E f vs e v -> vars_insert x v vs = Some vs' -> executes E i (mk_est vs f w) (SAssign (V x) e) (mk_est vs' f w) Ended.
Proof. intros He Hi. apply by_run with (n := 1) (r := IOk); [|reflexivity]. eapply do_assign; [apply He|exact Hi]. Qed.
Lemma x_field vs f w x fld e v nm key fs fs' vs' : pure E f vs e v -> vars_get x vs = Some (VStruct nm key fs) ->
  assoc_update fld (fun _ => Ok v) fs = Some (Ok fs') -> vars_replace x (VStruct nm key fs') vs = Some vs' ->
  executes E i (mk_est vs f w) (SAssign (F x fld) e) (mk_est vs' f w) Ended.
Proof. intros He Hg Hu Hr. apply by_run with (n := 1) (r := IOk); [|reflexivity]. eapply do_field; [apply He|exact Hg|exact Hu|exact Hr]. Qed.
Lemma x_if vs f w c tb fb b sc vs' w' q : pure E f ([] :: vs) c (VBool b) ->
  executes_list E i (mk_est ([] :: vs) f w) (if b then tb else fb) (mk_est (sc :: vs') f w') q ->
  executes E i (mk_est vs f w) (SIf c tb fb) (mk_est vs' f w') q.
Proof.
  intros Hc Hx. pose proof (ex_if E i c tb fb (mk_est vs f w) w b (mk_est (sc :: vs') f w') q) as H. apply H; [|exact Hx].
  apply evals_value. split; [discriminate|]. exists 0. apply Hc.
Qed.
Lemma x_if_no vs f w c tb : pure E f ([] :: vs) c (VBool false) -> executes E i (mk_est vs f w) (SIf c tb []) (mk_est vs f w) Ended.
Proof. intros Hc. eapply x_if; [exact Hc|]. apply xl_nil. Qed.
Lemma x_continue_if vs f w c : pure E f ([] :: vs) c (VBool true) -> executes E i (mk_est vs f w) (SIf c [SContinue] []) (mk_est vs f w) Continues.
Proof. intros Hc. eapply x_if; [exact Hc|]. apply xl_stop; [apply ex_continue|discriminate]. Qed.
End Rules.
Ltac step := eapply xl_next.

Section Inner.
Context (E : env) (i : bool) (f : option fs) (w : world).
Notation St vs := (mk_est vs f w).
Notation Fr l := (VArr (map VInt l) true).

Lemma inner_step o t len nm ms m2 m1 k b u fr last start glen :
  inside inner_names m2 -> inside outer_names m1 ->
  assoc (s_ "bg_start") m1 = Some (VInt start) -> assoc (s_ "bg_len") m1 = Some (VInt glen) -> assoc (s_ "last_end") m1 = Some (VInt last) ->
  (0 <= start < 2 ^ 64)%Z -> (0 <= glen < 2 ^ 64)%Z -> (0 <= last < 2 ^ 66)%Z -> (0 <= o < 2 ^ 64)%Z -> (0 <= len < 2 ^ 64)%Z ->
  (t = 168 -> o < start + glen)%Z ->
  exists m2'' m1' q, inside inner_names m2'' /\ inside outer_names m1' /\
    assoc (s_ "bg_start") m1' = Some (VInt start) /\ assoc (s_ "bg_len") m1' = Some (VInt glen) /\
    assoc (s_ "last_end") m1' = Some (VInt (if t =? 168 then o + len else last)%Z) /\ (q = Ended \/ q = Continues) /\
    executes_list E i (St [scope_insert (s_ "extent") (VStruct nm (Some (o, t, len)) ms) m2; m1; G k b u (Fr fr)]) inner_body
      (St [m2''; m1'; G k b u (Fr (fr ++ (if t =? 168 then if last <? o then [o - last] else [] else [])%Z))]) q.
Proof.
  intros I2 I1 As Al Ae Hs Hg Hl Ho Hlen Ht.
  set (m2' := scope_insert (s_ "extent") _ m2).
  assert (X2 : vars_get (s_ "extent") [m2'; m1; G k b u (Fr fr)] = Some (VStruct nm (Some (o, t, len)) ms)) by apply get_same.
  assert (I2' : inside inner_names m2') by (apply inside_insert; [exact I2|reflexivity]).
  clearbody m2'. clear I2 m2.
  set (m2'' := scope_insert (s_ "extent_key") (disk_key o t len) m2').
  assert (I2'' : inside inner_names m2'') by (apply inside_insert; [exact I2'|reflexivity]).
  assert (Ki : forall m r, vars_get (s_ "extent_key") ([] :: m2'' :: m :: r) = Some (disk_key o t len)) by (intros; apply get_same).
  assert (Kj : forall r, vars_get (s_ "extent_key") (m2'' :: r) = Some (disk_key o t len)) by (intros; apply get_same).
  assert (GF : forall sc, vars_get (s_ "BTRFS_EXTENT_ITEM_KEY") [[]; m2''; m1; sc] = vars_get (s_ "BTRFS_EXTENT_ITEM_KEY") [sc]).
  { intros sc. rewrite get_nil, get_out, get_out; [reflexivity|eapply inside_none; [exact I1|reflexivity]|eapply inside_none; [exact I2''|reflexivity]]. }
  assert (G1 : forall x v m r, existsb (str_eqb x) inner_names = false -> assoc x m = Some v -> vars_get x (m2'' :: m :: r) = Some v).
  { intros x v m r Hx Ha. rewrite get_out; [apply get_in; exact Ha|eapply inside_none; [exact I2''|exact Hx]]. }
  assert (S1 : executes E i (St [m2'; m1; G k b u (Fr fr)]) (SAssign (V (s_ "extent_key")) (call (s_ "keyof") [V (s_ "extent")])) (St [m2''; m1; G k b u (Fr fr)]) Ended).
  { apply x_assign with (v := disk_key o t len).
    - apply p_keyof with nm ms.
      + rewrite get_out, get_out; [apply gG9|eapply inside_none; [exact I1|reflexivity]|eapply inside_none; [exact I2'|reflexivity]].
      + apply p_var. exact X2.
    - apply ins_head. apply rep_none; [eapply inside_none; [exact I1|reflexivity]|apply rep_G_local; reflexivity]. }
  assert (C2 : pure E f [[]; m2''; m1; G k b u (Fr fr)] (EBin ONotEquals (F (s_ "extent_key") (s_ "type")) (V (s_ "BTRFS_EXTENT_ITEM_KEY"))) (VBool (negb (t =? 168)%Z))).
  { apply p_ne; [eapply p_field; [apply Ki|reflexivity]|apply p_var; rewrite GF; apply gG6]. }
  unfold inner_body. destruct (Z.eqb_spec t 168) as [->|Hne].
  2: { exists m2'', m1, Continues. do 5 (split; [assumption|]). split; [right; reflexivity|]. rewrite app_nil_r.
       step; [exact S1|]. apply xl_stop; [|discriminate]. apply x_continue_if. exact C2. }
  specialize (Ht eq_refl). change (negb (168 =? 168)%Z) with false in C2.
  set (m1' := scope_insert (s_ "last_end") (VInt (o + len)) m1).
  exists m2'', m1', Ended. split; [exact I2''|]. split; [apply inside_insert; [exact I1|reflexivity]|].
  split; [unfold m1'; rewrite assoc_insert; exact As|]. split; [unfold m1'; rewrite assoc_insert; exact Al|].
  split; [unfold m1'; rewrite assoc_insert; reflexivity|]. split; [left; reflexivity|].
  step; [exact S1|]. step; [apply x_if_no; exact C2|].
  step.
  { apply x_if_no. assert (Hge : (o >=? start + glen)%Z = false) by (clear -Ht; lia). enough (Hx : pure E f [[]; m2''; m1; G k b u (Fr fr)] (EBin OGreaterThanEquals (F (s_ "extent_key") (s_ "objectid")) (EBin OPlus (V (s_ "bg_start")) (V (s_ "bg_len")))) (VBool (o >=? start + glen)%Z)) by (rewrite Hge in Hx; exact Hx).
    apply p_ge; [eapply p_field; [apply Ki|reflexivity]|].
    apply p_plus; [apply p_var; apply G1; [reflexivity|exact As]|apply p_var; apply G1; [reflexivity|exact Al]|clear -Hs Hg; lia]. }
  set (f2 := Fr (fr ++ _)).
  step; [|step; [|apply xl_nil]].
  - instantiate (1 := St [m2''; m1; G k b u f2]).
    assert (CC : pure E f [[]; m2''; m1; G k b u (Fr fr)] (EBin OLessThan (V (s_ "last_end")) (F (s_ "extent_key") (s_ "objectid"))) (VBool (last <? o)%Z)).
    { apply p_lt; [apply p_var; apply G1; [reflexivity|exact Ae]|eapply p_field; [apply Ki|reflexivity]]. }
    unfold f2. destruct (last <? o)%Z eqn:Hlo; [|rewrite app_nil_r; apply x_if_no; exact CC].
    eapply x_if; [exact CC|]. cbv iota.
    set (m3 := scope_insert (s_ "free_bytes") (VInt (o - last)) []).
    step; [|step; [|apply xl_nil]].
    + eapply x_assign with (v := VInt (o - last)); [|apply (ins_head _ _ [])].
      * apply p_minus; [eapply p_field; [apply Ki|reflexivity]|apply p_var; apply G1; [reflexivity|exact Ae]|clear -Hl Ho; lia].
      * apply rep_none; [eapply inside_none; [exact I2''|reflexivity]|]. apply rep_none; [eapply inside_none; [exact I1|reflexivity]|]. apply rep_G_local. reflexivity.
    + rewrite map_app. apply x_assign with (v := VArr (map VInt fr ++ [VInt (o - last)]) true).
      * apply p_push; [|apply p_var; apply get_same]. apply p_var. rewrite get_out by reflexivity. rewrite get_out, get_out; [apply gG4|eapply inside_none; [exact I1|reflexivity]|eapply inside_none; [exact I2''|reflexivity]].
      * apply ins_rep. apply rep_out; [reflexivity|]. apply rep_out; [eapply inside_none; [exact I2''|reflexivity]|]. apply rep_out; [eapply inside_none; [exact I1|reflexivity]|]. apply rep_G_f.
  - eapply x_assign with (v := VInt (o + len)).
    + apply p_plus; [eapply p_field; [apply Kj|reflexivity]|eapply p_field; [apply Kj|reflexivity]|clear -Ho Hlen; lia].
    + apply ins_rep. apply rep_out; [eapply inside_none; [exact I2''|reflexivity]|]. eapply rep_here. exact Ae.
Qed.
End Inner.
