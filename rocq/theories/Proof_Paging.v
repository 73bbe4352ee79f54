(** Proofs for C92. *)
From Verif Require Import Base Structs Value Definitions Variables Fs Ast Eval Lib Demo_Search Spec_Search Proof_Search Proof_Search2 Properties_Search Spec_Still Proof_Still Spec_Paging.
From Coq Require Import Sorted Lia.
Arguments s_ s%string_scope.
Lemma klt_asym a b : klt a b -> ~ klt b a.
Proof. intros H1 H2. exact (klt_irrefl _ (klt_trans _ _ _ H1 H2)). Qed.
(** a sorted list whose elements come first in another one is a prefix of it *)
Lemma sorted_prefix : forall s a, StronglySorted klt (map key_of s) -> StronglySorted klt (map key_of a) -> (forall c, In c a -> In c s) ->
  (forall c, In c s -> In c a \/ forall i, In i a -> klt (key_of i) (key_of c)) -> exists post, s = a ++ post.
Proof.
  induction s as [|x s IH]; intros a Hs Ha Hin Hex.
  - destruct a as [|y a]; [exists []; reflexivity|]. elim (Hin y). left; reflexivity.
  - destruct a as [|y a]; [exists (x :: s); reflexivity|]. cbn [map] in Hs, Ha. apply StronglySorted_inv in Hs, Ha. destruct Hs as [Hs Fs], Ha as [Ha Fa]. rewrite Forall_forall in Fs, Fa.
    assert (X : x = y).
    { destruct (Hin y (or_introl eq_refl)) as [E|Hy]; [exact E|]. pose proof (Fs _ (in_map key_of _ _ Hy)) as L. destruct (Hex x (or_introl eq_refl)) as [[E|Hx]|Hx]; [congruence| |].
      - elim (klt_asym _ _ L (Fa _ (in_map key_of _ _ Hx))).
      - elim (klt_asym _ _ L (Hx y (or_introl eq_refl))). }
    subst y. destruct (IH a Hs Ha) as (post & ->); [| |exists post; reflexivity].
    + intros c Hc. destruct (Hin c (or_intror Hc)) as [E|H]; [|exact H]. subst c. elim (klt_irrefl _ (Fa _ (in_map key_of _ _ Hc))).
    + intros c Hc. destruct (Hex c (or_intror Hc)) as [[E|H]|H]; [|left; exact H|right; intros i Hi; apply H; right; exact Hi].
      subst c. elim (klt_irrefl _ (Fs _ (in_map key_of _ _ Hc))).
Qed.
Lemma cut_total d tree : StronglySorted klt (map key_of tree) -> exists before rest, cut_at d tree before rest.
Proof.
  induction tree as [|c tree IH]; cbn [map]; intros H.
  - exists [], []. split; [reflexivity|]. split; constructor.
  - apply StronglySorted_inv in H. destruct H as [H F]. rewrite Forall_forall in F. destruct (kltb (key_of c) d) eqn:L.
    + apply kltb_spec in L. destruct (IH H) as (b & r & -> & H1 & H2). exists (c :: b), r. split; [reflexivity|]. split; [constructor; assumption|exact H2].
    + assert (N : ~ klt (key_of c) d) by (rewrite <- kltb_spec, L; discriminate). exists [], (c :: tree). split; [reflexivity|]. split; [constructor|]. constructor; [exact N|].
      apply Forall_forall. intros x Hx HL. apply N. eapply klt_trans; [apply F; apply in_map; exact Hx|exact HL].
Qed.
Lemma cut_fun d tree b1 r1 b2 r2 : cut_at d tree b1 r1 -> cut_at d tree b2 r2 -> b1 = b2 /\ r1 = r2.
Proof.
  revert tree b2. induction b1 as [|c b1 IH]; intros tree b2 (-> & F1 & G1) (E & F2 & G2).
  - destruct b2 as [|x b2]; [auto|]. cbn in E. subst r1. inversion F2; subst. inversion G1; subst. contradiction.
  - destruct b2 as [|x b2].
    + cbn in E. subst r2. inversion F1; subst. inversion G2; subst. contradiction.
    + cbn in E. injection E as -> E. inversion F1; subst. inversion F2; subst. destruct (IH (b1 ++ r1) b2) as [-> ->]; [split; auto|split; auto|auto].
Qed.
Lemma open_range t d c : item_ok c -> (in_range (from_key t d) c <-> ~ klt (key_of c) d).
Proof.
  intros (H1 & H2 & H3 & H4 & _). unfold u in *. unfold in_range. destruct d as [[o ty] f]. unfold min_key, max_key, key_of, from_key, klt. cbn [fst snd sk_min_objectid sk_min_type sk_min_offset sk_max_objectid sk_max_type sk_max_offset sk_min_transid sk_max_transid].
  split; [tauto|]. intros N. split; [exact N|]. split; lia.
Qed.
Lemma sorted_app_l (a b : list chunk) : StronglySorted klt (map key_of (a ++ b)) -> StronglySorted klt (map key_of b).
Proof. rewrite map_app. intros H. apply sorted_app_inv in H. tauto. Qed.
(** what an open search finds *)
Lemma open_finds E fd forest e t d l : still E fd forest -> tree_ok (forest t) -> finds E fd e (from_key t d) l ->
  exists before page post, cut_at d (forest t) before (page ++ post) /\ shown (overflow_checks E) page l /\ (page = [] -> post = []).
Proof.
  intros HS [Ho Hok] (K & vs & w & tree & key & flds & w2 & w' & Hc & Hk & Hr & He).
  destruct (C38_results_are_the_decoded_items _ _ _ _ _ _ _ _ _ _ _ _ _ Hc Hk Hr He) as (items & w1 & l' & Hf & Hv & Hsh). injection Hv as <-.
  assert (Hreq : request_ok (from_key t d)) by (unfold requested in Hr; tauto).
  assert (Hub : ~ bounded (from_key t d)) by (unfold bounded, from_key; cbn; intros [H|[H|[H|H]]]; apply H; reflexivity).
  destruct (C36_unbounded_search_returns_everything_partial K E fd _ (from_key t d) w2 w1 items HS Hreq Hub Hf) as (_ & (A1 & A2 & _ & A4) & _).
  destruct (cut_total d (forest t) Ho) as (before & rest & Hcut). destruct Hcut as (Et & F1 & F2). cbn [sk_tree from_key] in *.
  assert (Sr : StronglySorted klt (map key_of rest)) by (rewrite Et in Ho; apply sorted_app_l in Ho; exact Ho).
  assert (R : forall c, In c rest -> in_range (from_key t d) c).
  { intros c H. rewrite Forall_forall in Hok, F2. apply open_range; [apply Hok; rewrite Et; apply in_or_app; right; exact H|apply F2; exact H]. }
  destruct (sorted_prefix rest items Sr A1) as (post & Ep).
  - intros c H. destruct (A2 c H) as (I1 & I2 & st & -> & I3). rewrite Et in I3. apply in_app_or in I3. destruct I3 as [I3|I3]; [|exact I3].
    rewrite Forall_forall in F1. apply (open_range t d c I1) in I2. elim (I2 (F1 c I3)).
  - intros c H. destruct (A4 c (R c H)) as [I|[_ I]]; [intros st ->; rewrite Et; apply in_or_app; right; exact H|left; exact I|right; exact I].
  - exists before, items, post. split; [split; [rewrite <- Ep; exact Et|split; [exact F1|rewrite <- Ep; exact F2]]|]. split; [exact Hsh|].
    intros ->. destruct post as [|c post]; [reflexivity|]. cbn in Ep. destruct (A4 c) as [I|[I _]]; [apply R; rewrite Ep; left; reflexivity|intros st ->; rewrite Et, Ep; apply in_or_app; right; left; reflexivity|destruct I|elim I; reflexivity].
Qed.
(** ** Elements and items *)
Lemma shown_in oc items l v : shown oc items l -> In v l -> exists c, In c items /\ shown oc [c] [v].
Proof.
  induction 1 as [|h b cs vs Hu Hs IH|h b cs vs pre s post v0 He Hp Hx Hv Hs IH]; intros Hi; [destruct Hi| |].
  - destruct (IH Hi) as (c & H1 & H2). exists c. split; [right; exact H1|exact H2].
  - destruct Hi as [->|Hi].
    + exists (h, b). split; [left; reflexivity|]. eapply shown_item; try eassumption. constructor.
    + destruct (IH Hi) as (c & H1 & H2). exists c. split; [right; exact H1|exact H2].
Qed.
Lemma shown_glue oc a b la lb : shown oc a la -> shown oc b lb -> shown oc (a ++ b) (la ++ lb).
Proof.
  induction 1 as [|h c cs vs Hu Hs IH|h c cs vs pre s post v0 He Hp Hx Hv Hs IH]; intros Hb; cbn [app]; [exact Hb|apply shown_unknown; auto|eapply shown_item; eauto].
Qed.
Lemma item_raw c : item_ok c -> raw_item c.
Proof. unfold item_ok, raw_item, u. intros H. repeat split; try tauto; lia. Qed.
Lemma shown_single oc c v : item_ok c -> shown oc [c] [v] -> exists n ms, v = VStruct n (Some (key_of c)) ms.
Proof.
  intros Hc H. destruct (shown_keys oc [c] [v]) as (known & E & K & F); [constructor; [apply item_raw; exact Hc|constructor]|exact H|].
  destruct known as [|[c' v'] known]; [discriminate|]. injection E as <- E. destruct known as [|x y]; [|discriminate].
  assert (c' = c) as ->. { assert (X : In c' (map fst [(c', v)])) by (left; reflexivity). rewrite F in X. apply filter_In in X. destruct X as [[X|[]] _]. symmetry. exact X. }
  destruct (K c v (or_introl eq_refl)) as (s & ms & _ & -> & _). eauto.
Qed.
Lemma known_one oc c l : known_item c -> shown oc [c] l -> exists v, l = [v].
Proof.
  intros (s & Hs & Hk) H. inversion H as [|h b cs vs Hu Hr|h b cs vs pre s' post v He Hp Hx Hv Hr]; subst.
  - cbn [fst] in Hk. rewrite (Hu s Hs) in Hk. discriminate.
  - inversion Hr; subst. eauto.
Qed.
Lemma known_nil oc items : Forall known_item items -> shown oc items [] -> items = [].
Proof.
  intros F H. destruct items as [|c items]; [reflexivity|]. inversion F; subst. destruct (shown_app oc [c] items [] H) as (la & lb & E & H1 & _). destruct (known_one _ _ _ ltac:(eassumption) H1) as (v & ->). discriminate.
Qed.
Lemma known_last oc items l v : Forall known_item items -> shown oc items (l ++ [v]) -> exists a c, items = a ++ [c] /\ shown oc a l /\ shown oc [c] [v].
Proof.
  intros F H. destruct items as [|c items _] using rev_ind; [inversion H; destruct l; discriminate|]. apply Forall_app in F. destruct F as [F1 F2]. inversion F2; subst.
  destruct (shown_app oc items [c] _ H) as (la & lb & E & H1 & H2'). destruct (known_one _ _ _ ltac:(eassumption) H2') as (v' & ->). apply app_inj_tail in E. destruct E as [-> ->]. eauto.
Qed.
(** whatever a search finds is an item of the tree *)
Lemma finds_items E fd forest e k l v : still E fd forest -> finds E fd e k l -> In v l ->
  exists c, In c (forest (sk_tree k)) /\ shown (overflow_checks E) [c] [v].
Proof.
  intros HS (K & vs & w & tree & key & flds & w2 & w' & Hc & Hk & Hr & He) Hv.
  assert (Hreq : request_ok k) by (unfold requested in Hr; tauto).
  assert (Q : exists items, shown (overflow_checks E) items l /\ forall c, In c items -> In c (forest (sk_tree k))).
  { assert (D : bounded k \/ ~ bounded k) by (unfold bounded; lia). destruct D as [D|D].
    - destruct (C35_bounded_search_is_complete _ _ _ _ _ _ _ _ _ _ _ _ _ _ HS Hc Hk Hr D He) as (items & l' & Ev & Hsh & (_ & H2 & _)). injection Ev as <-.
      exists items. split; [exact Hsh|]. intros c H. destruct (H2 c H) as (_ & n & st & _ & -> & H3). exact H3.
    - destruct (C38_results_are_the_decoded_items _ _ _ _ _ _ _ _ _ _ _ _ _ Hc Hk Hr He) as (items & w1 & l' & Hf & Ev & Hsh). injection Ev as <-.
      destruct (C36_unbounded_search_returns_everything_partial K E fd _ k w2 w1 items HS Hreq D Hf) as (_ & (_ & A2 & _) & _).
      exists items. split; [exact Hsh|]. intros c H. destruct (A2 c H) as (_ & _ & st & -> & H3). exact H3. }
  destruct Q as (items & Hsh & Hin). destruct (shown_in _ _ _ _ Hsh Hv) as (c & H1 & H2). eauto.
Qed.
(** ** An item and what follows it *)
Lemma cut_here c before after : StronglySorted klt (map key_of (before ++ c :: after)) -> cut_at (key_of c) (before ++ c :: after) before (c :: after).
Proof.
  rewrite map_app. intros H. apply sorted_app_inv in H. destruct H as (_ & H2 & H3). cbn [map] in *. apply StronglySorted_inv in H2. destruct H2 as [_ F]. rewrite Forall_forall in F.
  split; [reflexivity|]. split.
  - apply Forall_forall. intros x Hx. apply H3; [apply in_map; exact Hx|left; reflexivity].
  - constructor; [apply klt_irrefl|]. apply Forall_forall. intros x Hx. apply klt_asym. apply F. apply in_map. exact Hx.
Qed.
Lemma klt_succ d o t f : klt d (o, t, f + 1)%Z <-> klt d (o, t, f) \/ d = (o, t, f).
Proof.
  destruct d as [[a b] c]. unfold klt. split; [|intros [H|H]; [lia|injection H as -> -> ->; lia]]. intros H.
  assert (D : (a < o \/ (a = o /\ (b < t \/ (b = t /\ c < f))) \/ (a = o /\ b = t /\ c = f))%Z) by lia. destruct D as [D|[D|(-> & -> & ->)]]; [left; lia|left; lia|right; reflexivity].
Qed.
Lemma cut_behind c o t f before after : StronglySorted klt (map key_of (before ++ c :: after)) -> key_of c = (o, t, f) ->
  cut_at (o, t, f + 1)%Z (before ++ c :: after) (before ++ [c]) after.
Proof.
  intros H K. destruct (cut_here c before after H) as (_ & F1 & _). split; [rewrite <- app_assoc; reflexivity|]. split.
  - apply Forall_app. split; [|constructor; [apply klt_succ; right; exact K|constructor]]. eapply Forall_impl; [|exact F1]. intros x Hx. apply klt_succ. left. rewrite <- K. exact Hx.
  - apply sorted_app_l in H. cbn [map] in H. apply StronglySorted_inv in H. destruct H as [_ F]. apply Forall_forall. intros x Hx. rewrite Forall_forall in F.
    specialize (F _ (in_map key_of _ _ Hx)). rewrite klt_succ, <- K. intros [L|L]; [exact (klt_asym _ _ F L)|]. rewrite L in F. exact (klt_irrefl _ F).
Qed.
Lemma found_again E fd forest e k l n d ms e2 l2 : still E fd forest -> tree_ok (forest (sk_tree k)) ->
  finds E fd e k l -> In (VStruct n (Some d) ms) l -> finds E fd e2 (from_key (sk_tree k) d) l2 -> exists l', l2 = VStruct n (Some d) ms :: l'.
Proof.
  intros HS HT H1 Hv H2. destruct (finds_items _ _ _ _ _ _ _ HS H1 Hv) as (c & Hc & Sc). destruct HT as [Ho Hok].
  assert (Kc : key_of c = d). { destruct (shown_single _ c _ (proj1 (Forall_forall _ _) Hok c Hc) Sc) as (n' & ms' & E'). injection E' as _ E' _. symmetry. exact E'. }
  destruct (open_finds E fd forest e2 (sk_tree k) d l2 HS (conj Ho Hok) H2) as (before & page & post & Hcut & Hsh & Hend).
  apply in_split in Hc. destruct Hc as (b & a & Et). rewrite Et in Ho, Hcut. pose proof (cut_here c b a Ho) as Hcut2. rewrite Kc in Hcut2. destruct (cut_fun _ _ _ _ _ _ Hcut Hcut2) as [-> Er].
  destruct page as [|c' page]; [rewrite (Hend eq_refl) in Er; discriminate|]. injection Er as -> _. destruct (shown_app _ [c] page l2 Hsh) as (la & lb & -> & S1 & _).
  rewrite (shown_fun _ _ _ _ S1 Sc). eexists. reflexivity.
Qed.
Lemma found_next E fd forest e t l o ty f before c after : still E fd forest -> tree_ok (forest t) -> forest t = before ++ c :: after -> key_of c = (o, ty, f) ->
  finds E fd e (from_key t (o, ty, f + 1)%Z) l -> exists page post, after = page ++ post /\ shown (overflow_checks E) page l /\ (page = [] -> post = []).
Proof.
  intros HS HT Et K H. destruct (open_finds _ _ _ _ _ _ _ HS HT H) as (b & page & post & Hcut & Hsh & Hend). destruct HT as [Ho _]. rewrite Et in Ho, Hcut.
  destruct (cut_fun _ _ _ _ _ _ Hcut (cut_behind _ _ _ _ _ _ Ho K)) as [_ <-]. eauto.
Qed.
Definition known_from (tree : list chunk) (d : dkey) : Prop := forall c, In c tree -> ~ klt (key_of c) d -> known_item c.
Lemma cut_known d tree before rest : cut_at d tree before rest -> known_from tree d -> Forall known_item rest.
Proof.
  intros (-> & _ & F) HK. apply Forall_forall. intros c Hc. rewrite Forall_forall in F. apply HK; [apply in_or_app; right; exact Hc|apply F; exact Hc].
Qed.
Lemma pages_all E fd forest t : still E fd forest -> tree_ok (forest t) -> forall d ls, pages E fd t d ls -> known_from (forest t) d ->
  exists before rest, cut_at d (forest t) before rest /\ shown (overflow_checks E) rest (concat ls).
Proof.
  intros HS HT d ls H. induction H as [d e H|d e l n o ty f ms ls H _ IH]; intros HK.
  - destruct (open_finds _ _ _ _ _ _ _ HS HT H) as (b & page & post & Hcut & Hsh & Hend). exists b, (page ++ post). split; [exact Hcut|].
    assert (P : page = []). { apply (known_nil (overflow_checks E)); [|exact Hsh]. pose proof (cut_known _ _ _ _ Hcut HK) as F. apply Forall_app in F. tauto. }
    rewrite P, (Hend P). constructor.
  - destruct (open_finds _ _ _ _ _ _ _ HS HT H) as (b & page & post & Hcut & Hsh & _). exists b, (page ++ post). split; [exact Hcut|]. cbn [concat]. apply shown_glue; [exact Hsh|].
    assert (HKp : Forall known_item page) by (pose proof (cut_known _ _ _ _ Hcut HK) as F; apply Forall_app in F; tauto). destruct Hcut as (Et & _ & Fr).
    destruct (known_last _ _ _ _ HKp Hsh) as (a & c & -> & _ & Sc). destruct HT as [Ho Hok].
    assert (Kc : key_of c = (o, ty, f)).
    { assert (Ic : item_ok c) by (rewrite Forall_forall in Hok; apply Hok; rewrite Et, !in_app_iff; cbn; tauto). destruct (shown_single _ c _ Ic Sc) as (n' & ms' & E'). inversion E'; reflexivity. }
    assert (Nc : ~ klt (o, ty, f) d) by (rewrite <- Kc; rewrite Forall_forall in Fr; apply Fr; rewrite !in_app_iff; cbn; tauto).
    destruct IH as (b2 & r2 & Hcut2 & Hsh2).
    { intros x Hx Nx. apply HK; [exact Hx|]. intros L. apply Nx. apply klt_succ. left. destruct (klt_total d (o, ty, f)) as [Q|[<-|Q]]; [eapply klt_trans; eassumption|exact L|elim (Nc Q)]. }
    assert (Et2 : forest t = (b ++ a) ++ c :: post) by (rewrite Et, <- !app_assoc; reflexivity). rewrite Et2 in Ho, Hcut2.
    destruct (cut_fun _ _ _ _ _ _ Hcut2 (cut_behind _ _ _ _ _ _ Ho Kc)) as [_ <-]. exact Hsh2.
Qed.
(** ** The expression *)
Definition field_of (x name : str) : expr := EField (ECall (EIdent (s_ "keyof")) [EIdent x]) (EIdent name).
Definition again_call (t : Z) (x : str) : expr :=
  ECall (EIdent (s_ "search")) [EInt t; ECall (EIdent (s_ "key")) [field_of x (s_ "objectid"); field_of x (s_ "type"); field_of x (s_ "offset"); EInt 0]].
Lemma again_key K E vs f x n o ty fo ms w : vars_get (s_ "key") vs = Some (VFun FKey) -> vars_get (s_ "keyof") vs = Some (VFun FKeyOf) -> vars_get x vs = Some (VStruct n (Some (o, ty, fo)) ms) ->
  eval_expr K E vs f (ECall (EIdent (s_ "key")) [field_of x (s_ "objectid"); field_of x (s_ "type"); field_of x (s_ "offset"); EInt 0]) w = (w, Ok (key_struct o ty fo 0)).
Proof.
  intros Hk Hko Hx.
  assert (F : forall name z, In (name, z) [(s_ "objectid", o); (s_ "type", ty); (s_ "offset", fo)] -> eval_expr K E vs f (field_of x name) w = (w, Ok (VInt z))).
  { intros name z Hi. pose proof (C57_keyof_gives_the_key K E vs f (EIdent x) w w n (Some (o, ty, fo)) ms Hko) as G. unfold field_of. remember (ECall (EIdent (s_ "keyof")) [EIdent x]) as c eqn:Ec.
    cbn [eval_expr]. unfold mbind, mret. rewrite G; [|cbn [eval_expr]; unfold mret; rewrite Hx; reflexivity]. destruct Hi as [Hi|[Hi|[Hi|[]]]]; injection Hi as <- <-; reflexivity. }
  apply (C57_key_builds_the_search_key K E vs f _ _ _ _ w w w w w); [exact Hk|apply F; left; reflexivity|apply F; right; left; reflexivity|apply F; right; right; left; reflexivity|reflexivity].
Qed.
Lemma again_calls K E vs fd t x n o ty fo ms w :
  vars_get (s_ "search") vs = Some (VFun FSearch) -> vars_get (s_ "key") vs = Some (VFun FKey) -> vars_get (s_ "keyof") vs = Some (VFun FKeyOf) ->
  vars_get x vs = Some (VStruct n (Some (o, ty, fo)) ms) -> u 64 t -> u 64 o -> u 8 ty -> u 64 fo ->
  exists flds, calls_search K E vs (Some (FsMounted fd)) (again_call t x) w t (key_struct o ty fo 0) w /\ is_search_key (key_struct o ty fo 0) flds /\ requested t flds (from_key t (o, ty, fo)).
Proof.
  intros Hs Hk Hko Hx U1 U2 U3 U4. unfold u in *. exists [(s_ "min_objectid", VInt o); (s_ "max_objectid", VInt (2 ^ 64 - 1)); (s_ "min_type", VInt ty); (s_ "max_type", VInt 255);
     (s_ "min_offset", VInt fo); (s_ "max_offset", VInt (2 ^ 64 - 1)); (s_ "min_transid", VInt 0); (s_ "max_transid", VInt (2 ^ 64 - 1))].
  split; [|split; [eexists; reflexivity|]].
  - eexists _, _, _, w, w. split; [reflexivity|]. split; [cbn [eval_expr]; unfold mret; rewrite Hs; reflexivity|]. split; [reflexivity|]. apply again_key with (n := n) (ms := ms); assumption.
  - unfold requested, request_ok, key_field, from_key, u. cbn [sk_tree sk_min_objectid sk_max_objectid sk_min_type sk_max_type sk_min_offset sk_max_offset sk_min_transid sk_max_transid fst snd].
    repeat (split; [reflexivity|]). repeat split; try lia; try reflexivity; try discriminate; tauto.
Qed.
Lemma again_first K E vs fd forest e k l n o ty fo ms x w w' v : still E fd forest -> tree_ok (forest (sk_tree k)) ->
  finds E fd e k l -> In (VStruct n (Some (o, ty, fo)) ms) l ->
  vars_get (s_ "search") vs = Some (VFun FSearch) -> vars_get (s_ "key") vs = Some (VFun FKey) -> vars_get (s_ "keyof") vs = Some (VFun FKeyOf) ->
  vars_get x vs = Some (VStruct n (Some (o, ty, fo)) ms) ->
  eval_expr K E vs (Some (FsMounted fd)) (EIndex (again_call (sk_tree k) x) (EInt 0)) w = (w', Ok v) -> v = VStruct n (Some (o, ty, fo)) ms.
Proof.
  intros HS HT HF Hv Hs Hk Hko Hx H.
  assert (U : u 64 (sk_tree k)) by (destruct HF as (? & ? & ? & ? & ? & ? & ? & ? & _ & _ & HR & _); unfold requested, request_ok in HR; tauto).
  destruct (finds_items _ _ _ _ _ _ _ HS HF Hv) as (c & Hc & Sc).
  assert (Ic : item_ok c) by (destruct HT as [_ Hok]; rewrite Forall_forall in Hok; apply Hok; exact Hc).
  destruct (shown_single _ c _ Ic Sc) as (n' & ms' & E'). assert (Kc : key_of c = (o, ty, fo)) by (inversion E'; reflexivity). clear E'. unfold key_of in Kc. injection Kc as Ko Kt Kf.
  destruct Ic as (_ & I2 & I3 & I4 & _). rewrite Ko in I2. rewrite Kf in I3. rewrite Kt in I4.
  remember (again_call (sk_tree k) x) as e1 eqn:Ee. cbn [eval_expr] in H. unfold mbind, mret in H.
  destruct (eval_expr K E vs (Some (FsMounted fd)) e1 w) as [w1 [v1| | |]] eqn:He1; try discriminate. subst e1.
  destruct (again_calls K E vs fd (sk_tree k) x n o ty fo ms w Hs Hk Hko Hx U I2 I4 I3) as (flds & A & B & C).
  destruct (C38_results_are_the_decoded_items _ _ _ _ _ _ _ _ _ _ _ _ _ A B C He1) as (items & w2 & l2 & _ & -> & _).
  assert (F2 : finds E fd (again_call (sk_tree k) x) (from_key (sk_tree k) (o, ty, fo)) l2) by (exists K, vs, w, (sk_tree k), (key_struct o ty fo 0), flds, w, w1; auto).
  destruct (found_again _ _ _ _ _ _ _ _ _ _ _ HS HT HF Hv F2) as (l' & ->).
  cbn [as_vec as_integer] in H. change (try_into_u 64 0) with (@Ok Z 0%Z) in H. cbv beta iota in H.
  assert (Z0 : (0 <? zlen (VStruct n (Some (o, ty, fo)) ms :: l'))%Z = true) by (apply Z.ltb_lt; unfold zlen; cbn [length]; lia). rewrite Z0 in H. cbn in H. injection H as _ <-. reflexivity.
Qed.
(** every search but the last one finds something *)
Lemma shown_few oc items l : shown oc items l -> length l <= length items.
Proof. induction 1; cbn [length]; lia. Qed.
Lemma pages_few E fd t d ls : pages E fd t d ls -> length ls <= length (concat ls).
Proof. induction 1; cbn [length concat]; rewrite ?app_length in *; cbn [length] in *; rewrite ?app_length in *; cbn [length] in *; lia. Qed.
