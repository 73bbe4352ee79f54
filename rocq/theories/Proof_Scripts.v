(** C76: lemmas.  The scripts are run symbolically, statement by statement, with the rules of C65;
    the loops by induction over the items a search returns. *)
From Verif Require Import Base Ast Pom Parse Structs Definitions Value Variables Semantics Fs Eval Runtime Input Main Lib Spec_Vars Spec_Decode Spec_Search Spec_Hist Spec_Run Spec_Lang Spec_Exec Spec_Layout Spec_Still Spec_Scripts
  Proof_Vars Proof_Decode Proof_Search Proof_Search2 Proof_Run Proof_Hist Proof_Lang Proof_Exec Proof_Layout Proof_Still Proof_Access Demo_Search.
Import Spec_Search.
From Coq Require Import Sorted Lia.
Arguments s_ s%string_scope.

(** ** Scopes *)
Lemma assoc_insert {A} x y (v : A) m : assoc x (scope_insert y v m) = if str_eqb y x then Some v else assoc x m.
Proof.
  destruct (str_eqb y x) eqn:H.
  - apply str_eqb_eq in H. subst y. apply assoc_insert_eq.
  - apply str_eqb_neq in H. apply assoc_insert_neq. congruence.
Qed.
Definition inside (names : list str) (m : scope value) : Prop := forall x, assoc x m <> None -> existsb (str_eqb x) names = true.
Lemma inside_nil names : inside names [].
Proof. intros x H. elim H. reflexivity. Qed.
Lemma inside_insert names x v m : inside names m -> existsb (str_eqb x) names = true -> inside names (scope_insert x v m).
Proof. intros H Hx y. rewrite assoc_insert. destruct (str_eqb x y) eqn:E; [apply str_eqb_eq in E; subst y; auto|apply H]. Qed.
Lemma inside_none names x m : inside names m -> existsb (str_eqb x) names = false -> assoc x m = None.
Proof. intros H Hx. destruct (assoc x m) eqn:E; [|reflexivity]. rewrite (H x) in Hx; congruence. Qed.

Lemma get_same {A} x (v : A) m r : vars_get x (scope_insert x v m :: r) = Some v.
Proof. cbn. rewrite assoc_insert, str_eqb_refl. reflexivity. Qed.
Lemma get_other {A} x y (v : A) m r : str_eqb y x = false -> vars_get x (scope_insert y v m :: r) = vars_get x (m :: r).
Proof. intros H. cbn. rewrite assoc_insert, H. reflexivity. Qed.
Lemma get_out {A} x (m : scope A) r : assoc x m = None -> vars_get x (m :: r) = vars_get x r.
Proof. intros H. cbn. rewrite H. reflexivity. Qed.
Lemma get_in {A} x (m : scope A) v r : assoc x m = Some v -> vars_get x (m :: r) = Some v.
Proof. intros H. cbn. rewrite H. reflexivity. Qed.
Lemma ins_head {A} x (v : A) m r : vars_replace x v r = None -> vars_insert x v (m :: r) = Some (scope_insert x v m :: r).
Proof. intros H. unfold vars_insert. cbn. destruct (assoc x m); [reflexivity|]. rewrite H. reflexivity. Qed.
Lemma rep_here {A} x (v a : A) m r : assoc x m = Some a -> vars_replace x v (m :: r) = Some (scope_insert x v m :: r).
Proof. intros H. cbn. rewrite H. reflexivity. Qed.
Lemma rep_out {A} x (v : A) m r r' : assoc x m = None -> vars_replace x v r = Some r' -> vars_replace x v (m :: r) = Some (m :: r').
Proof. intros H H'. cbn. rewrite H, H'. reflexivity. Qed.
Lemma rep_none {A} x (v : A) m r : assoc x m = None -> vars_replace x v r = None -> vars_replace x v (m :: r) = None.
Proof. intros H H'. cbn. rewrite H, H'. reflexivity. Qed.
Lemma ins_rep {A} x (v : A) m m' : vars_replace x v m = Some m' -> vars_insert x v m = Some m'.
Proof. intros H. unfold vars_insert. rewrite H. reflexivity. Qed.

(** ** Statements *)
Section Steps.
Context (E : env) (i : bool).
Notation St vs f w := (mk_est vs f w).
Lemma by_run n s st s' r q : eval_stmt n E i s st = (s', r) -> ends r = Some q -> executes E i s st s' q.
Proof. intros H Hq. apply exec_iff. exists r. split; [|exact Hq]. split; [intros ->; discriminate|]. exists n. exact H. Qed.
Lemma by_run_list n s l s' r q : run_list (eval_stmt n E i) s l = (s', r) -> ends r = Some q -> executes_list E i s l s' q.
Proof. intros H Hq. apply exec_list_iff. exists r. split; [|exact Hq]. split; [intros ->; discriminate|]. exists n. exact H. Qed.
Lemma xl_app s l1 s1 l2 s' q : executes_list E i s l1 s1 Ended -> executes_list E i s1 l2 s' q -> executes_list E i s (l1 ++ l2) s' q.
Proof.
  revert s. induction l1 as [|x l1 IH]; intros s H1 H2; cbn.
  - inversion H1; subst. exact H2.
  - inversion H1; subst; [|congruence]. econstructor; eauto.
Qed.
Lemma xl_app_stop s l1 l2 s' q : executes_list E i s l1 s' q -> q <> Ended -> executes_list E i s (l1 ++ l2) s' q.
Proof.
  revert s. induction l1 as [|x l1 IH]; intros s H1 H2; cbn.
  - inversion H1; subst. congruence.
  - inversion H1; subst; [econstructor; eauto|apply xl_stop; assumption].
Qed.
Lemma run_cons n s x l s1 : eval_stmt n E i s x = (s1, IOk) -> run_list (eval_stmt n E i) s (x :: l) = run_list (eval_stmt n E i) s1 l.
Proof. intros H. cbn [run_list]. rewrite H. reflexivity. Qed.
Lemma run_stop n s x l s1 q : eval_stmt n E i s x = (s1, q) -> q <> IOk -> run_list (eval_stmt n E i) s (x :: l) = (s1, q).
Proof. intros H Hq. cbn [run_list]. rewrite H. destruct q; congruence. Qed.
Lemma do_assign n vs f w x e v vs' : eval_expr n E vs f e w = (w, Ok v) -> vars_insert x v vs = Some vs' ->
  eval_stmt (S n) E i (St vs f w) (SAssign (EIdent x) e) = (St vs' f w, IOk).
Proof. intros He Hi. cbn [eval_stmt]. unfold with_expr. cbn [e_vars e_fs e_w]. rewrite He. unfold est_insert. cbn [with_w e_vars]. rewrite Hi. reflexivity. Qed.
Lemma do_field n vs f w x fld e v nm key fs fs' vs' : eval_expr n E vs f e w = (w, Ok v) -> vars_get x vs = Some (VStruct nm key fs) ->
  assoc_update fld (fun _ => Ok v) fs = Some (Ok fs') -> vars_replace x (VStruct nm key fs') vs = Some vs' ->
  eval_stmt (S n) E i (St vs f w) (SAssign (EField (EIdent x) (EIdent fld)) e) = (St vs' f w, IOk).
Proof.
  intros He Hg Hu Hr. cbn [eval_stmt]. unfold with_expr. cbn [e_vars e_fs e_w]. rewrite He. cbn [with_w e_vars e_fs e_w lhs_assign]. unfold mret.
  rewrite Hg. cbn [ok_or bind]. rewrite Hu. cbn [bind]. rewrite Hr. reflexivity.
Qed.
Lemma do_if n vs f w c tb fb b sc vs' w' q : eval_expr n E ([] :: vs) f c w = (w, Ok (VBool b)) ->
  run_list (eval_stmt n E i) (St ([] :: vs) f w) (if b then tb else fb) = (St (sc :: vs') f w', q) ->
  eval_stmt (S n) E i (St vs f w) (SIf c tb fb) = (St vs' f w', q).
Proof.
  intros He Hr. cbn [eval_stmt]. unfold in_scope, with_expr, with_vars, push_scope. cbn [e_vars e_fs e_w]. rewrite He. cbn [as_boolean]. unfold with_w. cbn [e_vars e_fs e_w].
  rewrite Hr. reflexivity.
Qed.
(** a printed string or number *)
Lemma do_print n vs f w e v txt : (forall k t, sink E k t = SkOk) -> eval_expr n E vs f e w = (w, Ok v) -> print_text n (overflow_checks E) v = Ok txt ->
  eval_stmt (S n) E i (St vs f w) (SPrint e) = (St vs f (mk_world (w_log w ++ [EvWrite (txt ++ nl)]) (w_out w ++ txt ++ nl)), IOk).
Proof. intros Hs He Hp. cbn [eval_stmt]. unfold with_expr. cbn [e_vars e_fs e_w]. rewrite He, Hp. unfold do_write. cbn [with_w e_w]. rewrite Hs. reflexivity. Qed.
End Steps.

(** ** Searching *)
Lemma num_le n z : (0 <= z < 2 ^ (8 * Z.of_nat n))%Z -> num (le_bytes n z) = z.
Proof.
  revert z. induction n as [|n IH]; intros z Hz.
  - cbn in *. lia.
  - cbn [le_bytes num]. rewrite IH.
    + pose proof (Z.mod_pos_bound z 256 ltac:(lia)). rewrite Z2N.id by lia. pose proof (Z_div_mod_eq_full z 256). lia.
    + split; [apply Z.div_pos; lia|]. apply Z.div_lt_upper_bound; [lia|]. replace (8 * Z.of_nat (S n))%Z with (8 + 8 * Z.of_nat n)%Z in Hz by lia. rewrite Z.pow_add_r in Hz by lia. lia.
Qed.
Lemma shown_all oc items : (forall c, In c items -> exists l, shown oc [c] l) -> exists l, shown oc items l.
Proof.
  induction items as [|c items IH]; intros H; [exists []; constructor|].
  destruct IH as [l Hl]; [intros d Hd; apply H; right; exact Hd|]. destruct (H c (or_introl eq_refl)) as [l1 H1].
  inversion H1 as [|h b cs vs HN HT|h b cs vs pre s post v HS HP HK HB HT]; subst.
  - exists l. constructor; assumption.
  - exists (v :: l). econstructor; eassumption.
Qed.

Section Search.
Context (E : env) (fd : Z) (forest : Z -> list chunk) (HE : still E fd forest) (Hno : forall n k, ioctl E n fd k <> IoErr).
(** a search of tree t for k finds the items in range, and prints nothing *)
Lemma search_value vs w e tree key flds k :
  calls_search 0 E vs (Some (FsMounted fd)) e w tree key w -> is_search_key key flds -> requested tree flds k -> bounded k ->
  StronglySorted klt (map key_of (forest (sk_tree k))) ->
  (forall c, In c (forest (sk_tree k)) -> (exists l, shown (overflow_checks E) [c] l) /\ h_offset (fst c) <> (2 ^ 64 - 1)%Z) ->
  exists w' l K0, w_out w' = w_out w /\ shown (overflow_checks E) (filter (in_rangeb k) (forest (sk_tree k))) l /\
    forall K, K0 <= K -> eval_expr K E vs (Some (FsMounted fd)) e w = (w', Ok (VArr l false)).
Proof.
  intros Hc Hk Hr Hb HS HI.
  assert (Hreq : request_ok k) by (unfold requested in Hr; tauto).
  destruct (bounded_search_terminates E fd _ k w HE Hreq Hb) as (K0 & HK0). specialize (HK0 K0 (le_n _)).
  destruct (fs_search K0 E (FsMounted fd) k w) as [w1 r1] eqn:Hf. cbn [snd] in HK0.
  pose proof (bounded_search_outcome K0 E fd _ k w w1 r1 HE Hreq Hb Hf HK0) as [_ Ho].
  destruct r1 as [items|er|p|]; [|exfalso|contradiction|congruence].
  2: { destruct er; try contradiction; [exact (search_no_ioerr K0 E fd k w w1 Hno Hf)|].
       destruct Ho as (m & n & st & Hm & Hi & _ & -> & Hin). exact (proj2 (HI m Hin) Hm). }
  assert (Hitems : items = filter (in_rangeb k) (forest (sk_tree k))).
  { destruct Ho as (S1 & S2 & S3). apply sorted_ext; [exact S1|apply sorted_map_filter; exact HS|]. intros c. rewrite filter_In, in_rangeb_spec. split.
    - intros Hi. destruct (S2 c Hi) as (Hr' & n & st & _ & -> & Hin). auto.
    - intros [Hin Hr']. apply S3; [exact Hr'|]. intros n st _ ->. exact Hin. }
  destruct (shown_all (overflow_checks E) items) as [l Hl]; [intros c Hin; rewrite Hitems in Hin; apply filter_In in Hin; apply HI; tauto|].
  pose proof (shown_decode_chunks _ _ _ Hl w1) as Hd. destruct (decode_chunks (overflow_checks E) items w1) as [w3 r3] eqn:Hd3. cbn [snd] in Hd. subst r3.
  assert (Hc' : forall K', calls_search K' E vs (Some (FsMounted fd)) e w tree key w).
  { intros K'. destruct Hc as (fe & a & b & wf & wa & -> & Hf' & Ha & Hb'). exists fe, a, b, wf, wa. split; [reflexivity|].
    assert (HKK : 0 <= K') by lia. repeat split; (eapply eval_expr_mono; [exact HKK|eassumption|discriminate]). }
  assert (Hev : eval_expr K0 E vs (Some (FsMounted fd)) e w = (w3, Ok (VArr l false))).
  { rewrite (calls_search_eq _ _ _ _ _ _ _ _ _ (Hc' K0)), (eval_search_ok _ _ _ _ _ flds k) by assumption.
    unfold mbind at 1. rewrite Hf. unfold mbind, mret. rewrite Hd3. reflexivity. }
  exists w3, l, K0. split; [|split].
  - destruct (eval_asking K0 E vs _ e w w3 _ Hev) as [Hout _]. exact Hout.
  - rewrite <- Hitems. exact Hl.
  - intros K HK. eapply eval_expr_mono; [exact HK|exact Hev|discriminate].
Qed.
End Search.
