(** C65: the interpreter's statements against the rules of Spec_Exec. *)
From Verif Require Import Base Ast Structs Definitions Value Variables Fs Eval Lib Spec_Arith Spec_Vars Spec_Search Spec_Text Spec_Run Spec_Lang Spec_Exec
  Proof_Arith Proof_Vars Proof_Run Proof_Search2 Proof_Session Proof_Text Proof_Lang.
Require Import Lia ZArith.
Arguments s_ s%string_scope.

(** ** Places *)
Definition step_apply (st : pstep) (g : value -> res value) (v : value) : res value :=
  match st, v with
  | PField i, VStruct n key fs =>
    match assoc_update i g fs with Some r => let* fs' := r in Ok (VStruct n key fs') | None => Err (ENoSuchField i n) end
  | PIndex z, VArr l h =>
    let* u := try_into_u 64 z in
    if (u <? zlen l)%Z then
      let* x := ok_or (nth_error l (Z.to_nat u)) (EIndexOutOfRange z (zlen l)) in
      let* x' := g x in Ok (VArr (firstn (Z.to_nat u) l ++ x' :: skipn (S (Z.to_nat u)) l) h)
    else Err (EIndexOutOfRange z (zlen l))
  | PField _, _ => Err (ELhs (s_ "Field access must be used on a struct"))
  | PIndex _, _ => Err (ELhs (s_ "Array index must be used on an array"))
  end.
Fixpoint path_apply (p : list pstep) (g : value -> res value) (v : value) : res value :=
  match p with [] => g v | st :: p' => step_apply st (path_apply p' g) v end.
Lemma assoc_update_ext {A} i (g h : A -> res A) l : (forall v, g v = h v) -> assoc_update i g l = assoc_update i h l.
Proof. intros H. induction l as [|[n v] l IH]; cbn [assoc_update]; [reflexivity|]. rewrite H, IH. reflexivity. Qed.
Lemma step_ext st g h v : (forall v, g v = h v) -> step_apply st g v = step_apply st h v.
Proof.
  intros H. destruct st, v; cbn [step_apply]; try reflexivity.
  - destruct (try_into_u 64 z); cbn [bind]; try reflexivity. destruct (a <? zlen vec)%Z; [|reflexivity]. destruct (nth_error vec (Z.to_nat a)); cbn [ok_or bind]; [|reflexivity]. rewrite H. reflexivity.
  - rewrite (assoc_update_ext n g h fields H). reflexivity.
Qed.
Lemma path_snoc p st g : forall v, path_apply (p ++ [st]) g v = path_apply p (step_apply st g) v.
Proof. induction p as [|a p IH]; intros v; cbn [path_apply app]; [reflexivity|]. apply step_ext. exact IH. Qed.

(** the place and the world after evaluating its indices *)
Fixpoint find_place (k : nat) (E : env) (vs : vars value) (f : option fs) (e : expr) : M place :=
  match e with
  | EIdent x => mret (Ok (x, []))
  | EField e fld => match fld with
                    | EIdent i => do p <- find_place k E vs f e ;; mret (Ok (fst p, snd p ++ [PField i]))
                    | _ => mret (Err EFieldNotIdent)
                    end
  | EIndex e i => do iv <- eval_expr k E vs f i ;; do z <- mret (as_integer iv) ;;
                  do p <- find_place k E vs f e ;; mret (Ok (fst p, snd p ++ [PIndex z]))
  | EInt _ | EBool _ | EStr _ | EParen _ => mret (Err (ELhs (s_ "Expected identifier in LHS of assignment")))
  | ECall _ _ => mret (Err (ELhs (s_ "Unexpected function call in LHS of assignment")))
  | EBin _ _ _ => mret (Err (ELhs (s_ "Unexpected binary expression in LHS of assignment")))
  | EUn _ _ | ECast _ _ => mret (Err (ELhs (s_ "Unexpected unary expression in LHS of assignment")))
  end.
Definition store (vs : vars value) (g : value -> res value) (p : place) : res (vars value) :=
  let* v := ok_or (vars_get (fst p) vs) (EUnknownVariable (fst p)) in
  let* v' := path_apply (snd p) g v in
  unwrap (vars_replace (fst p) v' vs).
Lemma lhs_assign_eq k E vs f e : forall g w, lhs_assign k E vs f e g w = (do p <- find_place k E vs f e ;; mret (store vs g p)) w.
Proof.
  induction e; intros g w; try reflexivity.
  - destruct e2; try reflexivity. cbn [lhs_assign find_place].
    change (lhs_assign k E vs f e1 (step_apply (PField x) g) w = (do p <- (do p <- find_place k E vs f e1;; mret (Ok (fst p, snd p ++ [PField x]))) ;; mret (store vs g p)) w).
    rewrite IHe1. unfold mbind, mret. destruct (find_place k E vs f e1 w) as [w1 [[y p]|er|pp|]]; try reflexivity. f_equal. unfold store. cbn [fst snd].
    destruct (vars_get y vs); cbn [ok_or bind]; [|reflexivity]. rewrite path_snoc. reflexivity.
  - cbn [lhs_assign find_place]. unfold mbind, mret. destruct (eval_expr k E vs f e2 w) as [w1 [iv|er|pp|]]; try reflexivity.
    destruct (as_integer iv) as [z|er|pp|]; try reflexivity.
    etransitivity; [exact (IHe1 (step_apply (PIndex z) g) w1)|].
    unfold mbind, mret. destruct (find_place k E vs f e1 w1) as [w2 [[y p]|er|pp|]]; try reflexivity. f_equal. unfold store. cbn [fst snd].
    destruct (vars_get y vs); cbn [ok_or bind]; [|reflexivity]. rewrite path_snoc. reflexivity.
Qed.

(** ** Replacing *)
Lemma app_len_inj2 {A} (a c : list A) x y b d : length a = length c -> a ++ x :: b = c ++ y :: d -> a = c /\ x = y /\ b = d.
Proof.
  revert c. induction a as [|u a IH]; intros [|v c]; cbn; intros Hl H; try discriminate; injection H as ? H; [auto|]. subst.
  destruct (IH c ltac:(lia) H) as (-> & -> & ->). auto.
Qed.
Lemma update_here {A} n (g : A -> res A) l : match assoc_update n g l with
  | None => ~ In n (map fst l)
  | Some r => exists l1 a l2, l = l1 ++ (n, a) :: l2 /\ ~ In n (map fst l1) /\ r = let* a' := g a in Ok (l1 ++ (n, a') :: l2)
  end.
Proof.
  induction l as [|[m v] l IH]; cbn [assoc_update]; [intros []|]. destruct (str_eqb m n) eqn:He.
  - apply str_eqb_eq in He. subst m. exists [], v, l. split; [reflexivity|]. split; [intros []|reflexivity].
  - assert (Hn : m <> n) by (intros ->; rewrite str_eqb_refl in He; discriminate). destruct (assoc_update n g l) as [r|].
    + destruct IH as (l1 & a & l2 & -> & H1 & ->). exists ((m, v) :: l1), a, l2. split; [reflexivity|]. split; [cbn; intros [H|H]; auto|].
      destruct (g a); reflexivity.
    + cbn. intros [H|H]; auto.
Qed.
Lemma split_unique (n : str) (l1 l1' l2 l2' : list (str * value)) a a' : l1 ++ (n, a) :: l2 = l1' ++ (n, a') :: l2' ->
  ~ In n (map fst l1) -> ~ In n (map fst l1') -> l1 = l1' /\ a = a' /\ l2 = l2'.
Proof.
  revert l1'. induction l1 as [|[m x] l1 IH]; intros [|[m' x'] l1']; cbn; intros H H1 H2.
  - injection H as -> ->. auto.
  - injection H as <- _ _. tauto.
  - injection H as -> _ _. tauto.
  - injection H as -> -> H. destruct (IH l1' H) as (-> & -> & ->); tauto.
Qed.
Lemma replaced_path leaf p : forall old,
  (forall new, path_apply p (fun _ => Ok leaf) old = Ok new <-> replaced leaf old p new) /\
  ((exists new, path_apply p (fun _ => Ok leaf) old = Ok new) \/ (exists e, path_apply p (fun _ => Ok leaf) old = Err e)).
Proof.
  induction p as [|st p IH]; intros old; cbn [path_apply].
  - split; [|eauto]. intros new. split; [intros [= <-]; constructor|intros H; inversion H; reflexivity].
  - set (g := path_apply p (fun _ => Ok leaf)) in *. destruct st as [z|n]; cbn [step_apply].
    + destruct old as [y|y|y|l h|y|y y1 y2]; try (split; [intros new; split; [discriminate|intros H; inversion H]|eauto]; fail).
      unfold try_into_u. destruct (Z.leb_spec 0 z) as [H0|H0]; cbn [andb].
      2:{ cbn [bind]. split; [|eauto]. intros new. split; [discriminate|]. intros H. inversion H; subst. unfold zlen in H0. lia. }
      destruct (Z.ltb_spec z (2 ^ 64)) as [H1|H1]; cbn [bind].
      2:{ split; [|eauto]. intros new. split; [discriminate|]. intros H. inversion H; subst. lia. }
      destruct (Z.ltb_spec z (zlen l)) as [H2|H2].
      2:{ split; [|eauto]. intros new. split; [discriminate|]. intros H. inversion H; subst. unfold zlen in H2. rewrite app_length in H2. cbn [length] in H2. lia. }
      destruct (nth_error l (Z.to_nat z)) as [x|] eqn:En.
      2:{ apply nth_error_None in En. unfold zlen in H2. lia. }
      cbn [ok_or bind]. destruct (nth_error_split' _ _ _ En) as [Hs Hl]. remember (firstn (Z.to_nat z) l) as l1 eqn:E1. remember (skipn (S (Z.to_nat z)) l) as l2 eqn:E2. clear E1 E2.
      destruct (IH x) as [IH1 IH2]. assert (Hz : z = zlen l1) by (unfold zlen; lia). split.
      * intros new. split.
        -- destruct (g x) as [x'|er|pp|] eqn:Eg; try discriminate. cbn [bind]. intros [= <-]. rewrite Hs. constructor; [exact Hz|exact H1|]. apply IH1. reflexivity.
        -- intros H. inversion H as [|m1 a m2 h' z' p' a' Hz' _ Hr|]; subst. assert (Hm : m1 = l1 /\ a = x /\ m2 = l2).
           { match goal with HH : m1 ++ a :: m2 = l1 ++ x :: l2 |- _ => apply app_len_inj2 in HH; [|unfold zlen in *; lia] end. tauto. }
           destruct Hm as (-> & -> & ->). rewrite (proj2 (IH1 _) Hr). reflexivity.
      * destruct IH2 as [[x' ->]|[er ->]]; cbn [bind]; eauto.
    + destruct old as [y|y|y|l h|y|nm key ms]; try (split; [intros new; split; [discriminate|intros H; inversion H]|eauto]; fail).
      pose proof (update_here n g ms) as Hu. destruct (assoc_update n g ms) as [r|].
      * destruct Hu as (l1 & a & l2 & -> & Hn & ->). destruct (IH a) as [IH1 IH2]. split.
        -- intros new. split.
           ++ destruct (g a) as [a'|er|pp|] eqn:Eg; try discriminate. cbn [bind]. intros [= <-]. constructor; [exact Hn|]. apply IH1. reflexivity.
           ++ intros H. inversion H as [| |nm' key' f1 n' b f2 p' b' Hn' Hr]; subst.
              match goal with HH : f1 ++ _ = _ |- _ => apply split_unique in HH; [|assumption|assumption]; destruct HH as (-> & -> & ->) end.
              rewrite (proj2 (IH1 _) Hr). reflexivity.
        -- destruct IH2 as [[a' ->]|[er ->]]; cbn [bind]; eauto.
      * split; [|eauto]. intros new. split; [discriminate|]. intros H. inversion H; subst. exfalso. apply Hu. rewrite map_app, in_app_iff. right. left. reflexivity.
Qed.

(** ** Places of the interpreter and places of the rules *)
Definition showsp (r : res place) : option (option place) :=
  match r with Ok v => Some (Some v) | Err _ => Some None | _ => None end.
Lemma gives_one E vs f e w w' : gives_all E vs f [(e, KInt)] w w' None <->
  gives E vs f e w w' None \/ exists v, gives E vs f e w w' (Some v) /\ ~ has_kind KInt v.
Proof.
  split.
  - intros H. inversion H; subst; eauto. match goal with HH : gives_all _ _ _ [] _ _ None |- _ => inversion HH end.
  - intros [H|(v & H & Hv)]; [apply ga_error; exact H|eapply ga_kind; eassumption].
Qed.
Lemma gives_one_any E vs f e kd w w' : gives_all E vs f [(e, kd)] w w' None <->
  gives E vs f e w w' None \/ exists v, gives E vs f e w w' (Some v) /\ ~ has_kind kd v.
Proof.
  split.
  - intros H. inversion H; subst; eauto. match goal with HH : gives_all _ _ _ [] _ _ None |- _ => inversion HH end.
  - intros [H|(v & H & Hv)]; [apply ga_error; exact H|eapply ga_kind; eassumption].
Qed.
Lemma as_integer_cases v : (exists z, v = VInt z /\ as_integer v = Ok z) \/ (~ has_kind KInt v /\ exists e, as_integer v = Err e).
Proof. destruct v; cbn [as_integer]; [left; eauto|..]; right; (split; [intros H; inversion H|eexists; reflexivity]). Qed.
Lemma place_sound k E vs f e : forall w w' r o, find_place k E vs f e w = (w', r) -> showsp r = Some o -> denotes E vs f e w w' o.
Proof.
  induction e; intros w w' r o H Ho; cbn [find_place] in H; unfold mbind, mret in H;
    try (injection H as <- <-; injection Ho as <-; constructor; exact I).
  - destruct e2; try (injection H as <- <-; injection Ho as <-; apply dn_none; exact I).
    destruct (find_place k E vs f e1 w) as [w1 r1] eqn:E1. destruct r1 as [[y p]|er|pp|]; injection H as <- <-; try discriminate Ho; injection Ho as <-.
    + change (Some (y, p ++ [PField x])) with (extend (Some (y, p)) (PField x)). apply dn_field. eapply IHe1; [exact E1|reflexivity].
    + change (@None place) with (extend None (PField x)). apply dn_field. eapply IHe1; [exact E1|reflexivity].
  - destruct (eval_expr k E vs f e2 w) as [w1 r1] eqn:E2. destruct r1 as [iv|er|pp|]; try (injection H as <- <-; discriminate Ho).
    2:{ injection H as <- <-. injection Ho as <-. apply dn_index_bad, gives_one. left. eapply eval_sound; [exact E2|reflexivity]. }
    assert (Hiv : gives E vs f e2 w w1 (Some iv)) by (eapply eval_sound; [exact E2|reflexivity]).
    destruct (as_integer_cases iv) as [(z & -> & Hz)|[Hn [er Hz]]]; rewrite Hz in H.
    + destruct (find_place k E vs f e1 w1) as [w2 r2] eqn:E1. destruct r2 as [[y p]|er|pp|]; injection H as <- <-; try discriminate Ho; injection Ho as <-.
      * change (Some (y, p ++ [PIndex z])) with (extend (Some (y, p)) (PIndex z)). eapply dn_index; [exact Hiv|]. eapply IHe1; [exact E1|reflexivity].
      * change (@None place) with (extend None (PIndex z)). eapply dn_index; [exact Hiv|]. eapply IHe1; [exact E1|reflexivity].
    + injection H as <- <-. injection Ho as <-. apply dn_index_bad, gives_one. right. eauto.
Qed.
Lemma place_complete E vs f e w w' o : denotes E vs f e w w' o ->
  exists K, forall k, K <= k -> exists r, find_place k E vs f e w = (w', r) /\ showsp r = Some o.
Proof.
  intros H. induction H as [x w|e n w w' o H [K IH]|e i z w w1 w' o Hi H [K IH]|e i w w' Hi|e w Hn].
  - exists 0. intros k _. eexists. split; reflexivity.
  - exists K. intros k Hk. destruct (IH k Hk) as (r & H1 & H2). cbn [find_place]. unfold mbind, mret. rewrite H1.
    destruct r as [[y p]|er|pp|]; try discriminate; injection H2 as <-; eexists; split; reflexivity.
  - apply eval_complete in Hi. destruct Hi as [K0 Hi]. exists (Nat.max K K0). intros k Hk. destruct (IH k ltac:(lia)) as (r & H1 & H2).
    destruct (Hi k ltac:(lia)) as (ri & H3 & H4). apply shows_ok in H4. subst ri. cbn [find_place]. unfold mbind, mret. rewrite H3. cbn [as_integer]. rewrite H1.
    destruct r as [[y p]|er|pp|]; try discriminate; injection H2 as <-; eexists; split; reflexivity.
  - apply gives_one in Hi. destruct Hi as [Hi|(v & Hi & Hv)]; apply eval_complete in Hi; destruct Hi as [K Hi]; exists K; intros k Hk; destruct (Hi k Hk) as (ri & H3 & H4).
    + apply shows_err in H4. destruct H4 as [er ->]. cbn [find_place]. unfold mbind, mret. rewrite H3. eexists. split; reflexivity.
    + apply shows_ok in H4. subst ri. cbn [find_place]. unfold mbind, mret. rewrite H3. destruct (as_integer_cases v) as [(z & -> & _)|[_ [er ->]]]; [elim Hv; constructor|].
      eexists. split; reflexivity.
  - exists 0. intros k _. destruct e; cbn in Hn; try contradiction; try (eexists; split; reflexivity).
    destruct e2; try contradiction; eexists; split; reflexivity.
Qed.

Lemma store_ok vs v x p :
  match store vs (fun _ => Ok v) (x, p) with
  | Ok vs' => exists i old new, innermost_binding vs x i /\ binding vs i x = Some old /\ replaced v old p new /\ vars_insert x new vs = Some vs'
  | Err _ => forall i old new, innermost_binding vs x i -> binding vs i x = Some old -> ~ replaced v old p new
  | _ => False
  end.
Proof.
  unfold store. cbn [fst snd]. destruct (vars_get_binding x vs) as [(i & Hi & ->)|[Hu ->]].
  - destruct (binding vs i x) as [old|] eqn:Eb; [|elim (proj1 Hi); exact Eb]. cbn [ok_or bind]. destruct (replaced_path v p old) as [H1 H2].
    destruct H2 as [[new Hn]|[er He]].
    + rewrite Hn. cbn [bind]. pose proof (vars_replace_spec x new vs) as Hs. destruct (vars_replace x new vs) as [vs'|] eqn:Er; cbn [unwrap].
      * exists i, old, new. split; [exact Hi|]. split; [exact Eb|]. split; [apply H1; exact Hn|]. unfold vars_insert. rewrite Er. reflexivity.
      * rewrite (Hs i) in Eb. discriminate.
    + rewrite He. cbn [bind]. intros j old' new Hj Hb Hr. assert (Hij : j = i) by (eapply innermost_unique; eassumption). subst j. rewrite Hb in Eb. injection Eb as ->.
      apply H1 in Hr. congruence.
  - cbn [ok_or bind]. intros i old new [_ _] Hb. rewrite (Hu i) in Hb. discriminate.
Qed.

(** ** Statements: from the interpreter to the rules *)
Lemma error_any E s e w : is_error E s e KAny w <-> exists er, evals E s e w (Err er).
Proof.
  unfold is_error. rewrite gives_one_any, evals_error. split; [intros [H|(v & _ & Hv)]; [exact H|elim Hv; constructor]|auto].
Qed.
Lemma error_kind E s e kd w : is_error E s e kd w <-> (exists er, evals E s e w (Err er)) \/ exists v, evals E s e w (Ok v) /\ ~ has_kind kd v.
Proof.
  unfold is_error. rewrite gives_one_any, evals_error. split; (intros [H|(v & H & Hv)]; [left; exact H|right; exists v; split; [apply evals_value; exact H|exact Hv]]).
Qed.
Lemma expr_cases n E s e c s' r q : with_expr n E s e c = (s', r) -> ends r = Some q ->
  (exists w v, has_value E s e w v /\ c (with_w s w) v = (s', r)) \/ (exists w, is_error E s e KAny w /\ s' = with_w s w /\ q = Failed).
Proof.
  unfold with_expr. destruct (eval_expr n E (e_vars s) (e_fs s) e (e_w s)) as [w [v|er|p|]] eqn:Ee; intros H Hq.
  - left. exists w, v. split; [|exact H]. apply evals_value. split; [discriminate|]. exists n. exact Ee.
  - right. injection H as <- <-. injection Hq as <-. exists w. split; [|auto]. apply error_any. exists er. split; [discriminate|]. exists n. exact Ee.
  - injection H as <- <-. discriminate.
  - injection H as <- <-. discriminate.
Qed.
Lemma write_cases E s txt s' r q : do_write E s txt = (s', r) -> ends r = Some q -> writes E s txt s' q.
Proof.
  unfold do_write, tick. destruct (sink E (length (w_log (e_w s))) txt) as [|m] eqn:Es; intros H Hq; injection H as <- <-; injection Hq as <-.
  - apply wr_ok. exact Es.
  - eapply wr_err. exact Es.
Qed.
Lemma not_bool v : (forall t, v <> VBool t) <-> ~ has_kind KBool v.
Proof. split; [intros H Hk; inversion Hk; subst; eapply H; reflexivity|intros H t ->; apply H; constructor]. Qed.
Lemma not_array v : (forall l h, v <> VArr l h) <-> ~ has_kind KArray v.
Proof. split; [intros H Hk; inversion Hk; subst; eapply H; reflexivity|intros H l h ->; apply H; constructor]. Qed.

Section Statements.
Variable E : env.
Variable inter : bool.
Definition ssound (st : stmt) : Prop := forall s s' r q, runs E inter s st s' r -> ends r = Some q -> executes E inter s st s' q.

Lemma assign_sound lhs e : ssound (SAssign lhs e).
Proof.
  intros s s' r q [_ [n H]] Hq. destruct n as [|n]; [injection H as <- <-; discriminate|]. cbn [eval_stmt] in H.
  destruct (expr_cases _ _ _ _ _ _ _ _ H Hq) as [(w & v & Hv & Hc)|(w & He & -> & ->)]; [|apply ex_assign_error; exact He].
  assert (Hid : (exists x, lhs = EIdent x) \/ forall x, lhs <> EIdent x) by (destruct lhs; [left; eauto|..]; right; discriminate).
  destruct Hid as [[x ->]|Hx].
  - unfold est_insert in Hc. destruct (vars_insert x v (e_vars (with_w s w))) as [vs|] eqn:Ei; injection Hc as <- <-; [|discriminate].
    injection Hq as <-. eapply ex_set; [exact Hv|]. exists vs. split; [exact Ei|reflexivity].
  - assert (Hl : (let '(w', r') := lhs_assign n E (e_vars s) (e_fs s) lhs (fun _ => Ok v) w in
                  match r' with Ok vs => (mk_est vs (e_fs s) w', IOk) | _ => (with_w s w', ires_of r') end) = (s', r)).
    { destruct lhs; try exact Hc. elim (Hx _ eq_refl). }
    clear Hc. rewrite lhs_assign_eq in Hl. unfold mbind, mret in Hl. destruct (find_place n E (e_vars s) (e_fs s) lhs w) as [w' rp] eqn:Ep.
    destruct rp as [[x p]|er|pp|]; try (injection Hl as <- <-; discriminate Hq).
    + assert (Hd : denotes E (e_vars s) (e_fs s) lhs w w' (Some (x, p))) by (eapply place_sound; [exact Ep|reflexivity]).
      pose proof (store_ok (e_vars s) v x p) as Hs. destruct (store (e_vars s) (fun _ => Ok v) (x, p)) as [vs|er|pp|]; try contradiction; injection Hl as <- <-; injection Hq as <-.
      * destruct Hs as (i & old & new & Hi & Hb & Hr & Hin). eapply ex_store; try eassumption. exists vs. split; [exact Hin|reflexivity].
      * eapply ex_store_nowhere; eassumption.
    + injection Hl as <- <-. injection Hq as <-. eapply ex_store_no_place; [exact Hv|]. eapply place_sound; [exact Ep|reflexivity].
Qed.

Lemma simple_sound st : match st with SIf _ _ _ | SWhile _ _ | SFor _ _ _ => True | _ => ssound st end.
Proof.
  destruct st; try exact I; try apply assign_sound; intros s s' r q [_ [n H]] Hq; (destruct n as [|n]; [injection H as <- <-; discriminate|]); cbn [eval_stmt] in H.
  - injection H as <- <-. injection Hq as <-. constructor.
  - injection H as <- <-. injection Hq as <-. constructor.
  - constructor. eapply write_cases; eassumption.
  - injection H as <- <-. injection Hq as <-. constructor.
  - destruct (expr_cases _ _ _ _ _ _ _ _ H Hq) as [(w & v & Hv & Hc)|(w & He & -> & ->)]; [|apply ex_filesystem_error; exact He].
    destruct v as [z|p|b|l h|g|nm key ms]; cbn [as_string] in Hc;
      try (injection Hc as <- <-; injection Hq as <-; eapply ex_filesystem_type; [exact Hv|discriminate]).
    destruct (fs_new E (escape true p) (e_w (with_w s w))) as [w' [f|er|pp|]] eqn:Ef; injection Hc as <- <-; try discriminate; injection Hq as <-.
    + change (e_vars (with_w s w)) with (e_vars s). eapply ex_filesystem; eassumption.
    + change (with_w (with_w s w) w') with (with_w s w'). eapply ex_filesystem_refused; eassumption.
  - destruct (expr_cases _ _ _ _ _ _ _ _ H Hq) as [(w & v & Hv & Hc)|(w & He & -> & ->)]; [|apply ex_print_error; exact He].
    destruct (print_text n (overflow_checks E) v) as [txt|er|pp|] eqn:Ep; try (injection Hc as <- <-; discriminate Hq).
    + apply write_cases with (q := q) in Hc; [|exact Hq]. eapply ex_print; [exact Hv| |exact Hc].
      destruct v as [z|p|b|l [|]|g|nm key ms]; cbn [print_text] in Ep; try (injection Ep as <-; apply pr_other; discriminate).
      * injection Ep as <-. apply pr_str.
      * eapply pr_hist. exact Ep.
    + injection Hc as <- <-. injection Hq as <-. destruct v as [z|p|b|l [|]|g|nm key ms]; cbn [print_text] in Ep; try discriminate.
      eapply ex_print_hist; eassumption.
  - destruct (expr_cases _ _ _ _ _ _ _ _ H Hq) as [(w & v & Hv & Hc)|(w & He & -> & ->)]; [|apply ex_expr_error; exact He].
    destruct inter eqn:Ei.
    + eapply ex_expr_show; [reflexivity|exact Hv|]. eapply write_cases; eassumption.
    + injection Hc as <- <-. injection Hq as <-. eapply ex_expr; [reflexivity|exact Hv].
Qed.
Lemma list_sound l : Forall ssound l -> forall s s' r q, runs_list E inter s l s' r -> ends r = Some q -> executes_list E inter s l s' q.
Proof.
  intros Hl. induction Hl as [|st l Hs Hl IH]; intros s s' r q H Hq.
  - apply runs_list_nil in H. destruct H as [-> ->]. injection Hq as <-. constructor.
  - apply runs_list_cons in H. destruct H as [(s1 & H1 & H2)|[Hr H]].
    + eapply xl_next; [eapply Hs; [exact H1|reflexivity]|]. eapply IH; eassumption.
    + eapply xl_stop; [eapply Hs; eassumption|]. intros ->. destruct r; try discriminate. congruence.
Qed.
Lemma goes_on_ends q : q = IOk \/ q = IContinue -> exists q', ends q = Some q' /\ (q' = Ended \/ q' = Continues).
Proof. intros [-> | ->]; eexists; split; try reflexivity; auto. Qed.
Lemma aborts_ends r q : r <> IOk -> r <> IContinue -> r <> IBreak -> ends r = Some q -> q = Quits \/ q = Failed.
Proof. intros H1 H2 H3 Hq. destruct r; try congruence; try discriminate Hq; injection Hq as <-; auto. Qed.
Lemma while_sound' c b : Forall ssound b -> forall s s' r q, whiles E inter c b s s' r -> ends r = Some q -> loops E inter c b s s' q.
Proof.
  intros Hb s s' r q H. induction H; intros Hq.
  - injection Hq as <-. apply lp_done. apply evals_value. assumption.
  - destruct (goes_on_ends _ H1) as (q' & Hq' & Hg). eapply lp_again; [apply evals_value; eassumption| |exact Hg|auto]. eapply list_sound; eassumption.
  - injection Hq as <-. eapply lp_break; [apply evals_value; eassumption|]. eapply list_sound; [exact Hb|eassumption|reflexivity].
  - eapply lp_stop; [apply evals_value; eassumption|eapply list_sound; eassumption|]. eapply aborts_ends; [| | |exact Hq]; assumption.
  - injection Hq as <-. apply lp_error. apply error_kind. right. exists v. split; [assumption|apply not_bool; assumption].
  - injection Hq as <-. apply lp_error. apply error_kind. left. eauto.
  - discriminate.
Qed.
Lemma for_sound' x b : Forall ssound b -> forall items s s' r q, iterates E inter x b items s s' r -> ends r = Some q -> each E inter x b items s s' q.
Proof.
  intros Hb items s s' r q H. induction H; intros Hq.
  - injection Hq as <-. apply ea_done.
  - destruct (goes_on_ends _ H1) as (q' & Hq' & Hg). eapply ea_next; [eassumption| |exact Hg|auto]. eapply list_sound; eassumption.
  - injection Hq as <-. eapply ea_break; [eassumption|]. eapply list_sound; [exact Hb|eassumption|reflexivity].
  - eapply ea_stop; [eassumption|eapply list_sound; eassumption|]. eapply aborts_ends; [| | |exact Hq]; assumption.
Qed.
Lemma stmt_sound st : ssound st.
Proof.
  induction st as [lhs e|c tb fb IHt IHf|c b IH|i rg b IH| | | | |e|e|e] using stmt_ind'.
  all: try exact (simple_sound (SAssign lhs e)); try exact (simple_sound SBreak); try exact (simple_sound SContinue); try exact (simple_sound SHelp);
    try exact (simple_sound SQuit); try exact (simple_sound (SFilesystem e)); try exact (simple_sound (SPrint e)); try exact (simple_sound (SExpr e)).
  - intros s s' r q H Hq. apply runs_if in H. destruct H as (s1 & -> & [(w & t & Hc & Hb)|[(w & v & Hc & Hv & -> & ->)|[(w & er & Hc & -> & ->)|(w & p & Hc & -> & ->)]]]).
    + eapply ex_if; [apply evals_value; exact Hc|]. destruct t; eapply list_sound; eassumption.
    + injection Hq as <-. change (leave (with_w (enter s) w)) with (with_w s w). apply ex_if_error. apply error_kind. right. exists v. split; [exact Hc|apply not_bool; exact Hv].
    + injection Hq as <-. change (leave (with_w (enter s) w)) with (with_w s w). apply ex_if_error. apply error_kind. left. eauto.
    + discriminate.
  - intros s s' r q H Hq. apply runs_while in H. destruct H as (s1 & H & ->). apply ex_while. eapply while_sound'; eassumption.
  - intros s s' r q H Hq. assert (Hid : (exists x, i = EIdent x) \/ forall x, i <> EIdent x) by (destruct i; [left; eauto|..]; right; discriminate).
    destruct Hid as [[x ->]|Hx].
    + apply runs_for in H. destruct H as (s1 & -> & [(w & items & h & Hc & Hb)|[(w & v & Hc & Hv & -> & ->)|[(w & er & Hc & -> & ->)|(w & p & Hc & -> & ->)]]]).
      * eapply ex_for; [apply evals_value; exact Hc|]. eapply for_sound'; eassumption.
      * injection Hq as <-. change (leave (with_w (enter s) w)) with (with_w s w). apply ex_for_error. apply error_kind. right. exists v. split; [exact Hc|apply not_array; exact Hv].
      * injection Hq as <-. change (leave (with_w (enter s) w)) with (with_w s w). apply ex_for_error. apply error_kind. left. eauto.
      * discriminate.
    + destruct H as [_ [n H]]. destruct n as [|n]; [injection H as <- <-; discriminate|]. cbn [eval_stmt] in H.
      assert (Hn : (s, IErr EForIdent) = (s', r)).
      { rewrite <- H. destruct i; try (elim (Hx _ eq_refl)); destruct s; reflexivity. }
      injection Hn as <- <-. injection Hq as <-. apply ex_for_name. exact Hx.
Qed.
Lemma stmts_sound l : Forall ssound l.
Proof. induction l; constructor; [apply stmt_sound|assumption]. Qed.
End Statements.

(** ** From the rules to the interpreter *)
Lemma value_up E s e w v : has_value E s e w v -> exists K, forall k, K <= k -> eval_expr k E (e_vars s) (e_fs s) e (e_w s) = (w, Ok v).
Proof.
  intros H. apply eval_complete in H. destruct H as [K H]. exists K. intros k Hk. destruct (H k Hk) as (r & H1 & H2). apply shows_ok in H2. subst r. exact H1.
Qed.
Lemma expr_runs E s e w v c s' r : has_value E s e w v -> (exists K, forall k, K <= k -> c k (with_w s w) v = (s', r)) -> exists n, with_expr n E s e (c n) = (s', r).
Proof.
  intros Hv [K Hc]. apply value_up in Hv. destruct Hv as [K0 Hv]. exists (Nat.max K K0). unfold with_expr. rewrite Hv by lia. apply Hc. lia.
Qed.
Lemma expr_fails E s e w c : is_error E s e KAny w -> exists n er, with_expr n E s e (c n) = (with_w s w, IErr er).
Proof. intros H. apply error_any in H. destruct H as [er [_ [n H]]]. exists n, er. unfold with_expr. rewrite H. reflexivity. Qed.

Scheme executes_ind4 := Induction for executes Sort Prop
  with executes_list_ind4 := Induction for executes_list Sort Prop
  with loops_ind4 := Induction for loops Sort Prop
  with each_ind4 := Induction for each Sort Prop.
Combined Scheme executes_mind from executes_ind4, executes_list_ind4, loops_ind4, each_ind4.

Section Complete.
Variable E : env.
Variable inter : bool.
Definition scomplete s st s' q : Prop := exists r, runs E inter s st s' r /\ ends r = Some q.
Lemma of_step s st s' r q : (exists n, eval_stmt (S n) E inter s st = (s', r)) -> ends r = Some q -> scomplete s st s' q.
Proof. intros [n H] Hq. exists r. split; [|exact Hq]. split; [intros ->; discriminate|]. exists (S n). exact H. Qed.
Lemma of_expr s st e w v c s' r q : (forall n, eval_stmt (S n) E inter s st = with_expr n E s e (c n)) ->
  has_value E s e w v -> (exists K, forall k, K <= k -> c k (with_w s w) v = (s', r)) -> ends r = Some q -> scomplete s st s' q.
Proof. intros Hst Hv Hc Hq. destruct (expr_runs E s e w v c s' r Hv Hc) as [n Hn]. eapply of_step; [exists n; rewrite Hst; exact Hn|exact Hq]. Qed.
Lemma of_error s st e w c : (forall n, eval_stmt (S n) E inter s st = with_expr n E s e (c n)) ->
  is_error E s e KAny w -> scomplete s st (with_w s w) Failed.
Proof. intros Hst H. destruct (expr_fails E s e w c H) as (n & er & Hn). eapply of_step; [exists n; rewrite Hst; exact Hn|reflexivity]. Qed.
Lemma of_writes s txt s' q : writes E s txt s' q -> exists r, do_write E s txt = (s', r) /\ ends r = Some q.
Proof.
  unfold do_write, tick. intros [H|n H]; rewrite H; eexists; split; reflexivity.
Qed.
Definition assign_body (lhs : expr) (n : nat) (s : est) (v : value) : est * ires :=
  match lhs with
  | EIdent x => est_insert x v s
  | _ => let '(w, r) := lhs_assign n E (e_vars s) (e_fs s) lhs (fun _ => Ok v) (e_w s) in
         match r with Ok vs => (mk_est vs (e_fs s) w, IOk) | _ => (with_w s w, ires_of r) end
  end.
Lemma assign_body_eq lhs n s v w' rp : (forall x, lhs <> EIdent x) -> find_place n E (e_vars s) (e_fs s) lhs (e_w s) = (w', rp) ->
  assign_body lhs n s v = match rp with
                          | Ok p => match store (e_vars s) (fun _ => Ok v) p with Ok vs => (mk_est vs (e_fs s) w', IOk) | r => (with_w s w', ires_of r) end
                          | Err e => (with_w s w', IErr e) | Panic p => (with_w s w', IPanic p) | Fuel => (with_w s w', IFuel)
                          end.
Proof.
  intros Hx Hp. assert (H : assign_body lhs n s v = let '(w, r) := lhs_assign n E (e_vars s) (e_fs s) lhs (fun _ => Ok v) (e_w s) in
         match r with Ok vs => (mk_est vs (e_fs s) w, IOk) | _ => (with_w s w, ires_of r) end) by (destruct lhs; try reflexivity; elim (Hx _ eq_refl)).
  rewrite H, lhs_assign_eq. unfold mbind, mret. rewrite Hp. destruct rp as [p| | |]; try reflexivity. destruct (store (e_vars s) (fun _ => Ok v) p); reflexivity.
Qed.
Lemma assign_complete s lhs e w v w' o s' q : has_value E s e w v -> denotes E (e_vars s) (e_fs s) lhs w w' o -> (forall x, lhs <> EIdent x) ->
  match o with
  | Some (x, p) => match store (e_vars s) (fun _ => Ok v) (x, p) with Ok vs => s' = mk_est vs (e_fs s) w' /\ q = Ended | _ => s' = with_w s w' /\ q = Failed end
  | None => s' = with_w s w' /\ q = Failed
  end -> scomplete s (SAssign lhs e) s' q.
Proof.
  intros Hv Hd Hx Ho. apply place_complete in Hd. destruct Hd as [K Hd]. apply value_up in Hv. destruct Hv as [K0 Hv].
  set (n := Nat.max K K0). destruct (Hd n ltac:(lia)) as (rp & Hp & Hs).
  assert (H : eval_stmt (S n) E inter s (SAssign lhs e) = assign_body lhs n (with_w s w) v).
  { cbn [eval_stmt]. unfold with_expr. rewrite Hv by lia. reflexivity. }
  rewrite (assign_body_eq lhs n (with_w s w) v w' rp Hx Hp) in H. destruct rp as [[x p]|er|pp|]; try discriminate; injection Hs as <-.
  - cbn [e_vars with_w e_fs] in H. pose proof (store_ok (e_vars s) v x p) as Hst. destruct (store (e_vars s) (fun _ => Ok v) (x, p)) as [vs|er|pp|]; try contradiction; destruct Ho as [-> ->].
    + eapply of_step; [exists n; exact H|reflexivity].
    + eapply of_step; [exists n; exact H|reflexivity].
  - destruct Ho as [-> ->]. eapply of_step; [exists n; exact H|reflexivity].
Qed.
Lemma ends_goes_on r q : ends r = Some q -> q = Ended \/ q = Continues -> r = IOk \/ r = IContinue.
Proof. intros H [-> | ->]; destruct r; try discriminate; auto. Qed.
Lemma ends_aborts r q : ends r = Some q -> q = Quits \/ q = Failed -> r <> IOk /\ r <> IContinue /\ r <> IBreak.
Proof. intros H [-> | ->]; destruct r; try discriminate; repeat split; discriminate. Qed.
Lemma ends_fuel r q : ends r = Some q -> r <> IFuel.
Proof. intros H ->. discriminate. Qed.

Lemma all_complete :
  (forall s st s' q, executes E inter s st s' q -> scomplete s st s' q) /\
  (forall s l s' q, executes_list E inter s l s' q -> exists r, runs_list E inter s l s' r /\ ends r = Some q) /\
  (forall c b s s' q, loops E inter c b s s' q -> exists r, whiles E inter c b s s' r /\ ends r = Some q) /\
  (forall x b items s s' q, each E inter x b items s s' q -> exists r, iterates E inter x b items s s' r /\ ends r = Some q).
Proof.
  apply (executes_mind E inter (fun s st s' q _ => scomplete s st s' q)
    (fun s l s' q _ => exists r, runs_list E inter s l s' r /\ ends r = Some q)
    (fun c b s s' q _ => exists r, whiles E inter c b s s' r /\ ends r = Some q)
    (fun x b items s s' q _ => exists r, iterates E inter x b items s s' r /\ ends r = Some q)).
  - intros x e s w v s' Hv (vs & Hi & ->). eapply (of_expr s _ e w v (assign_body (EIdent x))); [reflexivity|exact Hv|exists 0; intros k _; unfold assign_body, est_insert; rewrite Hi; reflexivity|reflexivity].
  - intros lhs e s w v w' x p i old new s' Hx Hv Hd Hi Hb Hr (vs & Hin & ->). eapply assign_complete; [exact Hv|exact Hd|exact Hx|]. cbn beta iota.
    pose proof (store_ok (e_vars s) v x p) as Hst. destruct (store (e_vars s) (fun _ => Ok v) (x, p)) as [vs'|er|pp|]; try contradiction.
    + destruct Hst as (i' & old' & new' & Hi' & Hb' & Hr' & Hin'). assert (i' = i) by (eapply innermost_unique; eassumption). subst i'.
      rewrite Hb in Hb'. injection Hb' as <-. apply (proj1 (replaced_path v p old)) in Hr. apply (proj1 (replaced_path v p old)) in Hr'.
      rewrite Hr in Hr'. injection Hr' as <-. cbn [e_vars with_w] in Hin. rewrite Hin in Hin'. injection Hin' as <-. split; reflexivity.
    + elim (Hst i old new Hi Hb Hr).
  - intros lhs e s w v w' x p Hx Hv Hd Hn. eapply assign_complete; [exact Hv|exact Hd|exact Hx|]. cbn beta iota.
    pose proof (store_ok (e_vars s) v x p) as Hst. destruct (store (e_vars s) (fun _ => Ok v) (x, p)) as [vs'|er|pp|]; try contradiction; [|split; reflexivity].
    destruct Hst as (i' & old' & new' & Hi' & Hb' & Hr' & _). elim (Hn _ _ _ Hi' Hb' Hr').
  - intros lhs e s w v w' Hv Hd. eapply assign_complete; [exact Hv|exact Hd| |split; reflexivity]. intros x ->. inversion Hd. contradiction.
  - intros lhs e s w He. eapply (of_error s _ e w (assign_body lhs)); [reflexivity|exact He].
  - intros c tb fb s w t s' q Hc _ [r [Hr Hq]]. exists r. split; [|exact Hq]. apply runs_if. exists s'. split; [reflexivity|]. left. exists w, t. split; [apply evals_value; exact Hc|exact Hr].
  - intros c tb fb s w He. apply error_kind in He. destruct He as [[er He]|(v & Hv & Hk)].
    + exists (IErr er). split; [|reflexivity]. apply runs_if. exists (with_w (enter s) w). split; [reflexivity|]. right. right. left. eauto.
    + exists (IErr (expected "boolean" v)). split; [|reflexivity]. apply runs_if. exists (with_w (enter s) w). split; [reflexivity|]. right. left. exists w, v. split; [exact Hv|]. split; [apply not_bool; exact Hk|auto].
  - intros c b s s' q _ [r [Hr Hq]]. exists r. split; [|exact Hq]. apply runs_while. eauto.
  - intros x r0 b s w items h s' q Hc _ [r [Hr Hq]]. exists r. split; [|exact Hq]. apply runs_for. exists s'. split; [reflexivity|]. left. exists w, items, h. split; [apply evals_value; exact Hc|exact Hr].
  - intros x r0 b s w He. apply error_kind in He. destruct He as [[er He]|(v & Hv & Hk)].
    + exists (IErr er). split; [|reflexivity]. apply runs_for. exists (with_w (enter s) w). split; [reflexivity|]. right. right. left. eauto.
    + exists (IErr (expected "array" v)). split; [|reflexivity]. apply runs_for. exists (with_w (enter s) w). split; [reflexivity|]. right. left. exists w, v. split; [exact Hv|]. split; [apply not_array; exact Hk|auto].
  - intros i r0 b s Hx. apply (of_step s (SFor i r0 b) s (IErr EForIdent) Failed); [|reflexivity]. exists 0. cbn [eval_stmt]. destruct i; try (elim (Hx _ eq_refl)); destruct s; reflexivity.
  - intros s. eapply of_step; [exists 0; reflexivity|reflexivity].
  - intros s. eapply of_step; [exists 0; reflexivity|reflexivity].
  - intros s. eapply of_step; [exists 0; reflexivity|reflexivity].
  - intros s s' q Hw. apply of_writes in Hw. destruct Hw as (r & Hw & Hq). eapply of_step; [exists 0; exact Hw|exact Hq].
  - intros e s w path w' f Hv Hf.
    eapply (of_expr s _ e w _ (fun _ s v => match as_string true v with Ok p => let '(w, r) := fs_new E p (e_w s) in match r with Ok f => (mk_est (e_vars s) (Some f) w, IOk) | _ => (with_w s w, ires_of r) end | r => (s, ires_of r) end));
      [reflexivity|exact Hv|exists 0; intros k _; cbn [as_string e_w with_w]; rewrite Hf; reflexivity|reflexivity].
  - intros e s w path w' er Hv Hf.
    eapply (of_expr s _ e w _ (fun _ s v => match as_string true v with Ok p => let '(w, r) := fs_new E p (e_w s) in match r with Ok f => (mk_est (e_vars s) (Some f) w, IOk) | _ => (with_w s w, ires_of r) end | r => (s, ires_of r) end));
      [reflexivity|exact Hv|exists 0; intros k _; cbn [as_string e_w with_w]; rewrite Hf; reflexivity|reflexivity].
  - intros e s w v Hv Hn.
    eapply (of_expr s _ e w v (fun _ s v => match as_string true v with Ok p => let '(w, r) := fs_new E p (e_w s) in match r with Ok f => (mk_est (e_vars s) (Some f) w, IOk) | _ => (with_w s w, ires_of r) end | r => (s, ires_of r) end));
      [reflexivity|exact Hv|exists 0; intros k _; destruct v; try reflexivity; elim (Hn _ eq_refl)|reflexivity].
  - intros e s w He.
    eapply (of_error s _ e w (fun _ s v => match as_string true v with Ok p => let '(w, r) := fs_new E p (e_w s) in match r with Ok f => (mk_est (e_vars s) (Some f) w, IOk) | _ => (with_w s w, ires_of r) end | r => (s, ires_of r) end));
      [reflexivity|exact He].
  - intros e s w v txt s' q Hv Hp Hw. apply of_writes in Hw. destruct Hw as (r & Hw & Hq).
    eapply (of_expr s _ e w v (fun n s v => match print_text n (overflow_checks E) v with Ok txt => do_write E s (txt ++ nl) | r => (s, ires_of r) end)); [reflexivity|exact Hv| |exact Hq].
    assert (Ht : exists K, forall k, K <= k -> print_text k (overflow_checks E) v = Ok txt).
    { inversion Hp as [k0 l txt0 Hh|str0|v0 Hn1 Hn2]; subst.
      - exists k0. intros k Hk. cbn [print_text]. rewrite (as_hist_mono k0 k _ _ Hk); [exact Hh|rewrite Hh; discriminate].
      - exists 0. reflexivity.
      - exists 0. intros k _. destruct v as [z|p|b|l [|]|g|nm key ms]; try reflexivity; [elim (Hn2 _ eq_refl)|elim (Hn1 _ eq_refl)]. }
    destruct Ht as [K Ht]. exists K. intros k Hk. rewrite Ht by exact Hk. exact Hw.
  - intros e s w l k0 er Hv Hh.
    eapply (of_expr s _ e w _ (fun n s v => match print_text n (overflow_checks E) v with Ok txt => do_write E s (txt ++ nl) | r => (s, ires_of r) end)); [reflexivity|exact Hv|exists k0; intros k Hk; assert (Ht : as_hist k (overflow_checks E) l = Err er) by (rewrite (as_hist_mono k0 k _ _ Hk); [exact Hh|rewrite Hh; discriminate]); cbn [print_text]; rewrite Ht; reflexivity|reflexivity].
  - intros e s w He.
    eapply (of_error s _ e w (fun n s v => match print_text n (overflow_checks E) v with Ok txt => do_write E s (txt ++ nl) | r => (s, ires_of r) end)); [reflexivity|exact He].
  - intros e s w v s' q Hi Hv Hw. apply of_writes in Hw. destruct Hw as (r & Hw & Hq).
    eapply (of_expr s _ e w v (fun _ s v => if inter then do_write E s (display v ++ nl) else (s, IOk))); [reflexivity|exact Hv| |exact Hq]. exists 0. intros k _. rewrite Hi. exact Hw.
  - intros e s w v Hi Hv.
    eapply (of_expr s _ e w v (fun _ s v => if inter then do_write E s (display v ++ nl) else (s, IOk))); [reflexivity|exact Hv|exists 0; intros k _; rewrite Hi; reflexivity|reflexivity].
  - intros e s w He. eapply (of_error s _ e w (fun _ s v => if inter then do_write E s (display v ++ nl) else (s, IOk))); [reflexivity|exact He].
  - intros s. exists IOk. split; [|reflexivity]. apply runs_list_nil. auto.
  - intros s st l s1 s' q _ (r1 & H1 & Hq1) _ (r & Hr & Hq). assert (r1 = IOk) by (destruct r1; discriminate || reflexivity). subst r1.
    exists r. split; [|exact Hq]. apply runs_list_cons. left. eauto.
  - intros s st l s' q _ (r & Hr & Hq) Hn. exists r. split; [|exact Hq]. apply runs_list_cons. right. split; [|exact Hr]. intros ->. injection Hq as <-. congruence.
  - intros c b s w Hv. exists IOk. split; [|reflexivity]. apply wh_false. apply evals_value. exact Hv.
  - intros c b s w s1 q1 s' q Hv _ (r1 & H1 & Hq1) Hg _ (r & Hr & Hq). exists r. split; [|exact Hq]. eapply wh_again; [apply evals_value; exact Hv|exact H1| |exact Hr]. eapply ends_goes_on; eassumption.
  - intros c b s w s1 Hv _ (r1 & H1 & Hq1). assert (r1 = IBreak) by (destruct r1; discriminate || reflexivity). subst r1. exists IOk. split; [|reflexivity]. eapply wh_break; [apply evals_value; exact Hv|exact H1].
  - intros c b s w s1 q Hv _ (r1 & H1 & Hq1) Hg. exists r1. split; [|exact Hq1]. destruct (ends_aborts _ _ Hq1 Hg) as (N1 & N2 & N3). eapply wh_abort; [apply evals_value; exact Hv|exact H1|..]; assumption.
  - intros c b s w He. apply error_kind in He. destruct He as [[er He]|(v & Hv & Hk)].
    + exists (IErr er). split; [|reflexivity]. apply wh_cond_err. exact He.
    + exists (IErr (expected "boolean" v)). split; [|reflexivity]. eapply wh_not_bool; [exact Hv|]. apply not_bool. exact Hk.
  - intros x b s. exists IOk. split; [|reflexivity]. apply it_done.
  - intros x b v items s s1 s2 q1 s' q Ha _ (r1 & H1 & Hq1) Hg _ (r & Hr & Hq). exists r. split; [|exact Hq]. eapply it_next; [exact Ha|exact H1| |exact Hr]. eapply ends_goes_on; eassumption.
  - intros x b v items s s1 s2 Ha _ (r1 & H1 & Hq1). assert (r1 = IBreak) by (destruct r1; discriminate || reflexivity). subst r1. exists IOk. split; [|reflexivity]. eapply it_break; eassumption.
  - intros x b v items s s1 s2 q Ha _ (r1 & H1 & Hq1) Hg. exists r1. split; [|exact Hq1]. destruct (ends_aborts _ _ Hq1 Hg) as (N1 & N2 & N3). eapply it_abort; eassumption.
Qed.
End Complete.
Lemma exec_iff E inter s st s' q : (exists r, runs E inter s st s' r /\ ends r = Some q) <-> executes E inter s st s' q.
Proof. split; [intros (r & H & Hq); eapply stmt_sound; eassumption|apply all_complete]. Qed.
Lemma exec_list_iff E inter s l s' q : (exists r, runs_list E inter s l s' r /\ ends r = Some q) <-> executes_list E inter s l s' q.
Proof. split; [intros (r & H & Hq); eapply list_sound; [apply stmts_sound|eassumption|exact Hq]|apply all_complete]. Qed.
