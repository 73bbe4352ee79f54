(** C84: reported errors against Spec_Errors; expressions. *)
From Verif Require Import Base Ast Structs Definitions Value Variables Fs Eval Errors Lib Spec_Arith Spec_Vars Spec_Search Spec_Text Spec_Run Spec_Lang Spec_Exec Spec_Errors
  Proof_Arith Proof_Vars Proof_Run Proof_Search2 Proof_Session Proof_Text Proof_Lang.
Require Import Lia ZArith.
Arguments s_ s%string_scope.

(** ** Descriptions *)
Lemma described_short v : described v (short_display v).
Proof. destruct v; cbn [short_display]; constructor; intros H; inversion H. Qed.
Lemma described_fun v t : described v t -> t = short_display v.
Proof. intros H. inversion H as [| |v' H1 H2]; subst; try reflexivity. destruct v; try reflexivity; [elim H1|elim H2]; constructor. Qed.
Lemma expected_message what v : message (expected what v) = expected_text (s_ what) (short_display v).
Proof. reflexivity. Qed.
Lemma chk_text kd v : ~ has_kind kd v -> exists e, chk kd v = Err e /\ message e = expected_text (kind_word kd) (short_display v).
Proof. intros H. destruct kd, v; try (elim H; constructor; fail); eexists; split; reflexivity. Qed.
Lemma arity_message F : message (arity_error F) = arity_text F.
Proof. destruct F; reflexivity. Qed.

(** ** Operations *)
Lemma int_complaint E f l r op a b er : op <> OPlus -> op <> OEquals -> op <> ONotEquals -> op <> OLogicalAnd -> op <> OLogicalOr ->
  eval_int_op op a b = Err er -> complaint E f (EBin op l r) [VInt a; VInt b] (message er).
Proof.
  intros N1 N2 N3 N4 N5. destruct op; try contradiction; cbn [eval_int_op]; try discriminate; clear.
  - destruct (checked_cases (a - b)) as [[H ->]|[H ->]]; [discriminate|]. intros [= <-]. apply cp_overflow. constructor. exact H.
  - destruct (checked_cases (a * b)) as [[H ->]|[H ->]]; [discriminate|]. intros [= <-]. apply cp_overflow. constructor. exact H.
  - destruct (Z.eqb_spec b 0) as [->|H0]; [intros [= <-]; apply cp_zero; auto|]. unfold checked_div. destruct (Z.eqb_spec b 0); [contradiction|].
    unfold I128_MIN. destruct (Z.eqb_spec a (- 2 ^ 127)) as [->|]; destruct (Z.eqb_spec b (-1)) as [->|]; try discriminate. cbn [andb ok_or bind]. intros [= <-]. apply cp_overflow. apply ov_div. auto.
  - destruct (Z.eqb_spec b 0) as [->|H0]; [intros [= <-]; apply cp_zero; auto|]. unfold checked_rem. destruct (Z.eqb_spec b 0); [contradiction|].
    unfold I128_MIN. destruct (Z.eqb_spec a (- 2 ^ 127)) as [->|]; destruct (Z.eqb_spec b (-1)) as [->|]; try discriminate. cbn [andb ok_or bind]. intros [= <-]. apply cp_overflow. apply ov_div. auto.
  - unfold try_into_u, checked_shl. destruct (Z.leb_spec 0 b); destruct (Z.ltb_spec b (2 ^ 32)); cbn [andb bind]; try (intros [= <-]; apply cp_shift; [auto|lia]).
    destruct (Z.ltb_spec b 128); [discriminate|]. intros [= <-]. apply cp_overflow. apply ov_shift; [auto|lia].
  - unfold try_into_u, checked_shr. destruct (Z.leb_spec 0 b); destruct (Z.ltb_spec b (2 ^ 32)); cbn [andb bind]; try (intros [= <-]; apply cp_shift; [auto|lia]).
    destruct (Z.ltb_spec b 128); [discriminate|]. intros [= <-]. apply cp_overflow. apply ov_shift; [auto|lia].
Qed.
Lemma apply_complaint E f e ops vals er : operands e = Some ops -> typed ops vals -> apply_op E f e vals = Err er -> complaint E f e vals (message er).
Proof.
  destruct e; cbn [operands]; try discriminate.
  - intros [= <-] Ht. kinds Ht. cbn [apply_op]. destruct e2; try (intros [= <-]; apply cp_field_ident; discriminate).
    unfold get_field. destruct (assoc x ms) as [y|] eqn:Ea; [discriminate|]. intros [= <-]. apply cp_field. intros Hi.
    apply in_map_iff in Hi. destruct Hi as ((m & y) & Hm & Hy). cbn in Hm. subst m. clear - Ea Hy.
    induction ms as [|[m z] ms IH]; [contradiction|]. cbn [assoc] in Ea. destruct (str_eqb m x) eqn:He; [discriminate|].
    destruct Hy as [[= -> ->]|Hy]; [rewrite str_eqb_refl in He; discriminate|]. exact (IH Ea Hy).
  - intros [= <-] Ht. kinds Ht. cbn [apply_op]. unfold try_into_u. destruct (Z.leb_spec 0 z); destruct (Z.ltb_spec z (2 ^ 64)); cbn [andb bind]; try (intros [= <-]; apply cp_index_range; lia).
    destruct (Z.ltb_spec z (zlen l)).
    + destruct (nth_error l (Z.to_nat z)) eqn:En; [discriminate|]. apply nth_error_None in En. unfold zlen in *. lia.
    + intros [= <-]. apply cp_index. lia.
  - intros Ho Ht. destruct op; try discriminate Ho; injection Ho as <-; kinds Ht; try (cbn [apply_op]; apply int_complaint; discriminate); rewrite ?apply_eq, ?apply_ne, ?apply_plus; try discriminate.
    clear. match goal with |- eval_plus ?a ?b = _ -> _ => generalize a b end. intros a b. unfold eval_plus.
    assert (Hadd : ~ addable a b -> complaint E f (EBin OPlus e1 e2) [a; b] (message (ECannotAdd (type_str a) (type_str b)))) by (intros Hn; apply cp_add; [exact Hn|apply type_name_str|apply type_name_str]).
    destruct a as [a|a|a|l1 h1|g1|n1 k1 m1], b as [b|b|b|l2 h2|g2|n2 k2 m2]; try discriminate; try (intros [= <-]; apply Hadd; intros Hx; inversion Hx).
    destruct (checked_cases (a + b)) as [[H ->]|[H ->]]; [discriminate|]. intros [= <-]. apply cp_overflow. constructor. exact H.
  - intros Ho Ht. destruct op; injection Ho as <-; kinds Ht; cbn [apply_op eval_unop as_integer bind]; try discriminate.
    + match goal with |- context [complaint _ _ _ [?v] _] => destruct v end; try discriminate; intros [= <-]; rewrite expected_message; (apply cp_not; [intros Hx; inversion Hx|intros Hx; inversion Hx|apply described_short]).
    + destruct (neg_ok (overflow_checks E) z) as [[H ->]|[H ->]]; [discriminate|]. destruct (overflow_checks E); discriminate.
  - intros [= <-] Ht. kinds Ht. cbn [apply_op]. destruct (Z.ltb_spec z 0) as [Hz|Hz].
    + intros [= <-]. apply cp_negative. exact Hz.
    + intros H. apply cp_cast; assumption.
Qed.
Lemma call_complains k E f F args ps vals w w' er : parameters F args = Some ps -> typed ps vals -> call_fn k E f F vals w = (w', Err er) ->
  call_complaint E f F vals w w' (message er).
Proof.
  intros Hp Ht Hc. destruct F; destruct args as [|a [|b [|c [|d [|]]]]]; try discriminate Hp; injection Hp as <-; kinds Ht; cbn [call_fn] in Hc; unfold mret in Hc; try discriminate Hc.
  all: try (rewrite make_search_key_eq in Hc; discriminate Hc).
  - destruct k0 as [[[oid ty] off]|]; [rewrite make_disk_key_eq in Hc; discriminate Hc|]. injection Hc as <- <-. constructor.
  - eapply cc_search. exact Hc.
  - destruct (checked_cases (zlen l)) as [[H E1]|[H E1]]; rewrite E1 in Hc; [discriminate Hc|]. injection Hc as <- <-. constructor. exact H.
  - inversion Ht; subst. discriminate Hc.
Qed.

(** ** Every error of the evaluator is reported by the rules *)
Section Sound.
Variable k : nat.
Variable E : env.
Variable vs : vars value.
Variable f : option fs.
Notation ev := (eval_expr k E vs f).
Definition rsound (e : expr) : Prop := forall w w' er, ev e w = (w', Err er) -> reports E vs f e w w' (message er).
Lemma ev_gives e w w' v : ev e w = (w', Ok v) -> gives E vs f e w w' (Some v).
Proof. intros H. eapply eval_sound; [exact H|reflexivity]. Qed.
Lemma ops_gives ops w w' vals : eval_ops k E vs f ops w = (w', Ok vals) -> gives_all E vs f ops w w' (Some vals) /\ typed ops vals.
Proof. intros H. apply ops_sound in H; [exact H|]. apply Forall_forall. intros p _. apply eval_sound. Qed.
Lemma ops_reports ops : Forall (fun p => rsound (fst p)) ops -> forall w w' er, eval_ops k E vs f ops w = (w', Err er) ->
  reports_first E vs f ops w w' (message er).
Proof.
  induction 1 as [|[e kd] ops He Hops IH]; intros w w' er; cbn [eval_ops]; [discriminate|].
  cbn [fst] in He. unfold mbind. destruct (ev e w) as [w1 [v|er1|p|]] eqn:Ev; try discriminate.
  - unfold mret. destruct (chk_cases kd v) as [[Hk ->]|[Hk _]].
    + destruct (eval_ops k E vs f ops w1) as [w2 r2] eqn:Eo. destruct r2 as [l|er2|p|]; try discriminate. intros [= <- <-].
      eapply rf_later; [apply ev_gives; exact Ev|exact Hk|]. apply IH. exact Eo.
    + destruct (chk_text _ _ Hk) as (er2 & -> & Hm). intros [= <- <-]. rewrite Hm. eapply rf_kind; [apply ev_gives; exact Ev|exact Hk|apply described_short].
  - intros [= <- <-]. apply rf_fails. apply He. exact Ev.
Qed.
Lemma mbind_err {A B} (m : M A) (g : A -> M B) w w' er : mbind m g w = (w', Err er) ->
  (exists w1 a, m w = (w1, Ok a) /\ g a w1 = (w', Err er)) \/ m w = (w', Err er).
Proof. unfold mbind. destruct (m w) as [w1 [a|e|p|]] eqn:Em; intros H; [left; eauto|right|..]; try discriminate. injection H as <- <-. reflexivity. Qed.
Lemma op_reports e ops : operands e = Some ops -> Forall (fun p => rsound (fst p)) ops -> rsound e.
Proof.
  intros Ho HF w w' er H. rewrite (eval_op_eq _ _ _ _ _ _ _ Ho) in H. apply mbind_err in H. destruct H as [(w1 & vals & H1 & H2)|H1].
  - apply ops_gives in H1. destruct H1 as [H1 Ht]. unfold mret in H2. injection H2 as <- Hr. eapply re_op; [exact Ho|exact H1|]. eapply apply_complaint; eassumption.
  - eapply re_operand; [exact Ho|]. apply ops_reports; assumption.
Qed.
Lemma one_rsound e kd : rsound e -> Forall (fun p : expr * kind => rsound (fst p)) [(e, kd)].
Proof. intros H. constructor; [exact H|constructor]. Qed.
Lemma lazy_reports op l r : op = OLogicalAnd \/ op = OLogicalOr -> rsound l -> rsound r -> rsound (EBin op l r).
Proof.
  intros Hop Hl Hr w w' er H.
  assert (Hsh : ev (EBin op l r) w = (do a <- eval_ops k E vs f [(l, KBool)] ;;
     match a with [VBool x] => if Bool.eqb x (match op with OLogicalAnd => true | _ => false end) then
        (do b <- eval_ops k E vs f [(r, KBool)] ;; mret (match b with [v] => Ok v | _ => Fuel end)) else mret (Ok (VBool x)) | _ => mret Fuel end) w).
  { destruct Hop as [-> | ->]; cbn [eval_expr eval_ops]; unfold mbind, mret; (destruct (ev l w) as [w1 [a|er1|p|]]; try reflexivity); (destruct a as [z|z|b|z z1|z|z z1 z2]; try reflexivity);
      destruct b; cbn; try reflexivity; (destruct (ev r w1) as [w2 [a|er1|p|]]; try reflexivity); destruct a; reflexivity. }
  rewrite Hsh in H. clear Hsh. apply mbind_err in H. destruct H as [(w1 & a & H1 & H2)|H1].
  - apply ops_gives in H1. destruct H1 as [H1 Ht]. kinds Ht. inversion H1; subst.
    match goal with HH : gives_all _ _ _ [] _ _ _ |- _ => inversion HH; subst end.
    match type of H2 with (if ?c then _ else _) _ = _ => destruct c eqn:Hc end; [|discriminate H2].
    apply Bool.eqb_prop in Hc. apply mbind_err in H2. destruct H2 as [(w2 & bb & H3 & H4)|H3].
    + apply ops_gives in H3. destruct H3 as [H3 Ht3]. kinds Ht3. discriminate H4.
    + apply (ops_reports _ (one_rsound r KBool Hr)) in H3. eapply re_right; [|eassumption|exact H3]. destruct Hop as [-> | ->]; auto.
  - apply (ops_reports _ (one_rsound l KBool Hl)) in H1. apply re_left; assumption.
Qed.
Lemma params_rsound F args ps : parameters F args = Some ps -> Forall rsound args -> Forall (fun p => rsound (fst p)) ps.
Proof.
  intros Hp HF. destruct F; destruct args as [|a [|b [|c [|d [|]]]]]; try discriminate Hp; injection Hp as <-;
    repeat (inversion HF as [|? ? ? HF']; subst; clear HF; rename HF' into HF); repeat constructor; assumption.
Qed.
Lemma eval_reports e : rsound e.
Proof.
  induction e using expr_ind'; try (eapply op_reports; [reflexivity|repeat (constructor; cbn [fst]; try assumption)]; fail).
  - intros w w' er H. cbn [eval_expr] in H. unfold mret in H. injection H as <- He.
    destruct (vars_get_binding x vs) as [(i & Hi & Hg)|[Hu Hg]]; rewrite Hg in He.
    + destruct (binding vs i x) as [v|] eqn:Eb; [discriminate|destruct Hi; contradiction].
    + injection He as <-. apply re_unbound. exact Hu.
  - intros w w' er H. discriminate H.
  - intros w w' er H. discriminate H.
  - intros w w' er H. discriminate H.
  - intros w w' er H. constructor. apply IHe. exact H.
  - intros w w' er Hc. rewrite eval_call_eq in Hc. apply mbind_err in Hc. destruct Hc as [(w1 & fv & H1 & H2)|H1].
    + pose proof (ev_gives _ _ _ _ H1) as G1. destruct fv as [z|z|b|z z1|F|z z1 z2]; cbn [as_function] in H2; unfold mret at 1, mbind at 1 in H2;
        try (injection H2 as <- <-; rewrite expected_message; apply re_function; eapply (rf_kind E vs f _ KFunction); [exact G1|intros Hk; inversion Hk|apply described_short]).
      destruct (parameters F args) as [ps|] eqn:Ep.
      * pose proof (params_rsound _ _ _ Ep H) as HF. apply mbind_err in H2. destruct H2 as [(w2 & vals & H3 & H4)|H3].
        -- apply ops_gives in H3. destruct H3 as [H3 Ht]. eapply re_call; [exact G1|exact Ep|exact H3|]. eapply call_complains; eassumption.
        -- apply (ops_reports _ HF) in H3. eapply re_argument; eassumption.
      * injection H2 as <- <-. rewrite arity_message. eapply re_arity; eassumption.
    + apply re_function. apply rf_fails. apply IHe. exact H1.
  - destruct op; try (eapply op_reports; [reflexivity|repeat (constructor; cbn [fst]; try assumption)]; fail); apply lazy_reports; auto.
  - destruct op; (eapply op_reports; [reflexivity|repeat (constructor; cbn [fst]; try assumption)]).
Qed.
End Sound.

(** ** Every report of the rules is the evaluator's *)
Lemma int_complaint_back E f l r op a b m : op <> OPlus -> complaint E f (EBin op l r) [VInt a; VInt b] m -> exists er, eval_int_op op a b = Err er /\ message er = m.
Proof.
  intros Np H. inversion H; subst; try contradiction.
  - match goal with HH : overflows _ _ _ |- _ => inversion HH; subst end; try contradiction; cbn [eval_int_op].
    + destruct (checked_cases (a - b)) as [[? _]|[_ ->]]; [contradiction|]. eexists; split; reflexivity.
    + destruct (checked_cases (a * b)) as [[? _]|[_ ->]]; [contradiction|]. eexists; split; reflexivity.
    + match goal with HH : _ \/ _ |- _ => destruct HH as [-> | ->] end; eexists; split; reflexivity.
    + match goal with HH : _ \/ _ |- _ => destruct HH as [-> | ->] end; cbn [eval_int_op]; unfold try_into_u, checked_shl, checked_shr;
        (destruct (Z.leb_spec 0 b); [|lia]); (destruct (Z.ltb_spec b (2 ^ 32)); [|lia]); cbn [andb bind]; (destruct (Z.ltb_spec b 128); [lia|]); eexists; split; reflexivity.
  - match goal with HH : _ \/ _ |- _ => destruct HH as [-> | ->] end; eexists; split; reflexivity.
  - match goal with HH : _ \/ _ |- _ => destruct HH as [-> | ->] end; cbn [eval_int_op]; unfold try_into_u;
      (destruct (Z.leb_spec 0 b); destruct (Z.ltb_spec b (2 ^ 32)); cbn [andb bind]; try (exfalso; lia)); eexists; split; reflexivity.
Qed.
Lemma assoc_none {A} (n : str) (ms : list (str * A)) : ~ In n (map fst ms) -> assoc n ms = None.
Proof.
  induction ms as [|[m x] ms IH]; cbn; [reflexivity|]. intros H. destruct (str_eqb m n) eqn:He; [apply str_eqb_eq in He; tauto|]. apply IH. tauto.
Qed.
Lemma complaint_apply E f e ops vals m : operands e = Some ops -> typed ops vals -> complaint E f e vals m -> exists er, apply_op E f e vals = Err er /\ message er = m.
Proof.
  intros Ho Ht H. destruct e; try discriminate Ho.
  - inversion H; subst; cbn [apply_op].
    + destruct e2; try (eexists; split; reflexivity). exfalso. match goal with HN : forall n, EIdent _ <> _ |- _ => exact (HN _ eq_refl) end.
    + unfold get_field. rewrite assoc_none by assumption. eexists; split; reflexivity.
  - inversion H; subst; cbn [apply_op]; unfold try_into_u.
    + destruct (Z.leb_spec 0 z); destruct (Z.ltb_spec z (2 ^ 64)); cbn [andb bind]; try (exfalso; lia); eexists; split; reflexivity.
    + assert (0 <= zlen l)%Z by (unfold zlen; lia). destruct (Z.leb_spec 0 z); [|lia]. destruct (Z.ltb_spec z (2 ^ 64)); [|lia]. cbn [andb bind].
      destruct (Z.ltb_spec z (zlen l)); [lia|]. eexists; split; reflexivity.
  - destruct op; try discriminate Ho; injection Ho as <-; kinds Ht;
      try (cbn [apply_op]; eapply int_complaint_back; [discriminate|exact H]); rewrite ?apply_eq, ?apply_ne, ?apply_plus.
    + inversion H; subst.
      * repeat match goal with HH : type_name _ _ |- _ => apply type_name_fun in HH; subst end.
        unfold eval_plus. match goal with HN : ~ addable ?a ?b |- _ => destruct a, b; try (elim HN; constructor; fail); eexists; split; reflexivity end.
      * match goal with HH : overflows _ _ _ |- _ => inversion HH; subst end; try (match goal with HH : _ \/ _ |- _ => destruct HH; discriminate end).
        cbn [eval_plus]. destruct (checked_cases (a + b)) as [[? _]|[_ ->]]; [contradiction|]. eexists; split; reflexivity.
      * match goal with HH : _ \/ _ |- _ => destruct HH; discriminate end.
      * match goal with HH : _ \/ _ |- _ => destruct HH; discriminate end.
    + exfalso. inversion H; subst; try (match goal with HH : _ \/ _ |- _ => destruct HH; discriminate end).
      match goal with HH : overflows _ _ _ |- _ => inversion HH; subst end; match goal with HH : _ \/ _ |- _ => destruct HH; discriminate end.
    + exfalso. inversion H; subst; try (match goal with HH : _ \/ _ |- _ => destruct HH; discriminate end).
      match goal with HH : overflows _ _ _ |- _ => inversion HH; subst end; match goal with HH : _ \/ _ |- _ => destruct HH; discriminate end.
  - inversion H; subst; cbn [apply_op eval_unop]. match goal with HH : described _ _ |- _ => apply described_fun in HH; subst end.
    match goal with HN : ~ has_kind KInt ?v, HB : ~ has_kind KBool ?v |- _ => destruct v; try (elim HN; constructor; fail); try (elim HB; constructor; fail) end; eexists; split; reflexivity.
  - inversion H; subst; cbn [apply_op].
    + destruct (Z.ltb_spec z 0); [|lia]. eexists; split; reflexivity.
    + destruct (Z.ltb_spec z 0); [lia|]. eexists; split; [eassumption|reflexivity].
Qed.
Lemma complaint_call E f F vals w w' m : call_complaint E f F vals w w' m -> exists K, forall k, K <= k -> exists er, call_fn k E f F vals w = (w', Err er) /\ message er = m.
Proof.
  intros H. inversion H; subst; cbn [call_fn]; unfold mret.
  - exists 0. intros k _. eexists; split; reflexivity.
  - exists 0. intros k _. destruct (checked_cases (zlen l)) as [[? _]|[_ ->]]; [contradiction|]. eexists; split; reflexivity.
  - exists k. intros k' Hk. eexists. split; [eapply eval_search_mono; [exact Hk|eassumption|discriminate]|reflexivity].
Qed.

Scheme reports_mind := Induction for reports Sort Prop with reports_first_mind := Induction for reports_first Sort Prop.
Section Complete.
Variable E : env.
Variable vs : vars value.
Variable f : option fs.
Definition rcompletes (e : expr) (w w' : world) (m : text) : Prop :=
  exists K, forall k, K <= k -> exists er, eval_expr k E vs f e w = (w', Err er) /\ message er = m.
Definition rcompletes_all (ops : list (expr * kind)) (w w' : world) (m : text) : Prop :=
  exists K, forall k, K <= k -> exists er, eval_ops k E vs f ops w = (w', Err er) /\ message er = m.
Lemma gives_up e w w' v : gives E vs f e w w' (Some v) -> exists K, forall k, K <= k -> eval_expr k E vs f e w = (w', Ok v).
Proof. intros H. apply eval_complete in H. destruct H as [K H]. exists K. intros k Hk. destruct (H k Hk) as (r & H1 & H2). apply shows_ok in H2. subst r. exact H1. Qed.
Lemma gives_all_up ops w w' vals : gives_all E vs f ops w w' (Some vals) -> (exists K, forall k, K <= k -> eval_ops k E vs f ops w = (w', Ok vals)) /\ typed ops vals.
Proof.
  revert w vals. induction ops as [|[e kd] ops IH]; intros w vals H; inversion H; subst.
  - split; [exists 0; reflexivity|constructor].
  - match goal with HH : gives_all _ _ _ ops _ _ _ |- _ => apply IH in HH; destruct HH as [[K1 Hops] Ht] end.
    match goal with HG : gives _ _ _ e _ _ _ |- _ => apply gives_up in HG; destruct HG as [K2 Hev] end.
    split; [|constructor; assumption]. exists (Nat.max K1 K2). intros k Hk. cbn [eval_ops]. unfold mbind, mret. rewrite Hev by lia.
    destruct (chk_cases kd v) as [[_ ->]|[Hn _]]; [|contradiction]. rewrite Hops by lia. reflexivity.
Qed.
Lemma one_up e kd w w' m : rcompletes_all [(e, kd)] w w' m -> exists K, forall k, K <= k -> exists er, message er = m /\
  (eval_expr k E vs f e w = (w', Err er) \/ exists v, eval_expr k E vs f e w = (w', Ok v) /\ chk kd v = Err er).
Proof.
  intros [K H]. exists K. intros k Hk. destruct (H k Hk) as (er & H1 & H2). exists er. split; [exact H2|]. cbn [eval_ops] in H1. apply mbind_err in H1.
  destruct H1 as [(w1 & v & H3 & H4)|H3]; [|left; exact H3]. right. apply mbind_err in H4. destruct H4 as [(w2 & u & H5 & H6)|H5]; [discriminate H6|].
  unfold mret in H5. injection H5 as <- H5. eauto.
Qed.
Lemma reports_complete e w w' m : reports E vs f e w w' m -> rcompletes e w w' m.
Proof.
  revert e w w' m. apply (reports_mind E vs f (fun e w w' m _ => rcompletes e w w' m) (fun ops w w' m _ => rcompletes_all ops w w' m)).
  - intros x w Hu. exists 0. intros k _. cbn [eval_expr]. unfold mret. rewrite (proj2 (vars_get_none _ _) Hu). eexists. split; reflexivity.
  - intros e w w' m _ H. exact H.
  - intros e ops w w' m Ho _ [K H]. exists K. intros k Hk. destruct (H k Hk) as (er & H1 & H2). rewrite (eval_op_eq _ _ _ _ _ _ _ Ho). unfold mbind, mret. rewrite H1. eauto.
  - intros e ops w w' vals m Ho Hg Hc. apply gives_all_up in Hg. destruct Hg as [[K Hg] Ht]. exists K. intros k Hk. rewrite (eval_op_eq _ _ _ _ _ _ _ Ho). unfold mbind, mret. rewrite Hg by exact Hk.
    destruct (complaint_apply _ _ _ _ _ _ Ho Ht Hc) as (er & -> & Hm). eauto.
  - intros op l r w w' m Hop _ H0. apply one_up in H0. destruct H0 as [K0 H0]. exists K0. intros k Hk. destruct (H0 k Hk) as (er & Hm & [H1|(v & H1 & H2)]).
    + destruct Hop as [-> | ->]; cbn [eval_expr]; unfold mbind; rewrite H1; eauto.
    + destruct v; try discriminate H2; destruct Hop as [-> | ->]; cbn [eval_expr]; unfold mbind, mret; rewrite H1; cbn in H2 |- *; eexists; (split; [reflexivity|congruence]).
  - intros op t l r w w1 w' m Hop Hg _ H0. apply gives_up in Hg. destruct Hg as [K Hg]. apply one_up in H0. destruct H0 as [K0 H0]. exists (Nat.max K K0). intros k Hk.
    specialize (Hg k ltac:(lia)). destruct (H0 k ltac:(lia)) as (er & Hm & [H1|(v & H1 & H2)]).
    + destruct Hop as [[-> ->]|[-> ->]]; cbn [eval_expr]; unfold mbind, mret; rewrite Hg; cbn [as_boolean]; rewrite H1; eauto.
    + destruct v; try discriminate H2; destruct Hop as [[-> ->]|[-> ->]]; cbn [eval_expr]; unfold mbind, mret; rewrite Hg; cbn [as_boolean]; rewrite H1; cbn in H2 |- *; eexists; (split; [reflexivity|congruence]).
  - intros fe args w w' m _ H0. apply one_up in H0. destruct H0 as [K0 H0]. exists K0. intros k Hk. destruct (H0 k Hk) as (er & Hm & [H1|(v & H1 & H2)]); rewrite eval_call_eq; unfold mbind at 1; rewrite H1.
    + eauto.
    + unfold mbind at 1, mret at 1. destruct v; try discriminate H2; cbn in H2 |- *; eexists; (split; [reflexivity|congruence]).
  - intros fe args F w w' Hg Hp. apply gives_up in Hg. destruct Hg as [K Hg]. exists K. intros k Hk. rewrite eval_call_eq. unfold mbind at 1. rewrite Hg by exact Hk.
    cbn [as_function]. unfold mbind at 1, mret at 1. rewrite Hp. eexists; split; [reflexivity|apply arity_message].
  - intros fe args F ps w w1 w' m Hg Hp _ [K0 H0]. apply gives_up in Hg. destruct Hg as [K Hg]. exists (Nat.max K K0). intros k Hk. rewrite eval_call_eq. unfold mbind at 1. rewrite Hg by lia.
    cbn [as_function]. unfold mbind at 1, mret at 1. rewrite Hp. destruct (H0 k ltac:(lia)) as (er & H1 & H2). unfold mbind. rewrite H1. eauto.
  - intros fe args F ps w w1 w2 w' vals m Hg Hp Ha Hc. apply gives_up in Hg. destruct Hg as [K Hg]. apply gives_all_up in Ha. destruct Ha as [[K0 Ha] _].
    apply complaint_call in Hc. destruct Hc as [K2 Hc]. exists (Nat.max K (Nat.max K0 K2)). intros k Hk. rewrite eval_call_eq. unfold mbind at 1. rewrite Hg by lia.
    cbn [as_function]. unfold mbind at 1, mret at 1. rewrite Hp. unfold mbind. rewrite Ha by lia. apply Hc. lia.
  - intros e kd ops w w' m _ [K H]. exists K. intros k Hk. destruct (H k Hk) as (er & H1 & H2). cbn [eval_ops]. unfold mbind. rewrite H1. eauto.
  - intros e kd ops w w' v t Hg Hk Hd. apply gives_up in Hg. destruct Hg as [K Hg]. exists K. intros k Hle. cbn [eval_ops]. unfold mbind, mret. rewrite Hg by exact Hle.
    destruct (chk_text _ _ Hk) as (er & -> & Hm). apply described_fun in Hd. subst t. eauto.
  - intros e kd ops w w1 w' v m Hg Hk _ [K0 H0]. apply gives_up in Hg. destruct Hg as [K Hg]. exists (Nat.max K K0). intros k Hle. cbn [eval_ops]. unfold mbind, mret. rewrite Hg by lia.
    destruct (chk_cases kd v) as [[_ ->]|[Hn _]]; [|contradiction]. destruct (H0 k ltac:(lia)) as (er & -> & H2). eauto.
Qed.
End Complete.

Lemma evals_reports E s e w m : (exists er, evals E s e w (Err er) /\ message er = m) <-> reports E (e_vars s) (e_fs s) e (e_w s) w m.
Proof.
  split.
  - intros (er & [_ [k H]] & <-). eapply eval_reports. exact H.
  - intros H. apply reports_complete in H. destruct H as [K H]. destruct (H K (le_n K)) as (er & H1 & H2). exists er. split; [|exact H2].
    split; [discriminate|]. exists K. exact H1.
Qed.
Lemma reports_fun E vs f e w w1 w2 m1 m2 : reports E vs f e w w1 m1 -> reports E vs f e w w2 m2 -> w1 = w2 /\ m1 = m2.
Proof.
  intros H1 H2. apply (proj2 (evals_reports E (mk_est vs f w) e _ _)) in H1. apply (proj2 (evals_reports E (mk_est vs f w) e _ _)) in H2.
  destruct H1 as (r1 & H1 & Ho1), H2 as (r2 & H2 & Ho2). destruct (evals_fun _ _ _ _ _ _ _ H1 H2) as [-> He]. injection He as ->. split; congruence.
Qed.
