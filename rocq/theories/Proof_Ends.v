(** Proofs for C74. *)
From Verif Require Import Base Ast Pom Parse Structs Definitions Value Variables Semantics Fs Eval Runtime Lib Spec_Vars Spec_Run Spec_Session Spec_Text Spec_Decode Spec_Search Spec_Safe Spec_Ends
  Proof_Vars Proof_Run Proof_Session Proof_Decode Proof_Decode2 Proof_Search Proof_Search2 Proof_Hist Proof_Display Proof_Safe.
Require Import Lia.
Arguments s_ s%string_scope.

(** ** Expressions *)
Definition settles {A} (P : A -> Prop) (m : nat -> M A) : Prop :=
  forall w, exists w' r K, r <> Fuel /\ (forall a, r = Ok a -> P a) /\ forall K', K <= K' -> m K' w = (w', r).
Lemma settles_ret {A} (r : res A) : r <> Fuel -> settles (fun a => r = Ok a) (fun _ => mret r).
Proof. intros H w. exists w, r, 0. split; [exact H|]. split; [auto|reflexivity]. Qed.
Lemma settles_ret' {A} (r : res A) : r <> Fuel -> settles (fun _ => True) (fun _ => mret r).
Proof. intros H w. exists w, r, 0. split; [exact H|]. split; [auto|reflexivity]. Qed.
Lemma settles_bind {A B} (P : A -> Prop) (Q : B -> Prop) (m : nat -> M A) (g : nat -> A -> M B) :
  settles P m -> (forall a, P a -> settles Q (fun k => g k a)) -> settles Q (fun k => mbind (m k) (g k)).
Proof.
  intros Hm Hg w. destruct (Hm w) as (w1 & r & K & Hr & HP & HK). destruct r as [a|e|p|]; [|..|congruence].
  - destruct (Hg a (HP a eq_refl) w1) as (w2 & r2 & K2 & Hr2 & HQ & HK2). exists w2, r2, (Nat.max K K2). split; [exact Hr2|]. split; [exact HQ|].
    intros K' Hle. unfold mbind. rewrite HK by lia. apply HK2. lia.
  - exists w1, (Err e), K. split; [discriminate|]. split; [discriminate|]. intros K' Hle. unfold mbind. rewrite HK by lia. reflexivity.
  - exists w1, (Panic p), K. split; [discriminate|]. split; [discriminate|]. intros K' Hle. unfold mbind. rewrite HK by lia. reflexivity.
Qed.
Lemma bind_nf {A B} (m : res A) (g : A -> res B) : m <> Fuel -> (forall a, m = Ok a -> g a <> Fuel) -> bind m g <> Fuel.
Proof. destruct m as [a|e|p|]; cbn; intros H1 H2; [apply H2; reflexivity|discriminate|discriminate|congruence]. Qed.
Lemma ensure_nf c e : ensure c e <> Fuel. Proof. destruct c; discriminate. Qed.
Lemma ok_or_nf {A} (o : option A) e : ok_or o e <> Fuel. Proof. destruct o; discriminate. Qed.
Lemma extract_nf oc nr buf : forall off ret coll, extract oc nr buf off ret coll <> Fuel.
Proof.
  induction nr as [|nr IH]; intros off ret coll; cbn [extract]; [discriminate|].
  assert (B : forall a b, buf_slice buf a b <> Fuel) by (intros a b; unfold buf_slice; repeat match goal with |- context [if ?c then _ else _] => destruct c end; discriminate).
  apply bind_nf; [apply ensure_nf|]. intros _ _. apply bind_nf; [apply B|]. intros hb _. cbv zeta. apply bind_nf; [apply ensure_nf|]. intros _ _. apply bind_nf; [apply B|]. intros bytes _.
  match goal with |- context [if ?c then _ else _] => destruct c end; [|apply IH]. apply bind_nf; [|intros c' _; apply IH]. unfold i32_incr. repeat match goal with |- context [if ?c then _ else _] => destruct c end; discriminate.
Qed.
Section Ends.
Context (E : env) (HT : env_typed E) (HH : kernel_honest E).
Lemma search_settles fd k : request_ok k -> settles (Forall raw_item) (fun K => fs_search K E (FsMounted fd) k).
Proof.
  intros Hk w. destruct (HH fd) as (states & Hs).
  assert (N : exists K0, forall K, K0 <= K -> snd (fs_search K E (FsMounted fd) k w) <> Fuel).
  { destruct (negb (sk_max_objectid k =? U64_MAX)%Z || negb (sk_max_type k =? U8_MAX)%Z || negb (sk_max_offset k =? U64_MAX)%Z || negb (sk_max_transid k =? U64_MAX)%Z) eqn:Hb.
    - apply (bounded_search_terminates E fd states k w Hs Hk). unfold bounded. rewrite !orb_true_iff, !negb_true_iff, !Z.eqb_neq in Hb. unfold U64_MAX, U8_MAX in Hb. tauto.
    - exists 1. intros [|K] HK; [lia|]. unfold fs_search. rewrite Hb. cbn [search_loop]. destruct (ioctl E (tick w) fd k) as [nr buf|nr buf|]; [| |discriminate];
      (pose proof (extract_nf (overflow_checks E) (Z.to_nat nr) buf 0 [] 0) as X; destruct (extract (overflow_checks E) (Z.to_nat nr) buf 0 [] 0) as [[ret' coll']| | |]; cbn [negb orb snd]; try discriminate; try congruence;
       apply bind_nf; [apply ensure_nf|discriminate]). }
  destruct N as (K0 & HK0). destruct (fs_search K0 E (FsMounted fd) k w) as [w' r] eqn:Hf. exists w', r, K0.
  assert (Hr : r <> Fuel) by (specialize (HK0 K0 (le_n _)); rewrite Hf in HK0; exact HK0). split; [exact Hr|]. split.
  - intros items ->. exact (honest_items_raw K0 E fd states k w w' items Hs Hf).
  - intros K' Hle. unfold fs_search in *. eapply search_loop_mono; eassumption.
Qed.
Lemma as_struct_nf v : as_struct v <> Fuel. Proof. destruct v; discriminate. Qed.
Lemma as_integer_nf v : as_integer v <> Fuel. Proof. destruct v; discriminate. Qed.
Lemma as_boolean_nf v : as_boolean v <> Fuel. Proof. destruct v; discriminate. Qed.
Lemma as_vec_nf v : as_vec v <> Fuel. Proof. destruct v; discriminate. Qed.
Lemma as_function_nf v : as_function v <> Fuel. Proof. destruct v; discriminate. Qed.
Lemma try_nf b z : try_into_u b z <> Fuel. Proof. unfold try_into_u. destruct (_ && _)%bool; discriminate. Qed.
Lemma search_settles_all f tree key : settles (fun _ => True) (fun K => eval_search K E f tree key).
Proof.
  unfold eval_search. apply (settles_bind (fun _ => True)); [apply settles_ret'; apply as_struct_nf|]. intros [[n ky] flds] _.
  apply (settles_bind (fun _ => True)); [apply settles_ret'; apply ensure_nf|]. intros _ _. destruct f as [f|]; [|apply settles_ret'; discriminate].
  apply (settles_bind (fun sk => search_args tree flds = Ok sk)).
  { apply settles_ret. destruct (search_args_err tree flds) as [(k & ->)|(e & -> & _)]; discriminate. }
  intros sk Hsk. apply search_args_ok in Hsk. assert (Hreq : request_ok sk) by (unfold requested in Hsk; tauto).
  apply (settles_bind (Forall raw_item)).
  { destruct f as [fd|img]; [apply search_settles; exact Hreq|]. intros w. exists w, (Err EUnmountedSearch), 0. split; [discriminate|]. split; [discriminate|reflexivity]. }
  intros cs Hcs. apply (settles_bind (fun _ => True)); [|intros vs _; apply settles_ret'; discriminate].
  intros w. destruct (decode_chunks (overflow_checks E) cs w) as [w' r] eqn:Hd. exists w', r, 0. destruct (decode_chunks_any _ _ Hcs _ _ _ Hd) as (_ & _ & H).
  split; [destruct H as [(vs & ->)|(e & ->)]; discriminate|]. split; [auto|reflexivity].
Qed.
Lemma plus_nf a b : eval_plus a b <> Fuel.
Proof. unfold eval_plus. destruct a, b; try discriminate. apply bind_nf; [apply ok_or_nf|discriminate]. Qed.
Lemma int_op_nf op a b : eval_int_op op a b <> Fuel.
Proof.
  destruct op; cbn [eval_int_op]; try discriminate; try (destruct (b =? 0)%Z; [discriminate|]); repeat (apply bind_nf; [apply ok_or_nf || apply try_nf|intros ? _]); discriminate.
Qed.
Lemma unop_nf oc op v : eval_unop oc op v <> Fuel.
Proof.
  destruct op; cbn [eval_unop].
  - apply bind_nf; [apply as_integer_nf|discriminate].
  - destruct v; discriminate.
  - apply bind_nf; [apply as_integer_nf|]. intros z _. apply bind_nf; [|discriminate]. unfold i128_neg. repeat match goal with |- context [if ?c then _ else _] => destruct c end; discriminate.
Qed.
Lemma cast_nf f t z : fs_ok f -> eval_cast E f t z <> Fuel.
Proof.
  intros Hf. unfold eval_cast. destruct t; try discriminate. destruct (find _ STRUCTS) as [s|] eqn:Hs; [|discriminate]. cbn [unwrap bind]. apply find_some in Hs. destruct Hs as [Hs _].
  destruct f as [f|]; [|discriminate]. apply bind_nf; [unfold usize_add; repeat match goal with |- context [if ?c then _ else _] => destruct c end; discriminate|]. intros stop _.
  destruct f as [fd|img]; cbn [get_bytes bind]; [discriminate|]. specialize (Hf img eq_refl). unfold get_range. destruct ((z <=? stop) && (stop <=? zlen img))%Z; [|discriminate].
  cbn [ok_or bind]. match goal with |- from_bytes ?oc s None ?b <> Fuel => destruct (decode_total oc s None b Hs) as [(ms & ->)|(e & ->)]; try discriminate end.
  destruct Hf as [H1 H2]. split; [apply Forall_firstn, Forall_skipn; exact H1|]. unfold zlen in *. rewrite firstn_length, skipn_length. lia.
Qed.
Lemma get_field_nf s fs n : get_field s fs n <> Fuel. Proof. unfold get_field. destruct (assoc n fs); discriminate. Qed.
Lemma set_fields_nf s l : forall fs, set_fields s l fs <> Fuel.
Proof.
  induction l as [|[n v] l IH]; intros fs; cbn [set_fields]; [discriminate|]. apply bind_nf; [|intros fs' _; apply IH]. unfold set_field.
  assert (G : forall fs r, assoc_update n (fun _ : value => Ok v) fs = Some r -> r <> Fuel).
  { clear. induction fs as [|[m x] fs IH]; intros r; cbn [assoc_update]; [discriminate|]. destruct (str_eqb m n); [intros H; injection H as <-; discriminate|].
    destruct (assoc_update n (fun _ : value => Ok v) fs) as [r0|]; [|discriminate]. intros H; injection H as <-. apply bind_nf; [apply IH; reflexivity|discriminate]. }
  destruct (assoc_update n (fun _ : value => Ok v) fs) eqn:H; [exact (G _ _ H)|discriminate].
Qed.
Lemma search_key_nf oc a b c d : make_search_key oc a b c d <> Fuel.
Proof. destruct oc; vm_compute; discriminate. Qed.
Lemma expr_settles vs f e : fs_ok f -> settles (fun _ => True) (fun K => eval_expr K E vs f e).
Proof.
  intros Hf. assert (S : forall r : res value, r <> Fuel -> settles (fun _ => True) (fun _ => mret r)) by (intros; apply settles_ret'; assumption).
  induction e as [y| | | |e IH|e fld IHe IHf|e i IHe IHi|f0 args IHf IHa|op l r IHl IHr|op e IH|t e IHt IHe] using expr_ind'; cbn [eval_expr]; try (apply S; discriminate).
  - apply S. apply ok_or_nf.
  - exact IH.
  - apply (settles_bind (fun _ => True)); [exact IHe|intros v _]. apply (settles_bind (fun _ => True)); [apply settles_ret'; apply as_struct_nf|intros [[nm ky] fl] _]. destruct fld; apply S; try discriminate. apply get_field_nf.
  - apply (settles_bind (fun _ => True)); [exact IHe|intros v _]. apply (settles_bind (fun _ => True)); [apply settles_ret'; apply as_vec_nf|intros l _].
    apply (settles_bind (fun _ => True)); [exact IHi|intros iv _]. apply (settles_bind (fun _ => True)); [apply settles_ret'; apply as_integer_nf|intros z _].
    apply (settles_bind (fun _ => True)); [apply settles_ret'; apply try_nf|intros u0 _]. apply S. destruct (u0 <? zlen l)%Z; [apply ok_or_nf|discriminate].
  - apply (settles_bind (fun _ => True)); [exact IHf|intros fv _]. apply (settles_bind (fun _ => True)); [apply settles_ret'; apply as_function_nf|intros fn _].
    rewrite Forall_forall in IHa.
    assert (I : forall a g, In a args -> (forall v, settles (fun _ : value => True) (fun K => g K v)) -> settles (fun _ => True) (fun K => mbind (eval_expr K E vs f a) (g K))).
    { intros a g Ha Hg. apply (settles_bind (fun _ => True)); [exact (IHa a Ha)|intros v _; apply Hg]. }
    assert (N : forall v g, (forall z, settles (fun _ : value => True) (fun K => g K z)) -> settles (fun _ => True) (fun K => mbind (mret (as_integer v)) (g K))).
    { intros v g Hg. apply (settles_bind (fun _ => True)); [apply settles_ret'; apply as_integer_nf|intros z _; apply Hg]. }
    destruct fn.
    + destruct args as [|a [|b [|c [|d [|]]]]]; try (apply S; discriminate).
      apply (I a (fun K va => _)); [cbn; auto|intros va]. apply (N va (fun K _ => _)). intros _. apply (I b (fun K vb => _)); [cbn; auto|intros vb]. apply (N vb (fun K _ => _)). intros _.
      apply (I c (fun K vc => _)); [cbn; auto|intros vc]. apply (N vc (fun K _ => _)). intros _. apply (I d (fun K vd => _)); [cbn; auto 6|intros vd]. apply (N vd (fun K _ => _)). intros _.
      apply S. apply search_key_nf.
    + destruct args as [|a [|]]; try (apply S; discriminate). apply (I a (fun K va => _)); [cbn; auto|intros va].
      apply (settles_bind (fun _ => True)); [apply settles_ret'; apply as_struct_nf|intros [[nm ky] fl] _]. destruct ky as [[[o t] g]|]; [|apply S; discriminate]. apply S. rewrite make_disk_key_eq. discriminate.
    + destruct args as [|a [|b [|]]]; try (apply S; discriminate). apply (I a (fun K va => _)); [cbn; auto|intros va]. apply (N va (fun K tree => _)). intros tree.
      apply (I b (fun K vb => _)); [cbn; auto|intros vb]. apply search_settles_all.
    + destruct args as [|a [|]]; try (apply S; discriminate). apply (I a (fun K va => _)); [cbn; auto|intros va]. apply S. discriminate.
    + destruct args as [|a [|]]; try (apply S; discriminate). apply (I a (fun K va => _)); [cbn; auto|intros va].
      apply (settles_bind (fun _ => True)); [apply settles_ret'; apply as_vec_nf|intros l _]. apply S. apply bind_nf; [apply ok_or_nf|discriminate].
    + destruct args as [|a args]; apply S; discriminate.
    + destruct args as [|a [|]]; try (apply S; discriminate). apply (I a (fun K va => _)); [cbn; auto|intros va]. apply S. destruct va; discriminate.
  - assert (Hop : settles (fun _ => True) (fun K => do a <- eval_expr K E vs f l ;; do x <- mret (as_integer a) ;; do b <- eval_expr K E vs f r ;; do y <- mret (as_integer b) ;; mret (eval_int_op op x y))).
    { apply (settles_bind (fun _ => True)); [exact IHl|intros a _]. apply (settles_bind (fun _ => True)); [apply settles_ret'; apply as_integer_nf|intros x _].
      apply (settles_bind (fun _ => True)); [exact IHr|intros b _]. apply (settles_bind (fun _ => True)); [apply settles_ret'; apply as_integer_nf|intros y _]. apply S. apply int_op_nf. }
    destruct op; try exact Hop.
    + apply (settles_bind (fun _ => True)); [exact IHl|intros a _]. apply (settles_bind (fun _ => True)); [exact IHr|intros b _]. apply S. apply plus_nf.
    + apply (settles_bind (fun _ => True)); [exact IHl|intros a _]. apply (settles_bind (fun _ => True)); [exact IHr|intros b _]. apply S. discriminate.
    + apply (settles_bind (fun _ => True)); [exact IHl|intros a _]. apply (settles_bind (fun _ => True)); [exact IHr|intros b _]. apply S. discriminate.
    + apply (settles_bind (fun _ => True)); [exact IHl|intros a _]. apply (settles_bind (fun _ => True)); [apply settles_ret'; apply as_boolean_nf|intros x _]. destruct x; [|apply S; discriminate].
      apply (settles_bind (fun _ => True)); [exact IHr|intros b _]. apply (settles_bind (fun _ => True)); [apply settles_ret'; apply as_boolean_nf|intros y _]. apply S. discriminate.
    + apply (settles_bind (fun _ => True)); [exact IHl|intros a _]. apply (settles_bind (fun _ => True)); [apply settles_ret'; apply as_boolean_nf|intros x _]. destruct x; [apply S; discriminate|].
      apply (settles_bind (fun _ => True)); [exact IHr|intros b _]. apply (settles_bind (fun _ => True)); [apply settles_ret'; apply as_boolean_nf|intros y _]. apply S. discriminate.
  - apply (settles_bind (fun _ => True)); [exact IH|intros v _]. apply S. apply unop_nf.
  - apply (settles_bind (fun _ => True)); [exact IHe|intros v _]. apply (settles_bind (fun _ => True)); [apply settles_ret'; apply as_integer_nf|intros z _]. destruct (z <? 0)%Z; apply S; [discriminate|]. apply cast_nf. exact Hf.
Qed.

Lemma lhs_settles vs f e : fs_ok f -> forall g : value -> res value, (forall v, g v <> Fuel) -> settles (fun _ => True) (fun K => lhs_assign K E vs f e g).
Proof.
  intros Hf. induction e as [y| | | |e IH|e fld IHe IHf|e i IHe IHi|f0 args IHf IHa|op l r IHl IHr|op e IH|t e IHt IHe] using expr_ind'; intros g Hg; cbn [lhs_assign]; try (apply settles_ret'; discriminate).
  - apply settles_ret'. apply bind_nf; [apply ok_or_nf|intros v _]. apply bind_nf; [apply Hg|intros v' _]. destruct (vars_replace y v' vs); discriminate.
  - destruct fld; try (apply settles_ret'; discriminate). apply IHe. intros v. destruct v as [| | | | |n key fl]; try discriminate.
    assert (G : forall fs r, assoc_update x g fs = Some r -> r <> Fuel).
    { clear - Hg. induction fs as [|[m y] fs IH]; intros r; cbn [assoc_update]; [discriminate|]. destruct (str_eqb m x); [intros H; injection H as <-; apply bind_nf; [apply Hg|discriminate]|].
      destruct (assoc_update x g fs) as [r0|]; [|discriminate]. intros H; injection H as <-. apply bind_nf; [apply IH; reflexivity|discriminate]. }
    destruct (assoc_update x g fl) eqn:H; [|discriminate]. apply bind_nf; [exact (G _ _ H)|discriminate].
  - apply (settles_bind (fun _ => True)); [apply expr_settles; exact Hf|intros iv _]. apply (settles_bind (fun _ => True)); [apply settles_ret'; apply as_integer_nf|intros z _].
    apply IHe. intros v. destruct v as [| | |l h| |]; try discriminate. apply bind_nf; [apply try_nf|intros u _]. destruct (u <? zlen l)%Z; [|discriminate].
    apply bind_nf; [apply ok_or_nf|intros x _]. apply bind_nf; [apply Hg|discriminate].
Qed.

(** ** Statements *)
Context (inter : bool).
Definition ends (s : est) (st : stmt) : Prop := exists s' r, runs E inter s st s' r.
Definition ends_list (s : est) (l : list stmt) : Prop := exists s' r, runs_list E inter s l s' r.
Lemma evals_total s e : fs_ok (e_fs s) -> exists w r, evals E s e w r.
Proof. intros Hf. destruct (expr_settles (e_vars s) (e_fs s) e Hf (e_w s)) as (w & r & K & Hr & _ & HK). exists w, r. split; [exact Hr|]. exists K. apply HK. lia. Qed.
Lemma ires_nf {A} (r : res A) : r <> Fuel -> ires_of r <> IFuel. Proof. destruct r; cbn; congruence. Qed.
Lemma with_expr_ends s e (c : nat -> est -> value -> est * ires) : fs_ok (e_fs s) ->
  (forall w v, evals E s e w (Ok v) -> exists K p, snd p <> IFuel /\ forall K', K <= K' -> c K' (with_w s w) v = p) ->
  exists K p, snd p <> IFuel /\ forall K', K <= K' -> with_expr K' E s e (c K') = p.
Proof.
  intros Hf Hc. destruct (evals_total s e Hf) as (w & r & He). pose proof He as (Hr & k & Hk).
  assert (U : forall K', k <= K' -> eval_expr K' E (e_vars s) (e_fs s) e (e_w s) = (w, r)) by (intros; eapply expr_up; eassumption).
  destruct r as [v|x|p|]; [|..|congruence].
  - destruct (Hc w v He) as (K & p & Hp & HK). exists (Nat.max k K), p. split; [exact Hp|]. intros K' HK'. unfold with_expr. rewrite U by lia. apply HK. lia.
  - exists k, (with_w s w, IErr x). split; [discriminate|]. intros K' HK'. unfold with_expr. rewrite U by lia. reflexivity.
  - exists k, (with_w s w, IPanic p). split; [discriminate|]. intros K' HK'. unfold with_expr. rewrite U by lia. reflexivity.
Qed.
Lemma do_write_nf s t : snd (do_write E s t) <> IFuel.
Proof. unfold do_write. destruct (sink _ _ _); discriminate. Qed.
Lemma est_insert_nf x v s : snd (est_insert x v s) <> IFuel.
Proof. unfold est_insert. destruct (vars_insert _ _ _); discriminate. Qed.
Lemma settled_ends s st : (exists K p, snd p <> IFuel /\ forall K', K <= K' -> eval_stmt (S K') E inter s st = p) -> ends s st.
Proof. intros (K & [s' r] & Hp & HK). exists s', r. split; [exact Hp|]. exists (S K). apply HK. lia. Qed.

Lemma est_after_expr d s (e : expr) w : est_ok d s -> est_ok d (with_w s w).
Proof. intros (H1 & H2 & H3 & H4). exact (conj H1 (conj H2 (conj H3 H4))). Qed.
Lemma est_enter d s : est_ok d s -> est_ok (S d) (enter s).
Proof. intros (H1 & H2 & H3 & H4). split; [cbn; lia|]. split; [lia|]. split; [constructor; [constructor|exact H3]|exact H4]. Qed.
Lemma est_assigned d s x v s1 : est_ok d s -> all_i128 v -> assigned s x v s1 -> est_ok d s1.
Proof.
  intros Hs Hv (vs & Hi & ->). destruct (est_insert_good False E d True x v s Hs Hv) as [G _]. unfold est_insert in G. rewrite Hi in G. exact G.
Qed.
Lemma assigned_total d s x v : est_ok d s -> all_i128 v -> exists s1, assigned s x v s1.
Proof.
  intros (H1 & H2 & H3 & H4) Hv. destruct (vars_insert_good x v (e_vars s) Hv H3) as (vs & Hi & _); [intros X; rewrite X in H1; cbn in H1; lia|].
  exists (mk_est vs (e_fs s) (e_w s)), vs. auto.
Qed.
Lemma est_list d s l s' r : est_ok d s -> Forall (stmt_ok False) l -> runs_list E inter s l s' r -> est_ok d s'.
Proof. intros Hs Hl (_ & n & Hn). destruct (run_list_good False E _ (eval_stmt_good False E inter HT n) l d s Hs Hl) as [G _]. rewrite Hn in G. exact G. Qed.
Lemma est_stmt d s st s' r : est_ok d s -> stmt_ok False st -> runs E inter s st s' r -> est_ok d s'.
Proof. intros Hs Hl (_ & n & Hn). destruct (eval_stmt_good False E inter HT n d s st Hs Hl) as [G _]. rewrite Hn in G. exact G. Qed.
Lemma evals_i128 d s e w v : est_ok d s -> expr_ok False e -> evals E s e w (Ok v) -> all_i128 v.
Proof. intros (H1 & H2 & H3 & H4) He (_ & k & Hk). pose proof (eval_expr_good False k E HT _ _ H3 H4 e He (e_w s)) as G. rewrite Hk in G. exact G. Qed.

(** the statements that may not end *)
Definition critical (q : est) (st : stmt) : Prop := (exists c b, st = SWhile c b) \/ large_histogram E q st.
Definition fine (s : est) (l : list stmt) : Prop := forall st q, arrives E inter s l st q -> critical q st -> ends q st.
Lemma arrives_tail s st l st' q : arrives E inter s [st] st' q -> arrives E inter s (st :: l) st' q.
Proof.
  intros H. inversion H; subst; try (econstructor; eassumption). match goal with H : arrives _ _ _ [] _ _ |- _ => inversion H end.
Qed.
Lemma ends_list_of l : Forall (fun st => forall d s, est_ok d s -> stmt_ok False st -> fine s [st] -> ends s st) l ->
  forall d s, est_ok d s -> Forall (stmt_ok False) l -> fine s l -> ends_list s l.
Proof.
  induction 1 as [|st l Hst _ IH]; intros d s Hs Hl HF; [exists s, IOk; apply runs_list_nil; auto|]. inversion_clear Hl as [|? ? Ho Hl'].
  destruct (Hst d s Hs Ho) as (s1 & r & Hr). { intros st' q Ha. apply HF. apply arrives_tail. exact Ha. }
  destruct r; try (exists s1; eexists; apply runs_list_cons; right; split; [|exact Hr]; discriminate).
  destruct (IH d s1 (est_stmt _ _ _ _ _ Hs Ho Hr) Hl') as (s2 & r & H2). { intros st' q Ha. apply HF. eapply ar_later; eassumption. }
  exists s2, r. apply runs_list_cons. left. eauto.
Qed.
Lemma iterates_ends x b : (forall d s, est_ok d s -> fine s b -> ends_list s b) -> Forall (stmt_ok False) b ->
  forall items d s, est_ok d s -> Forall all_i128 items ->
  (forall st q, arrives_for E inter x b items s st q -> critical q st -> ends q st) ->
  exists s' r, iterates E inter x b items s s' r.
Proof.
  intros Hb Ho. induction items as [|v items IH]; intros d s Hs Hi HF; [exists s, IOk; constructor|]. inversion_clear Hi as [|? ? Hv Hi'].
  destruct (assigned_total d s x v Hs Hv) as (s1 & Ha). pose proof (est_assigned _ _ _ _ _ Hs Hv Ha) as Hs1.
  destruct (Hb d s1 Hs1) as (s2 & r & Hr). { intros st q Hq. apply HF. eapply af_now; eassumption. }
  pose proof (est_list _ _ _ _ _ Hs1 Ho Hr) as Hs2.
  assert (Q : r = IOk \/ r = IContinue -> exists s' r, iterates E inter x b (v :: items) s s' r).
  { intros Q. destruct (IH d s2 Hs2 Hi') as (s3 & r3 & H3). { intros st q Hq. apply HF. eapply af_later; eassumption. }
    exists s3, r3. eapply it_next; eassumption. }
  destruct r; try (apply Q; tauto); try (exists s2; eexists; eapply it_break; eassumption); exists s2; eexists; eapply it_abort; try eassumption; discriminate.
Qed.
Lemma stmt_ends st : forall d s, est_ok d s -> stmt_ok False st -> fine s [st] -> ends s st.
Proof.
  induction st as [lhs e|c tb fb IHt IHf|c b IH|i rg b IH| | | | |e|e|e] using stmt_ind'; intros d s Hs Ho HF; pose proof Hs as (D1 & D2 & D3 & D4).
  - apply settled_ends. cbn [eval_stmt]. apply (with_expr_ends s e (fun K => _) D4). intros w v He.
    assert (L : exists K p, snd p <> IFuel /\ forall K', K <= K' -> (let '(w0, r) := lhs_assign K' E (e_vars (with_w s w)) (e_fs (with_w s w)) lhs (fun _ => Ok v) (e_w (with_w s w)) in
      match r with Ok vs => (mk_est vs (e_fs (with_w s w)) w0, IOk) | _ => (with_w (with_w s w) w0, ires_of r) end) = p).
    { destruct (lhs_settles (e_vars (with_w s w)) (e_fs (with_w s w)) lhs D4 (fun _ => Ok v) ltac:(discriminate) (e_w (with_w s w))) as (w' & r & K & Hr & _ & HK).
      exists K, (match r with Ok vs => (mk_est vs (e_fs (with_w s w)) w', IOk) | _ => (with_w (with_w s w) w', ires_of r) end). split; [destruct r; cbn; congruence|].
      intros K' HK'. rewrite HK by lia. reflexivity. }
    destruct lhs; try exact L. exists 0. eexists. split; [|reflexivity]. apply est_insert_nf.
  - destruct (evals_total (enter s) c D4) as (w & r & He). pose proof (est_after_expr _ _ c w (est_enter _ _ Hs)) as Hs1.
    destruct r as [v|x|p|].
    + destruct v as [| |t| | |];
        try (eexists _, _; apply runs_if; eexists; split; [reflexivity|]; right; left; eexists _, _; split; [exact He|]; split; [discriminate|auto]).
      assert (HT2 : stmt_ok False (SIf c tb fb)) by exact Ho. unfold stmt_ok in Ho. cbn [exprs] in Ho. inversion_clear Ho as [|? ? _ Ho']. apply Forall_app in Ho'. destruct Ho' as [Ho1 Ho2]. apply stmts_ok in Ho1, Ho2.
      assert (X : ends_list (with_w (enter s) w) (if t then tb else fb)).
      { apply (ends_list_of (if t then tb else fb) ltac:(destruct t; assumption) (S d)); [exact Hs1|destruct t; assumption|]. intros st q Hq. apply HF. eapply ar_if; eassumption. }
      destruct X as (s1 & r & Hr). eexists _, _. apply runs_if. eexists. split; [reflexivity|]. left. eauto.
    + eexists _, _. apply runs_if. eexists. split; [reflexivity|]. right. right. left. eauto.
    + eexists _, _. apply runs_if. eexists. split; [reflexivity|]. right. right. right. eauto.
    + destruct He; congruence.
  - apply HF; [constructor|left; eauto].
  - assert (Hi : (exists x, i = EIdent x) \/ forall x, i <> EIdent x) by (destruct i; eauto; right; discriminate).
    destruct Hi as [(x & ->)|Hi].
    2:{ apply settled_ends. exists 0, (s, IErr EForIdent). split; [discriminate|]. intros K' _. cbn [eval_stmt].
        destruct i; try (elim (Hi _ eq_refl)); unfold in_scope, with_vars, push_scope; cbn [pop_scope e_vars e_fs e_w]; destruct s; reflexivity. }
    destruct (evals_total (enter s) rg D4) as (w & r & He). pose proof (est_after_expr _ _ rg w (est_enter _ _ Hs)) as Hs1.
    destruct r as [v|y|p|].
    + destruct v as [| | |items h| |];
        try (eexists _, _; apply runs_for; eexists; split; [reflexivity|]; right; left; eexists _, _; split; [exact He|]; split; [discriminate|auto]).
      unfold stmt_ok in Ho. cbn [exprs] in Ho. apply Forall_cons_iff in Ho. destruct Ho as [_ Ho]. apply Forall_cons_iff in Ho. destruct Ho as [Hrg Ho']. apply stmts_ok in Ho'.
      assert (Hv : Forall all_i128 items) by (pose proof (evals_i128 _ _ _ _ _ (est_enter _ _ Hs) Hrg He) as V; apply ai_arr in V; exact V).
      destruct (iterates_ends x b) with (items := items) (d := S d) (s := with_w (enter s) w) as (s1 & r & Hr); try assumption.
      { intros d0 s0 Hs0 HF0. exact (ends_list_of b IH d0 s0 Hs0 Ho' HF0). }
      { intros st q Hq. apply HF. eapply ar_for; eassumption. }
      eexists _, _. apply runs_for. eexists. split; [reflexivity|]. left. eauto.
    + eexists _, _. apply runs_for. eexists. split; [reflexivity|]. right. right. left. eauto.
    + eexists _, _. apply runs_for. eexists. split; [reflexivity|]. right. right. right. eauto.
    + destruct He; congruence.
  - apply settled_ends. cbn [eval_stmt]. exists 0. eexists. split; [|reflexivity]. discriminate.
  - apply settled_ends. cbn [eval_stmt]. exists 0. eexists. split; [|reflexivity]. discriminate.
  - apply settled_ends. cbn [eval_stmt]. exists 0. eexists. split; [|reflexivity]. apply do_write_nf.
  - apply settled_ends. cbn [eval_stmt]. exists 0. eexists. split; [|reflexivity]. discriminate.
  - apply settled_ends. cbn [eval_stmt]. apply (with_expr_ends s e (fun K => _) D4). intros w v He. exists 0. eexists. split; [|reflexivity].
    destruct v; try discriminate. cbn [as_string]. unfold fs_new. cbn [snd].
    match goal with |- snd (match ?r with Ok _ => _ | _ => _ end) <> IFuel => assert (R : r <> Fuel); [|destruct r; cbn; congruence] end.
    destruct (open_path E _ _) as [fd st|img|]; try discriminate; (apply bind_nf; [apply ok_or_nf|intros ? _]; apply bind_nf; [apply ensure_nf|discriminate]).
  - destruct (evals_total s e D4) as (w & r & He). destruct r as [v|x|p|]; [|..|destruct He; congruence].
    2,3: destruct He as (_ & k & Hk); apply settled_ends; exists k; eexists; (split; [|intros K' HK'; cbn [eval_stmt]; unfold with_expr; rewrite (expr_up _ _ _ _ _ _ K' _ _ Hk ltac:(discriminate) HK'); reflexivity]); discriminate.
    assert (Hv : (exists vec, v = VArr vec true) \/ forall vec, v <> VArr vec true) by (destruct v as [| | |? []| |]; eauto; right; discriminate).
    destruct Hv as [(vec & ->)|Hv].
    2:{ assert (Ht : exists t, print_text 0 (overflow_checks E) v = Ok t). { destruct v as [| | |vec [|]| |]; try (eexists; reflexivity). elim (Hv vec eq_refl). }
        destruct Ht as [t Ht]. exists (fst (do_write E (with_w s w) (t ++ nl))), (snd (do_write E (with_w s w) (t ++ nl))). apply (runs_print_plain _ _ _ _ _ _ _ _ He Hv). exists t. split; [exact Ht|apply surjective_pairing]. }
    assert (Hvec : Forall all_i128 vec).
    { unfold stmt_ok in Ho. cbn [exprs] in Ho. apply Forall_cons_iff in Ho. destruct Ho as [Ho _]. pose proof (evals_i128 _ _ _ _ _ Hs Ho He) as V. apply ai_arr in V. exact V. }
    assert (Hcase : (exists v, In v vec /\ forall z, v <> VInt z) \/ exists vals, vec = map VInt vals).
    { clear. induction vec as [|v vec [(x & Hx & Hn)|(vals & ->)]]; [right; exists []; reflexivity|left; exists x; cbn; auto|].
      destruct v as [z| | | | |]; try (left; eexists; split; [left; reflexivity|discriminate]). right. exists (z :: vals). reflexivity. }
    destruct Hcase as [Hn|(vals & ->)].
    { destruct (hist_vals_other _ Hn) as (u & _ & _ & Hu). eexists _, _. apply (runs_print _ _ _ _ _ _ _ _ He). right. left. exists 0. eexists. split; [|eauto]. unfold as_hist. rewrite Hu. reflexivity. }
    destruct vals as [|z vals]; [eexists _, _; apply (runs_print _ _ _ _ _ _ _ _ He); left; exists 0; eexists; split; [reflexivity|apply surjective_pairing]|].
    destruct (as_hist_big 400 (overflow_checks E) (z :: vals)) as [((t & Ht) & _)|[(_ & x & Hx & Hb)|(Hp & _)]]; [lia|discriminate| | | |].
    + intros x Hx. rewrite Forall_forall in Hvec. specialize (Hvec (VInt x) (in_map VInt _ _ Hx)). apply ai_int in Hvec. unfold i128 in Hvec. clear - Hvec. lia.
    + eexists _, _. apply (runs_print _ _ _ _ _ _ _ _ He). left. exists 400, t. split; [exact Ht|apply surjective_pairing].
    + apply HF; [constructor|]. right. exists e, w, (map VInt (z :: vals)), x. split; [reflexivity|]. split; [exact He|]. split; [apply in_map; exact Hx|exact Hb].
    + eexists _, _. apply (runs_print _ _ _ _ _ _ _ _ He). right. right. eauto.
  - apply settled_ends. cbn [eval_stmt]. apply (with_expr_ends s e (fun K => _) D4). intros w v He. exists 0. eexists. split; [|reflexivity]. destruct inter; [apply do_write_nf|discriminate].
Qed.
Lemma fine_ends l d s : est_ok d s -> Forall (stmt_ok False) l -> fine s l -> ends_list s l.
Proof. apply ends_list_of. apply Forall_forall. intros st _. apply stmt_ends. Qed.
End Ends.

(** ** A program that ends has ended every statement it comes to *)
Scheme arrives_mind := Induction for arrives Sort Prop
  with arrives_while_mind := Induction for arrives_while Sort Prop
  with arrives_for_mind := Induction for arrives_for Sort Prop.
Combined Scheme arrives_mutind from arrives_mind, arrives_while_mind, arrives_for_mind.
Lemma arrived_ends E inter :
  (forall s l st q, arrives E inter s l st q -> (exists s' r, runs_list E inter s l s' r) -> exists s' r, runs E inter q st s' r) /\
  (forall c b s st q, arrives_while E inter c b s st q -> (exists s' r, whiles E inter c b s s' r) -> exists s' r, runs E inter q st s' r) /\
  (forall x b items s st q, arrives_for E inter x b items s st q -> (exists s' r, iterates E inter x b items s s' r) -> exists s' r, runs E inter q st s' r).
Proof.
  assert (HD : forall s x l s' r, runs_list E inter s (x :: l) s' r -> exists s' r, runs E inter s x s' r).
  { intros s x l s' r H. apply runs_list_cons in H. destruct H as [(s1 & H & _)|[_ H]]; eauto. }
  apply arrives_mutind.
  - intros s st l (s' & r & H). eapply HD; exact H.
  - intros s x s1 l st q Hx _ IH (s' & r & H). apply IH. apply runs_list_cons in H. destruct H as [(s2 & H1 & H2)|[Hn H]].
    + destruct (runs_fun _ _ _ _ _ _ _ _ Hx H1) as [-> _]. eauto.
    + destruct (runs_fun _ _ _ _ _ _ _ _ Hx H) as [_ <-]. congruence.
  - intros s c tb fb l w t st q He _ IH (s' & r & H). apply HD in H. destruct H as (s2 & r2 & H). apply runs_if in H.
    destruct H as (s3 & _ & [(w1 & t1 & H1 & H2)|[(w1 & v & H1 & Hn & _)|[(w1 & er & H1 & _)|(w1 & p & H1 & _)]]]); destruct (evals_fun _ _ _ _ _ _ _ He H1) as [<- Hq]; try discriminate Hq.
    + injection Hq as <-. apply IH. eauto.
    + injection Hq as <-. elim (Hn t eq_refl).
  - intros s c b l st q _ IH (s' & r & H). apply HD in H. destruct H as (s2 & r2 & H). apply runs_while in H. destruct H as (s1 & H & _). apply IH. eauto.
  - intros s x e b l w items h st q He _ IH (s' & r & H). apply HD in H. destruct H as (s2 & r2 & H). apply runs_for in H.
    destruct H as (s3 & _ & [(w1 & it & h1 & H1 & H2)|[(w1 & v & H1 & Hn & _)|[(w1 & er & H1 & _)|(w1 & p & H1 & _)]]]); destruct (evals_fun _ _ _ _ _ _ _ He H1) as [<- Hq]; try discriminate Hq.
    + injection Hq as <- <-. apply IH. eauto.
    + injection Hq as <-. elim (Hn items h eq_refl).
  - intros c b s w st q He _ IH (s' & r & H). apply IH.
    inversion H; subst; match goal with H1 : evals _ s c _ _ |- _ => destruct (evals_fun _ _ _ _ _ _ _ He H1) as [? Hq]; subst; try discriminate Hq end; eauto.
    all: injection Hq as <-; match goal with Hn : forall t, _ <> VBool t |- _ => elim (Hn true eq_refl) end.
  - intros c b s w s2 r0 st q He Hb Hr _ IH (s' & r & H). apply IH.
    inversion H; subst; match goal with H1 : evals _ s c _ _ |- _ => destruct (evals_fun _ _ _ _ _ _ _ He H1) as [? Hq]; subst; try discriminate Hq end;
      try (match goal with H1 : runs_list _ _ _ b _ _ |- _ => destruct (runs_list_fun _ _ _ _ _ _ _ _ Hb H1) as [? ?]; subst end); eauto.
    all: try (destruct Hr; congruence).
    all: injection Hq as <-; match goal with Hn : forall t, _ <> VBool t |- _ => elim (Hn true eq_refl) end.
  - intros x b v items s s1 st q Ha _ IH (s' & r & H). apply IH. destruct Ha as (vs & Hi & ->).
    inversion H; subst; match goal with H1 : assigned _ _ _ _ |- _ => destruct H1 as (vs' & Hi' & ?); rewrite Hi in Hi'; injection Hi' as <-; subst end; eauto.
  - intros x b v items s s1 s2 r0 st q Ha Hb Hr _ IH (s' & r & H). apply IH. destruct Ha as (vs & Hi & ->).
    inversion H; subst; match goal with H1 : assigned _ _ _ _ |- _ => destruct H1 as (vs' & Hi' & ?); rewrite Hi in Hi'; injection Hi' as <-; subst end;
      match goal with H1 : runs_list _ _ _ b _ _ |- _ => destruct (runs_list_fun _ _ _ _ _ _ _ _ Hb H1) as [? ?]; subst end; eauto; destruct Hr; congruence.
Qed.
Lemma arrives_sub E inter :
  (forall s l st q, arrives E inter s l st q -> In st (flat_map substmts l)) /\
  (forall c b s st q, arrives_while E inter c b s st q -> In st (flat_map substmts b)) /\
  (forall x b items s st q, arrives_for E inter x b items s st q -> In st (flat_map substmts b)).
Proof.
  apply arrives_mutind; intros; auto; cbn [flat_map]; rewrite ?in_app_iff; auto.
  - left. destruct st; cbn; auto.
  - left. destruct t; cbn [substmts]; right; rewrite in_app_iff; auto.
  - left. cbn [substmts]. right. auto.
  - left. cbn [substmts]. right. auto.
Qed.
