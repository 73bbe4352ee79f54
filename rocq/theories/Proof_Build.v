(** Proofs for C97. *)
From Verif Require Import Base Ast Pom Parse Structs Definitions Value Variables Semantics Fs Eval Runtime Input Main Process Lib Spec_Run Spec_Text Spec_Session Spec_Search Spec_Safe Spec_Driver Spec_Build
  Proof_Run Proof_Fs Proof_Vars Proof_Session Proof_Parse Proof_Safe Proof_Driver Proof_Process.
From Coq Require Import Lia.
Arguments s_ s%string_scope.

(** ** Results *)
Definition rp {A} (a b : res A) : Prop := a = b \/ exists p, a = Panic p.
Lemma rp_refl {A} (a : res A) : rp a a. Proof. left. reflexivity. Qed.
Lemma rp_bind {A B} (a b : res A) (f g : A -> res B) : rp a b -> (forall x, rp (f x) (g x)) -> rp (bind a f) (bind b g).
Proof. intros [->|[p ->]] H; [|right; exists p; reflexivity]. destruct b as [x|e|p|]; cbn [bind]; [apply H|left; reflexivity|left; reflexivity|left; reflexivity]. Qed.
Lemma rp_add a b : rp (usize_add true a b) (usize_add false a b).
Proof. unfold usize_add. destruct (_ <? _)%Z; [left; reflexivity|right; eauto]. Qed.
Lemma rp_mul a b : rp (usize_mul true a b) (usize_mul false a b).
Proof. unfold usize_mul. destruct (_ <? _)%Z; [left; reflexivity|right; eauto]. Qed.
Lemma rp_neg a : rp (i128_neg true a) (i128_neg false a).
Proof. unfold i128_neg. match goal with |- context [if ?c then _ else _] => destruct c end; [left; reflexivity|right; eauto]. Qed.
Lemma rp_incr a : rp (i32_incr true a) (i32_incr false a).
Proof. unfold i32_incr. destruct (_ <? _)%Z; [left; reflexivity|right; eauto]. Qed.
Ltac rpb := repeat (first [apply rp_refl|apply rp_add|apply rp_mul|apply rp_neg|apply rp_incr|apply rp_bind; [first [apply rp_refl|apply rp_add|apply rp_mul|apply rp_neg|apply rp_incr]|intros ?]]).

(** ** Histograms *)
Lemma rp_pretty k z : rp (num_bytes_to_pretty k true z) (num_bytes_to_pretty k false z).
Proof.
  unfold num_bytes_to_pretty. apply rp_bind; [apply rp_refl|intros o]. apply rp_bind; [apply rp_refl|intros p]. destruct (negb _); [apply rp_refl|]. destruct (z =? 0)%Z; [apply rp_refl|]. cbv zeta.
  apply rp_bind; [destruct (z <? 0)%Z; [apply rp_neg|apply rp_refl]|intros b]. apply rp_refl.
Qed.
Lemma rp_lines k n bs : rp (hist_lines k true n bs) (hist_lines k false n bs).
Proof.
  induction bs as [|b bs IH]; cbn [hist_lines]; [apply rp_refl|]. apply rp_bind.
  - unfold hist_line. destruct b as [[s e] c]. apply rp_bind; [apply rp_pretty|intros x]. apply rp_bind; [apply rp_pretty|intros y]. apply rp_refl.
  - intros l. apply rp_bind; [exact IH|intros r; apply rp_refl].
Qed.
Lemma rp_print k v : rp (print_text k true v) (print_text k false v).
Proof.
  unfold print_text. destruct v as [| | |vs [|]| |]; try apply rp_refl. unfold as_hist. apply rp_bind; [apply rp_refl|intros [|x l]]; [apply rp_refl|]. cbv zeta.
  apply rp_bind; [apply rp_refl|intros o]. apply rp_bind; [apply rp_refl|intros c]. apply rp_bind; [apply rp_refl|intros bs]. apply rp_lines.
Qed.

(** ** Decoding *)
Section Decoding.
Context (dy dy' : str -> (Z -> Z -> Z -> bool) -> (str -> res (list field)) -> str -> res (list (str * value) * Z))
        (HD : forall n km cb b, rp (dy n km cb b) (dy' n km cb b)).
Lemma rp_trail (ev ev' : str -> res value) ts c : (forall b, rp (ev b) (ev' b)) -> forall b o, rp (trail_loop true ev ts c b o) (trail_loop false ev' ts c b o).
Proof.
  intros He. induction c as [|c IH]; intros b o; cbn [trail_loop]; [apply rp_refl|]. apply rp_bind; [apply rp_add|intros st]. apply rp_bind; [apply rp_refl|intros sl].
  apply rp_bind; [apply He|intros v]. apply rp_bind; [apply IH|intros r]. apply rp_refl.
Qed.
Lemma rp_field tv tv' f : (forall b, rp (tv (snd f) b) (tv' (snd f) b)) -> forall b, rp (field_from_bytes tv f b) (field_from_bytes tv' f b).
Proof. intros Ht b. unfold field_from_bytes. apply rp_bind; [apply rp_refl|intros _]. apply rp_bind; [apply Ht|intros v]. apply rp_refl. Qed.
(* the types that decoding a field looks at *)
Definition look (tv tv' : ty -> str -> res value) (t : ty) : Prop :=
  (forall b, rp (tv t b) (tv' t b)) /\ match t with TTrailTypes t' _ => forall b, rp (tv t' b) (tv' t' b) | _ => True end.
Lemma rp_struct tv tv' nm km fs : Forall (fun f => look tv tv' (snd f)) fs -> forall b o acc,
  rp (struct_loop true dy tv nm km fs b o acc) (struct_loop false dy' tv' nm km fs b o acc).
Proof.
  induction fs as [|f fs IH]; intros HF b o acc; cbn [struct_loop]; [apply rp_refl|]. pose proof (Forall_inv HF) as Hf. apply Forall_inv_tail in HF. specialize (IH HF).
  assert (G : rp (let* rest := slice_from b o in let* r := field_from_bytes tv f rest in let* o' := usize_add true o (ty_size (snd f)) in struct_loop true dy tv nm km fs b o' (acc ++ r))
                 (let* rest := slice_from b o in let* r := field_from_bytes tv' f rest in let* o' := usize_add false o (ty_size (snd f)) in struct_loop false dy' tv' nm km fs b o' (acc ++ r))).
  { apply rp_bind; [apply rp_refl|intros rest]. apply rp_bind; [apply rp_field; apply Hf|intros r]. apply rp_bind; [apply rp_add|intros o']. apply IH. }
  destruct (snd f) as [| | | |t n|n' km' fs'|n' fs'|n|t n|cb] eqn:Ht; try exact G.
  - apply rp_bind; [apply rp_refl|intros len]. apply rp_bind; [apply rp_add|intros stop]. apply rp_bind; [apply rp_refl|intros _]. apply rp_bind; [apply rp_refl|intros n']. apply rp_bind; [apply rp_refl|intros s].
    apply rp_bind; [apply rp_add|intros o']. apply IH.
  - apply rp_bind; [apply rp_refl|intros count]. apply rp_bind; [apply rp_mul|intros total]. apply rp_bind; [apply rp_add|intros stop]. apply rp_bind; [apply rp_refl|intros _].
    apply rp_bind; [apply rp_trail; cbv beta in Hf; rewrite Ht in Hf; exact (proj2 Hf)|intros r]. apply rp_bind; [apply rp_refl|intros n']. apply IH.
  - apply rp_bind; [apply rp_refl|intros rest]. apply rp_bind; [apply HD|intros r]. apply rp_bind; [apply rp_add|intros o']. apply IH.
Qed.
Lemma rp_union tv tv' fs b : Forall (fun f => forall b, rp (tv (snd f) b) (tv' (snd f) b)) fs -> forall acc, rp (union_loop tv fs b acc) (union_loop tv' fs b acc).
Proof.
  induction fs as [|f fs IH]; intros HF acc; cbn [union_loop]; [apply rp_refl|]. pose proof (Forall_inv HF) as Hf. apply Forall_inv_tail in HF. apply rp_bind; [apply rp_field; exact Hf|intros r]. exact (IH HF _).
Qed.
Lemma rp_array ev ev' ts n : (forall b, rp (ev b) (ev' b)) -> forall i b, rp (array_loop ev ts n i b) (array_loop ev' ts n i b).
Proof.
  intros He. induction n as [|n IH]; intros i b; cbn [array_loop]; [apply rp_refl|]. apply rp_bind; [apply rp_refl|intros rest]. apply rp_bind; [apply He|intros v]. apply rp_bind; [apply IH|intros r]. apply rp_refl.
Qed.
Lemma rp_value : forall t, look (to_value true dy) (to_value false dy') t.
Proof.
  fix IH 1. intros t. split.
  - destruct t as [| | | |t n|nm km fs|nm fs|n|t n|cb]; intros b; cbn [to_value]; try apply rp_refl.
    + apply rp_bind; [apply rp_array; exact (proj1 (IH t))|intros vs; apply rp_refl].
    + apply rp_bind; [apply rp_refl|intros _]. apply rp_bind; [|intros r; apply rp_refl]. apply rp_struct.
      induction fs as [|f fs IHf]; constructor; [exact (IH (snd f))|exact IHf].
    + apply rp_bind; [|intros r; apply rp_refl]. apply rp_union. induction fs as [|f fs IHf]; constructor; [exact (proj1 (IH (snd f)))|exact IHf].
  - destruct t; try exact I. exact (proj1 (IH t)).
Qed.
Lemma rp_gen s key b : rp (from_bytes_gen true dy s key b) (from_bytes_gen false dy' s key b).
Proof.
  unfold from_bytes_gen. apply rp_bind; [apply rp_refl|intros _]. apply rp_bind; [|intros r; apply rp_refl]. apply rp_struct. apply Forall_forall. intros f _. apply rp_value.
Qed.
End Decoding.
Lemma rp_dyn n km cb b : rp (dyn_struct true n km cb b) (dyn_struct false n km cb b).
Proof.
  unfold dyn_struct. apply rp_bind; [apply rp_refl|intros fs]. cbv zeta. apply rp_bind; [apply rp_refl|intros _]. apply rp_bind; [apply rp_gen; intros; apply rp_refl|intros v]. apply rp_refl.
Qed.
Lemma rp_from s key b : rp (from_bytes true s key b) (from_bytes false s key b).
Proof. apply rp_gen. exact rp_dyn. Qed.
Lemma rp_extract nr buf : forall off ret coll, rp (extract true nr buf off ret coll) (extract false nr buf off ret coll).
Proof.
  induction nr as [|nr IH]; intros off ret coll; cbn [extract]; [apply rp_refl|]. apply rp_bind; [apply rp_refl|intros _]. apply rp_bind; [apply rp_refl|intros hb]. cbv zeta.
  apply rp_bind; [apply rp_refl|intros _]. apply rp_bind; [apply rp_refl|intros by_]. match goal with |- rp (if ?c then _ else _) _ => destruct c end; [apply rp_bind; [apply rp_incr|intros c]|]; apply IH.
Qed.

(** ** Expressions *)
Section Builds.
Context (E0 : env).
Let D := built true E0.
Let R := built false E0.
Definition msim {A} (m m' : M A) : Prop := (forall w w' r, m' w = (w', r) -> appended w w') /\
  forall w, m w = m' w \/ ((exists p, snd (m w) = Panic p) /\ appended (fst (m w)) (fst (m' w))).
Lemma msim_of {A} (m m' : M A) : calm m' -> (forall w, m w = m' w \/ ((exists p, snd (m w) = Panic p) /\ appended (fst (m w)) (fst (m' w)))) -> msim m m'.
Proof. intros Hc H. split; [|exact H]. intros w w' r Q. apply silent_appended. exact (Hc _ _ _ Q). Qed.
Lemma msim_ret {A} (a b : res A) : rp a b -> msim (mret a) (mret b).
Proof.
  intros [->|[p ->]]; (split; [intros w w' r H; injection H as <- _; apply appended_refl|]); intros w; [left; reflexivity|]. right. split; [exists p; reflexivity|apply appended_refl].
Qed.
Lemma msim_refl {A} (m : M A) : calm m -> msim m m.
Proof. intros H. apply msim_of; [exact H|]. intros w. left. reflexivity. Qed.
Lemma msim_bind {A B} (m m' : M A) (g g' : A -> M B) : msim m m' -> (forall a, msim (g a) (g' a)) -> msim (mbind m g) (mbind m' g').
Proof.
  intros [Hm1 Hm] Hg. assert (G : forall w w' r, mbind m' g' w = (w', r) -> appended w w').
  { intros w w' r H. unfold mbind in H. destruct (m' w) as [w1 [a|e|p|]] eqn:Q; apply Hm1 in Q; try (injection H as <- <-; exact Q). eapply appended_trans; [exact Q|]. exact (proj1 (Hg a) _ _ _ H). }
  split; [exact G|]. intros w. unfold mbind. destruct (Hm w) as [Q|[(p & Q) T]].
  - rewrite Q. destruct (m' w) as [w1 [a|e|p|]]; [exact (proj2 (Hg a) w1)|left; reflexivity|left; reflexivity|left; reflexivity].
  - right. destruct (m w) as [w1 r1]. cbn [fst snd] in *. subst r1. cbn [fst snd]. split; [exists p; reflexivity|]. destruct (m' w) as [w2 [a|e|q|]] eqn:Q2; cbn [fst] in *; try exact T.
    eapply appended_trans; [exact T|]. destruct (g' a w2) as [w3 r3] eqn:Q3. exact (proj1 (Hg a) _ _ _ Q3).
Qed.
Lemma msim_search fd retry K : forall key ret coll, msim (search_loop K D fd retry key ret coll) (search_loop K R fd retry key ret coll).
Proof.
  induction K as [|K IH]; intros key ret coll; (apply msim_of; [apply search_loop_calm|]); intros w; cbn [search_loop]; [left; reflexivity|].
  change (ioctl D) with (ioctl E0). change (ioctl R) with (ioctl E0). change (overflow_checks D) with true. change (overflow_checks R) with false.
  set (w1 := log_event w (EvIoctl fd key)).
  assert (G : forall nr buf,
    let k := fun oc E => match extract oc (Z.to_nat nr) buf 0 ret coll with
      | Ok (ret', coll') =>
        if negb retry || (nr =? 0)%Z then (w1, let* _ := ensure (coll' =? 0)%Z (ECollisions coll') in Ok ret')
        else match largest ret' with
          | None => (w1, Panic PUnwrap)
          | Some m => match try_into_u 8 (h_type m) with
            | Ok t => if (h_offset m + 1 <? 2 ^ 64)%Z then
                search_loop K E fd retry (mk_skey (sk_tree key) (h_objectid m) (sk_max_objectid key) t (sk_max_type key) (h_offset m + 1) (sk_max_offset key) (sk_min_transid key) (sk_max_transid key)) ret' coll' w1
              else (w1, Err EKeyOverflow)
            | Err e => (w1, Err e) | Panic p => (w1, Panic p) | Fuel => (w1, Fuel) end
          end
      | Err e => (w1, Err e) | Panic p => (w1, Panic p) | Fuel => (w1, Fuel) end in
    k true D = k false R \/ ((exists p, snd (k true D) = Panic p) /\ appended (fst (k true D)) (fst (k false R)))).
  { intros nr buf. cbv zeta. destruct (rp_extract (Z.to_nat nr) buf 0%Z ret coll) as [->|[p ->]].
    - destruct (extract false _ buf 0 ret coll) as [[ret' coll']| | |]; try (left; reflexivity). destruct (negb retry || (nr =? 0)%Z); [left; reflexivity|].
      destruct (largest ret') as [m|]; [|left; reflexivity]. destruct (try_into_u 8 (h_type m)); try (left; reflexivity). destruct (h_offset m + 1 <? 2 ^ 64)%Z; [|left; reflexivity]. apply IH.
    - right. split; [exists p; reflexivity|]. cbn [fst]. match goal with |- appended _ (fst ?t) => destruct t as [w2 r2] eqn:Q end. cbn [fst].
      destruct (extract false _ buf 0 ret coll) as [[ret' coll']| | |]; try (injection Q as <- _; apply appended_refl). destruct (negb retry || (nr =? 0)%Z); [injection Q as <- _; apply appended_refl|].
      destruct (largest ret') as [m|]; [|injection Q as <- _; apply appended_refl]. destruct (try_into_u 8 (h_type m)); try (injection Q as <- _; apply appended_refl).
      destruct (h_offset m + 1 <? 2 ^ 64)%Z; [|injection Q as <- _; apply appended_refl]. apply silent_appended. exact (search_loop_calm _ _ _ _ _ _ _ _ _ _ Q). }
  destruct (ioctl E0 (tick w) fd key) as [nr buf|nr buf|]; [exact (G nr buf)|exact (G nr buf)|left; reflexivity].
Qed.
Lemma msim_decode cs : msim (decode_chunks true cs) (decode_chunks false cs).
Proof.
  induction cs as [|[h b] cs IH]; [apply msim_refl, decode_calm|]. split; [intros w w' r H; apply silent_appended; exact (decode_calm _ _ _ _ _ H)|]. intros w. cbn [decode_chunks]. destruct (find _ STRUCTS) as [s|].
  - revert w. apply (msim_bind (mret (from_bytes true s (Some (h_objectid h, h_type h, h_offset h)) b)) (mret (from_bytes false s (Some (h_objectid h, h_type h, h_offset h)) b))); [apply msim_ret, rp_from|intros v].
    apply msim_bind; [exact IH|intros vs; apply msim_ret, rp_refl].
  - apply IH.
Qed.
Lemma msim_eval_search K f tree key : msim (eval_search K D f tree key) (eval_search K R f tree key).
Proof.
  unfold eval_search. apply msim_bind; [apply msim_ret, rp_refl|intros [[n ky] fl]]. apply msim_bind; [apply msim_ret, rp_refl|intros _]. destruct f as [f|]; [|apply msim_ret, rp_refl].
  apply msim_bind; [apply msim_ret, rp_refl|intros sk]. apply msim_bind; [|intros cs; apply msim_bind; [apply msim_decode|intros vs; apply msim_ret, rp_refl]].
  unfold fs_search. destruct f; [apply msim_search|apply msim_ret, rp_refl].
Qed.
Lemma rp_unop op v : rp (eval_unop true op v) (eval_unop false op v).
Proof. destruct op; cbn [eval_unop]; try apply rp_refl. apply rp_bind; [apply rp_refl|intros z]. apply rp_bind; [apply rp_neg|intros r; apply rp_refl]. Qed.
Lemma rp_cast f t z : rp (eval_cast D f t z) (eval_cast R f t z).
Proof.
  unfold eval_cast. change (overflow_checks D) with true. change (overflow_checks R) with false. destruct t as [x| | | | | | | | | |]; [|left; reflexivity..].
  generalize (unwrap (find (fun s => str_eqb (st_name s) x) STRUCTS)). intros [s|e|p|]; cbn [bind]; [|left; reflexivity..]. cbv zeta. destruct f as [f|]; [|left; reflexivity].
  apply rp_bind; [apply rp_add|intros st]. apply rp_bind; [left; reflexivity|intros b]. apply rp_from.
Qed.
Lemma rp_search_key a b c d : rp (make_search_key true a b c d) (make_search_key false a b c d).
Proof. unfold make_search_key. apply rp_bind; [apply rp_from|intros k]. apply rp_refl. Qed.
Lemma rp_disk_key a b c : rp (make_disk_key true a b c) (make_disk_key false a b c).
Proof. unfold make_disk_key. apply rp_bind; [apply rp_from|intros k]. apply rp_refl. Qed.
Lemma msim_expr K vs f : forall e, msim (eval_expr K D vs f e) (eval_expr K R vs f e).
Proof.
  fix IH 1. intros e. destruct e as [x|z|b|s|e|e fld|e i|fe args|op l r|op e|t e]; cbn [eval_expr]; try (apply msim_ret, rp_refl).
  - apply IH.
  - apply msim_bind; [apply IH|intros v]. apply msim_bind; [apply msim_ret, rp_refl|intros [[nm ky] fl]]. destruct fld; apply msim_ret, rp_refl.
  - repeat (first [apply msim_ret, rp_refl|apply msim_bind; [first [apply IH|apply msim_ret, rp_refl]|intros ?]]).
  - apply msim_bind; [apply IH|intros fv]. apply msim_bind; [apply msim_ret, rp_refl|intros fn].
    destruct fn; repeat match goal with |- msim match ?l with [] => _ | _ => _ end _ => destruct l end; try (apply msim_ret, rp_refl);
    repeat (first [apply msim_ret, rp_refl|apply msim_ret, rp_search_key|apply msim_eval_search|apply msim_bind; [first [apply IH|apply msim_ret, rp_refl]|intros ?]]).
    destruct a0 as [[nm ky] fl]. destruct ky as [[[? ?] ?]|]; [apply msim_ret, rp_disk_key|apply msim_ret, rp_refl].
  - destruct op; repeat (first [apply msim_ret, rp_refl|apply msim_bind; [first [apply IH|apply msim_ret, rp_refl]|intros ?]]);
    match goal with |- context [if ?x then _ else _] => destruct x end;
    repeat (first [apply msim_ret, rp_refl|apply msim_bind; [first [apply IH|apply msim_ret, rp_refl]|intros ?]]).
  - apply msim_bind; [apply IH|intros v; apply msim_ret, rp_unop].
  - apply msim_bind; [apply IH|intros v]. apply msim_bind; [apply msim_ret, rp_refl|intros z]. destruct (z <? 0)%Z; [apply msim_ret, rp_refl|apply msim_ret, rp_cast].
Qed.
Lemma msim_lhs K vs f e : forall g, msim (lhs_assign K D vs f e g) (lhs_assign K R vs f e g).
Proof.
  induction e; intros g; cbn [lhs_assign]; try (apply msim_ret, rp_refl).
  - destruct e2; try (apply msim_ret, rp_refl). apply IHe1.
  - apply msim_bind; [apply msim_expr|intros v]. apply msim_bind; [apply msim_ret, rp_refl|intros z]. apply IHe1.
Qed.

(** ** Statements *)
Definition bsim (b b' : est -> est * ires) : Prop := (forall s s' q, b' s = (s', q) -> appended (e_w s) (e_w s')) /\
  forall s, b s = b' s \/ ((exists p, snd (b s) = IPanic p) /\ appended (e_w (fst (b s))) (e_w (fst (b' s)))).
Definition evsim (ev ev' : est -> stmt -> est * ires) : Prop := forall st, bsim (fun s => ev s st) (fun s => ev' s st).
Lemma bs_end q : bsim (fun s => (s, q)) (fun s => (s, q)).
Proof. split; [intros s s' q' H; injection H as <- _; apply appended_refl|intros s; left; reflexivity]. Qed.
Lemma bs_expr K e c c' : (forall v, bsim (fun s => c s v) (fun s => c' s v)) -> bsim (fun s => with_expr K D s e c) (fun s => with_expr K R s e c').
Proof.
  intros Hc. split.
  - intros s s' q H. unfold with_expr in H. destruct (eval_expr K R (e_vars s) (e_fs s) e (e_w s)) as [w [v|x|p|]] eqn:He; apply (proj1 (msim_expr K (e_vars s) (e_fs s) e)) in He; try (injection H as <- _; exact He).
    eapply appended_trans; [exact He|]. exact (proj1 (Hc v) (with_w s w) _ _ H).
  - intros s. unfold with_expr. destruct (proj2 (msim_expr K (e_vars s) (e_fs s) e) (e_w s)) as [Q|[(p & Q) T]].
    + rewrite Q. destruct (eval_expr K R (e_vars s) (e_fs s) e (e_w s)) as [w [v|x|p|]]; [exact (proj2 (Hc v) (with_w s w))|left; reflexivity|left; reflexivity|left; reflexivity].
    + right. destruct (eval_expr K D (e_vars s) (e_fs s) e (e_w s)) as [w1 r1]. cbn [fst snd] in *. subst r1. cbn [ires_of fst snd]. split; [exists p; reflexivity|].
      destruct (eval_expr K R (e_vars s) (e_fs s) e (e_w s)) as [w2 [v|x|q|]]; cbn [fst] in T |- *; try exact T.
      destruct (c' (with_w s w2) v) as [s3 q3] eqn:Q3. eapply appended_trans; [exact T|]. exact (proj1 (Hc v) (with_w s w2) _ _ Q3).
Qed.
Lemma bs_list ev ev' l : evsim ev ev' -> bsim (fun s => run_list ev s l) (fun s => run_list ev' s l).
Proof.
  intros He. induction l as [|st l IH]; cbn [run_list]; [apply bs_end|]. split.
  - intros s s' q H. destruct (ev' s st) as [s1 q1] eqn:H1. apply (proj1 (He st)) in H1. destruct q1; try (injection H as <- _; exact H1). eapply appended_trans; [exact H1|exact (proj1 IH _ _ _ H)].
  - intros s. destruct (proj2 (He st) s) as [Q|[(p & Q) T]]; cbv beta in *.
    + rewrite Q. destruct (ev' s st) as [s1 q1]. destruct q1; try (left; reflexivity). exact (proj2 IH s1).
    + right. destruct (ev s st) as [s1 q1]. cbn [fst snd] in *. subst q1. cbn [fst snd]. split; [exists p; reflexivity|]. destruct (ev' s st) as [s2 q2]. cbn [fst] in T.
      destruct q2; cbn [fst]; try exact T. destruct (run_list ev' s2 l) as [s3 q3] eqn:Q3. eapply appended_trans; [exact T|exact (proj1 IH _ _ _ Q3)].
Qed.
(* one step of a loop: the body, then the rest unless it ends the loop *)
Lemma bs_then (a a' c c' : est -> est * ires) : bsim a a' -> bsim c c' ->
  bsim (fun s => let '(s2, q) := a s in match q with IOk | IContinue => c s2 | IBreak => (s2, IOk) | _ => (s2, q) end)
       (fun s => let '(s2, q) := a' s in match q with IOk | IContinue => c' s2 | IBreak => (s2, IOk) | _ => (s2, q) end).
Proof.
  intros Ha Hc. split.
  - intros s s' q H. destruct (a' s) as [s1 q1] eqn:H1. apply (proj1 Ha) in H1. destruct q1; try (injection H as <- _; exact H1); (eapply appended_trans; [exact H1|exact (proj1 Hc _ _ _ H)]).
  - intros s. destruct (proj2 Ha s) as [Q|[(p & Q) T]].
    + rewrite Q. destruct (a' s) as [s1 q1]. destruct q1; try (left; reflexivity); exact (proj2 Hc s1).
    + right. destruct (a s) as [s1 q1]. cbn [fst snd] in *. subst q1. cbn [fst snd]. split; [exists p; reflexivity|]. destruct (a' s) as [s2 q2]. cbn [fst] in T.
      destruct q2; cbn [fst]; try exact T; (destruct (c' s2) as [s3 q3] eqn:Q3; eapply appended_trans; [exact T|exact (proj1 Hc _ _ _ Q3)]).
Qed.
Lemma bs_while ev ev' ke k c b : evsim ev ev' -> bsim (while_loop ev ke D k c b) (while_loop ev' ke R k c b).
Proof.
  intros He. induction k as [|k IH]; cbn [while_loop]; [apply bs_end|]. apply (bs_expr ke c). intros v.
  destruct (as_boolean v) as [[|]|e|p|]; try apply bs_end. exact (bs_then _ _ _ _ (bs_list ev ev' b He) IH).
Qed.
Lemma bs_insert x v : bsim (est_insert x v) (est_insert x v).
Proof. split; [|intros s; left; reflexivity]. intros s s' q H. apply insert_q in H. rewrite H. apply appended_refl. Qed.
Lemma bs_for ev ev' x b items : evsim ev ev' -> bsim (for_loop ev x b items) (for_loop ev' x b items).
Proof.
  intros He. induction items as [|v items IH]; cbn [for_loop]; [apply bs_end|]. pose proof (bs_then _ _ _ _ (bs_list ev ev' b He) IH) as N. split.
  - intros s s' q H. destruct (est_insert x v s) as [s1 q1] eqn:H1. apply insert_q in H1. rewrite <- H1. destruct q1; try (injection H as <- _; apply appended_refl). exact (proj1 N _ _ _ H).
  - intros s. destruct (est_insert x v s) as [s1 q1]. destruct q1; try (left; reflexivity). exact (proj2 N s1).
Qed.
Lemma bs_scope b b' : bsim b b' -> bsim (fun s => in_scope s b) (fun s => in_scope s b').
Proof.
  intros Hb. split.
  - intros s s' q H. unfold in_scope in H. destruct (b' (with_vars s (push_scope (e_vars s)))) as [s1 q1] eqn:H1. apply (proj1 Hb) in H1. cbn [with_vars e_w] in H1.
    destruct (pop_scope (e_vars s1)); injection H as <- _; exact H1.
  - intros s. unfold in_scope. destruct (proj2 Hb (with_vars s (push_scope (e_vars s)))) as [Q|[(p & Q) T]].
    + rewrite Q. left. reflexivity.
    + right. destruct (b (with_vars s (push_scope (e_vars s)))) as [s1 q1]. destruct (b' (with_vars s (push_scope (e_vars s)))) as [s2 q2]. cbn [fst snd] in *. subst q1.
      destruct (pop_scope (e_vars s1)), (pop_scope (e_vars s2)); cbn [fst snd with_vars e_w]; (split; [eexists; reflexivity|exact T]).
Qed.
Lemma bs_write t : bsim (fun s => do_write D s t) (fun s => do_write R s t).
Proof. split; [|intros s; left; reflexivity]. intros s s' q H. exact (do_write_appended R s t s' q H). Qed.
Lemma bs_stmt inter n : evsim (eval_stmt n D inter) (eval_stmt n R inter).
Proof.
  induction n as [|n IH]; intros st; cbn [eval_stmt]; [apply bs_end|]. destruct st as [lhs rhs|c tb fb|c b|i re b| | | | |e|e|e].
  - apply bs_expr. intros v.
    assert (X : bsim (fun u => let '(w, r) := lhs_assign n D (e_vars u) (e_fs u) lhs (fun _ => Ok v) (e_w u) in match r with Ok vs => (mk_est vs (e_fs u) w, IOk) | _ => (with_w u w, ires_of r) end)
                     (fun u => let '(w, r) := lhs_assign n R (e_vars u) (e_fs u) lhs (fun _ => Ok v) (e_w u) in match r with Ok vs => (mk_est vs (e_fs u) w, IOk) | _ => (with_w u w, ires_of r) end)).
    { split.
      - intros u s' r H. destruct (lhs_assign n R (e_vars u) (e_fs u) lhs (fun _ => Ok v) (e_w u)) as [w [a|e|p|]] eqn:Hl; apply (proj1 (msim_lhs _ _ _ _ _)) in Hl; injection H as <- _; exact Hl.
      - intros u. destruct (proj2 (msim_lhs n (e_vars u) (e_fs u) lhs (fun _ => Ok v)) (e_w u)) as [Q|[(p & Q) T]]; [rewrite Q; left; reflexivity|]. right.
        destruct (lhs_assign n D (e_vars u) (e_fs u) lhs (fun _ => Ok v) (e_w u)) as [w1 r1]. cbn [fst snd] in *. subst r1. cbn [fst snd ires_of]. split; [exists p; reflexivity|].
        destruct (lhs_assign n R (e_vars u) (e_fs u) lhs (fun _ => Ok v) (e_w u)) as [w2 [a|e|q|]]; exact T. }
    destruct lhs; try exact X. apply bs_insert.
  - apply bs_scope, bs_expr. intros v. destruct (as_boolean v) as [t|x|p|]; try apply bs_end. apply bs_list. exact IH.
  - apply bs_scope, bs_while. exact IH.
  - apply bs_scope. destruct i; try apply bs_end. apply bs_expr. intros v. destruct (as_vec v) as [items|y|p|]; try apply bs_end. apply bs_for. exact IH.
  - apply bs_end.
  - apply bs_end.
  - apply bs_write.
  - apply bs_end.
  - apply bs_expr. intros v. destruct (as_string true v) as [p|x|p|]; try apply bs_end. split; [|intros u; left; reflexivity]. intros u s' r H.
    destruct (fs_new R p (e_w u)) as [w [f|x|q|]] eqn:Hf; apply fs_new_calm, silent_appended in Hf; injection H as <- _; exact Hf.
  - apply bs_expr. intros v. change (overflow_checks D) with true. change (overflow_checks R) with false. pose proof (rp_print n v) as P.
    split.
    + intros s s' q H. destruct (print_text n false v) as [t|x|p|]; try (injection H as <- _; apply appended_refl). exact (do_write_appended _ _ _ _ _ H).
    + intros s. destruct P as [->|[p ->]]; [destruct (print_text n false v); left; reflexivity|]. right. cbn [ires_of fst snd]. split; [exists p; reflexivity|].
      destruct (print_text n false v) as [t|x|q|]; try apply appended_refl. destruct (do_write R s (t ++ nl)) as [s2 q2] eqn:Q2. exact (do_write_appended _ _ _ _ _ Q2).
  - apply bs_expr. intros v. destruct inter; [apply bs_write|apply bs_end].
Qed.
Lemma rt_eval_builds n inter r cmd : rt_eval n D inter r cmd = rt_eval n R inter r cmd \/
  ((exists p, snd (rt_eval n D inter r cmd) = RPanic p) /\ appended (e_w (r_eval (fst (rt_eval n D inter r cmd)))) (e_w (r_eval (fst (rt_eval n R inter r cmd))))).
Proof.
  unfold rt_eval. destruct (parse cmd) as [l|e|p|]; try (left; reflexivity). destruct (analyze (r_sem r) l) as [sem' [[]|e|p|]]; try (left; reflexivity). unfold eval_prog.
  destruct (proj2 (bs_list _ _ l (bs_stmt inter n)) (r_eval r)) as [Q|[(p & Q) T]]; [cbv beta in Q; rewrite Q; left; reflexivity|]. right.
  destruct (run_list (eval_stmt n D inter) (r_eval r) l) as [s1 q1]. destruct (run_list (eval_stmt n R inter) (r_eval r) l) as [s2 q2]. cbn [fst snd] in *. subst q1. split; [exists p; reflexivity|exact T].
Qed.
Lemma rt_eval_grows E n inter r cmd : appended (e_w (r_eval r)) (e_w (r_eval (fst (rt_eval n E inter r cmd)))).
Proof.
  destruct (rt_eval n E inter r cmd) as [r' q] eqn:H. exact (rt_eval_q E inter appended silent_appended appended_trans n r cmd r' q (fun l st _ _ _ s t s' q' => do_write_appended E s t s' q') H).
Qed.
(** ** The program *)
Lemma println_grows E w t : appended w (fst (println E w t)).
Proof.
  unfold println. destruct (sink E (tick w) (t ++ nl)) as [|k]; cbn [fst].
  - exists [EvWrite (t ++ nl)], (t ++ nl). split; [reflexivity|]. split; [reflexivity|]. rewrite <- (app_nil_r (t ++ nl)) at 2. apply wn_all. constructor.
  - exists [EvWrite (t ++ nl)], (firstn k (t ++ nl)). split; [reflexivity|]. split; [reflexivity|]. rewrite <- (app_nil_r (firstn k _)). eapply wn_cut; [symmetry; apply firstn_skipn|constructor].
Qed.
Lemma loop_grows E n : forall evs r, appended (e_w (r_eval r)) (e_w (r_eval (fst (fst (fst (process_loop n E r evs)))))).
Proof.
  induction evs as [|ev evs IH]; intros r; cbn [process_loop]; [apply appended_refl|]. destruct ev as [line| | |].
  - pose proof (rt_eval_grows E n true r (clean line)) as G. destruct (rt_eval n E true r (clean line)) as [r1 q]. cbn [fst] in G. specialize (IH r1).
    destruct q; cbn [fst]; try exact G; destruct (process_loop n E r1 evs) as [[[r2 qs2] ns2] x2]; cbn [fst] in *; (eapply appended_trans; [exact G|exact IH]).
  - specialize (IH r). destruct (process_loop n E r evs) as [[[r2 qs2] ns2] x2]. exact IH.
  - pose proof (println_grows E (e_w (r_eval r)) (s_ "quit")) as G. destruct (println E (e_w (r_eval r)) (s_ "quit")) as [w [|]]; exact G.
  - pose proof (println_grows E (e_w (r_eval r)) (s_ "quit")) as G. destruct (println E (e_w (r_eval r)) (s_ "quit")) as [w [|]]; [|exact G]. specialize (IH (rt_with_w r w)).
    destruct (process_loop n E (rt_with_w r w) evs) as [[[r2 qs2] ns2] x2]. cbn [fst] in *. eapply appended_trans; [exact G|exact IH].
Qed.
Definition loop_crash (d r : rt * list eres * list notice * loop_end) : Prop :=
  let '(rd, qd, nd, xd) := d in let '(rr, qr, nr, xr) := r in
  xd = LePanic /\ appended (e_w (r_eval rd)) (e_w (r_eval rr)) /\
  (exists b p a, qd = b ++ [RPanic p] /\ qr = b ++ a) /\ (exists b a, nd = b ++ [NtPanic] /\ nr = b ++ a).
Lemma loop_builds n : forall evs r, process_loop n D r evs = process_loop n R r evs \/ loop_crash (process_loop n D r evs) (process_loop n R r evs).
Proof.
  induction evs as [|ev evs IH]; intros r; cbn [process_loop]; [left; reflexivity|]. destruct ev as [line| | |].
  - destruct (rt_eval_builds n true r (clean line)) as [Q|[(p & Q) T]].
    + rewrite Q. destruct (rt_eval n R true r (clean line)) as [r1 q]. destruct q as [| |e|p|]; try (left; reflexivity).
      all: destruct (IH r1) as [U|U]; [rewrite U; left; reflexivity|]; right; destruct (process_loop n D r1 evs) as [[[rd qd] nd] xd]; destruct (process_loop n R r1 evs) as [[[rr qr] nr] xr];
        destruct U as (A & B & (b & p & a & C1 & C2) & (b' & a' & D1 & D2)); subst; repeat split; try exact B;
        [eexists (_ :: b), p, a; split; reflexivity|first [exists b', a'; split; reflexivity|eexists (_ :: b'), a'; split; reflexivity]].
    + right. pose proof (loop_grows R n evs) as LG. destruct (rt_eval n D true r (clean line)) as [r1 q1]. destruct (rt_eval n R true r (clean line)) as [r2 q2]. cbn [fst snd] in *. subst q1.
      destruct q2 as [| |e|q|]; try (split; [reflexivity|split; [exact T|split; [exists [], p; eexists; split; reflexivity|exists []; eexists; split; reflexivity]]]).
      all: specialize (LG r2); destruct (process_loop n R r2 evs) as [[[rr qr] nr] xr]; cbn [fst] in LG; (split; [reflexivity|]); (split; [eapply appended_trans; [exact T|exact LG]|]);
        (split; [exists [], p; eexists; split; reflexivity|exists []; eexists; split; reflexivity]).
  - destruct (IH r) as [U|U]; [rewrite U; left; reflexivity|]. right. destruct (process_loop n D r evs) as [[[rd qd] nd] xd]. destruct (process_loop n R r evs) as [[[rr qr] nr] xr].
    destruct U as (A & B & C & (b' & a' & D1 & D2)). subst. split; [reflexivity|]. split; [exact B|]. split; [exact C|]. exists (NtHint :: b'), a'. split; reflexivity.
  - left. reflexivity.
  - change (println D) with (println R). destruct (println R (e_w (r_eval r)) (s_ "quit")) as [w [|]]; [|left; reflexivity].
    destruct (IH (rt_with_w r w)) as [U|U]; [rewrite U; left; reflexivity|]. right. destruct (process_loop n D (rt_with_w r w) evs) as [[[rd qd] nd] xd]. destruct (process_loop n R (rt_with_w r w) evs) as [[[rr qr] nr] xr].
    destruct U as (A & B & C & (b' & a' & D1 & D2)). subst. split; [reflexivity|]. split; [exact B|]. split; [exact C|]. exists (NtReadError :: b'), a'. split; reflexivity.
Qed.
Lemma appended_ext w w' : appended w w' -> exists log out, w_log w' = w_log w ++ log /\ w_out w' = w_out w ++ out.
Proof. intros (l & u & A & B & _). exists l, u. split; assumption. Qed.
Lemma printlns_builds l : forall w, printlns D w l = printlns R w l.
Proof. induction l as [|x l IH]; intros w; cbn [printlns]; [reflexivity|]. change (println D w x) with (println R w x). destruct (println R w x) as [w' [|]]; [apply IH|reflexivity]. Qed.
Lemma process_builds n H m evs : process n D H m evs = process n R H m evs \/ crashed_on_the_way (process n D H m evs) (process n R H m evs).
Proof.
  unfold process. destruct (logger_ok H); [|left; reflexivity]. destruct m as [c|].
  - unfold process_script. destruct c as [c|]; [|left; reflexivity]. change (rt_start D) with (rt_start R). destruct (rt_eval_builds n false (rt_start R (mk_world [] [])) (strip_comments c)) as [Q|[(p & Q) T]].
    + rewrite Q. left. reflexivity.
    + right. destruct (rt_eval n D false (rt_start R (mk_world [] [])) (strip_comments c)) as [r1 q1]. destruct (rt_eval n R false (rt_start R (mk_world [] [])) (strip_comments c)) as [r2 q2]. cbn [fst snd] in *. subst q1.
      unfold crashed_on_the_way. destruct q2; cbn [p_status p_world p_results p_err]; (split; [reflexivity|]); (split; [apply appended_ext; exact T|]); (split; [exists [], p; eexists; split; reflexivity|exists []; eexists; split; reflexivity]).
  - unfold process_repl. destruct (editor_ok H); [|left; reflexivity]. rewrite printlns_builds. destruct (printlns R (mk_world [] []) welcome_lines) as [w [|]]; [|left; reflexivity].
    change (rt_start D) with (rt_start R). destruct (loop_builds n evs (rt_start R w)) as [U|U]; [rewrite U; left; reflexivity|]. right.
    destruct (process_loop n D (rt_start R w) evs) as [[[rd qd] nd] xd]. destruct (process_loop n R (rt_start R w) evs) as [[[rr qr] nr] xr]. destruct U as (A & B & C & (b' & a' & D1 & D2)). subst xd. apply appended_ext in B.
    unfold crashed_on_the_way. destruct xr; [destruct (save_ok H)| | |]; cbn [p_status p_world p_results p_err]; (split; [reflexivity|]); (split; [exact B|]); (split; [exact C|]); subst;
      try (exists b', a'; split; reflexivity). exists b', (a' ++ [NtMain]). split; [reflexivity|]. rewrite app_assoc. reflexivity.
Qed.
End Builds.
(** ** Results of panics *)
Lemma loop_panics n E (HE : env_typed E) evs : forall r, inv r -> est_ok 1 (r_eval r) -> forall p, In (RPanic p) (snd (fst (fst (process_loop n E r evs)))) -> p = PArith /\ overflow_checks E = true.
Proof.
  induction evs as [|x evs IH]; intros r HI HK p; [intros []|]. destruct x as [l| | |]; cbn [process_loop].
  - pose proof (rt_eval_ok n E true r (clean l) HE HI HK) as [G1 G2]. pose proof (inv_step n E true r (clean l) HI) as G3. destruct (rt_eval n E true r (clean l)) as [r' q]. cbn [fst snd] in *.
    specialize (IH r' G3 G1 p). destruct (process_loop n E r' evs) as [[[r2 qs] ns] y]. cbn [fst snd] in IH.
    destruct q as [| |e|p'|]; cbn [fst snd]; intros [Q|Q]; try discriminate; try contradiction; try (exact (IH Q)). injection Q as ->. exact G2.
  - specialize (IH r HI HK p). destruct (process_loop n E r evs) as [[[r2 qs] ns] y]. exact IH.
  - destruct (println E _ _) as [w [|]]; intros [].
  - destruct (println E (e_w (r_eval r)) (s_ "quit")) as [w [|]]; [|intros []]. specialize (IH (rt_with_w r w) (inv_world _ _ HI) HK p). destruct (process_loop n E (rt_with_w r w) evs) as [[[r2 qs] ns] y]. exact IH.
Qed.
Lemma process_panics n E H m evs p : env_typed E -> In (RPanic p) (p_results (process n E H m evs)) -> p = PArith /\ overflow_checks E = true.
Proof.
  intros HE. unfold process. destruct (logger_ok H); [|intros []]. destruct m as [[c|]|]; cbn [process_script]; [|intros []|].
  - pose proof (rt_eval_ok n E false (rt_start E (mk_world [] [])) (strip_comments c) HE (inv_start E _) (ok_start E _ HE)) as [_ G].
    destruct (rt_eval n E false (rt_start E (mk_world [] [])) (strip_comments c)) as [r q]. cbn [snd] in G. destruct q; cbn [p_results]; intros [Q|[]]; try discriminate. injection Q as ->. exact G.
  - unfold process_repl. destruct (editor_ok H); [|intros []]. destruct (printlns E (mk_world [] []) welcome_lines) as [w [|]]; [|intros []].
    pose proof (loop_panics n E HE evs (rt_start E w) (inv_start E _) (ok_start E _ HE) p) as G. destruct (process_loop n E (rt_start E w) evs) as [[[r2 qs] ns] x]. cbn [fst snd] in G.
    destruct x; [destruct (save_ok H)| | |]; exact G.
Qed.
