(** Proofs for C96. *)
From Verif Require Import Base Ast Pom Parse Structs Definitions Value Variables Semantics Fs Ioctl Eval Runtime Input Main Process Lib Spec_Run Spec_Text Spec_Session Spec_Fs Spec_Failures
  Spec_Decode Spec_Search Spec_Safe Spec_Ioctl Proof_Decode Proof_Run Proof_Fs Proof_Failures Proof_Search2.
From Coq Require Import Lia.
Arguments s_ s%string_scope.

(** ** The bytes *)
Lemma to_le_bytes n : forall z, to_le n z = le_bytes n z.
Proof. induction n as [|n IH]; intros z; cbn [to_le le_bytes]; [reflexivity|]. rewrite IH. reflexivity. Qed.
Lemma le_bytes_inj n a b : (0 <= a < 256 ^ Z.of_nat n)%Z -> (0 <= b < 256 ^ Z.of_nat n)%Z -> le_bytes n a = le_bytes n b -> a = b.
Proof. intros Ha Hb H. rewrite <- (le_le_bytes n a Ha), <- (le_le_bytes n b Hb), H. reflexivity. Qed.
Lemma finds_request k : kernel_finds (request_bytes k) k U32_MAX MAX_BUF_SIZE.
Proof. unfold kernel_finds, number_at. rewrite <- !to_le_bytes. repeat apply conj; reflexivity. Qed.
Lemma finds_inj b k k' nr sz nr' sz' : request_ok k -> request_ok k' -> kernel_finds b k nr sz -> kernel_finds b k' nr' sz' -> k = k'.
Proof.
  intros H H' F F'. destruct k as [a1 a2 a3 a4 a5 a6 a7 a8 a9], k' as [b1 b2 b3 b4 b5 b6 b7 b8 b9]. unfold request_ok, u in H, H'. unfold kernel_finds, number_at in F, F'. cbn [sk_tree sk_min_objectid sk_max_objectid sk_min_type sk_max_type sk_min_offset sk_max_offset sk_min_transid sk_max_transid] in *.
  destruct H as (A1 & A2 & A3 & A4 & A5 & A6 & A7 & A8 & A9). destruct H' as (B1 & B2 & B3 & B4 & B5 & B6 & B7 & B8 & B9).
  destruct F as (C1 & C2 & C3 & C4 & C5 & C6 & C7 & C8 & C9 & _). destruct F' as (D1 & D2 & D3 & D4 & D5 & D6 & D7 & D8 & D9 & _).
  rewrite C1 in D1. rewrite C2 in D2. rewrite C3 in D3. rewrite C4 in D4. rewrite C5 in D5. rewrite C6 in D6. rewrite C7 in D7. rewrite C8 in D8. rewrite C9 in D9.
  assert (P8 : (256 ^ Z.of_nat 8 = 2 ^ 64)%Z) by reflexivity. assert (P4 : (256 ^ Z.of_nat 4 = 2 ^ 32)%Z) by reflexivity. assert (P1 : (2 ^ 8 < 2 ^ 32)%Z) by reflexivity.
  apply le_bytes_inj in D1, D2, D3, D4, D5, D6, D7, D8, D9; rewrite ?P8, ?P4; try lia. subst. reflexivity.
Qed.

(** ** The code *)
Lemma place_align b : c_size (c_struct (search_args_fields b)) = align_up (112 + b) 8.
Proof.
  unfold c_struct, search_args_fields. change (c_struct search_key_fields) with (mk_ctype 104 8). cbn [place c_size c_align c_array c_u8 c_u64 fst snd].
  change (struct_align _) with 8%Z. change (align_up 0 8) with 0%Z. change (align_up (0 + 104) 8) with 104%Z. change (align_up (104 + 8) 1) with 112%Z. rewrite Z.mul_1_l. reflexivity.
Qed.
Lemma small_bits m j : (0 <= m < 2 ^ 14)%Z -> (14 <= j)%Z -> Z.testbit m j = false.
Proof.
  intros Hm Hj. destruct (Z.eq_dec m 0) as [->|N]; [apply Z.bits_0|]. apply Z.bits_above_log2; [lia|].
  assert (Z.log2 m < 14)%Z by (apply Z.log2_lt_pow2; lia). lia.
Qed.
Lemma code_value b : request_code_for b = (3 * 2 ^ 30 + (align_up (112 + b) 8) mod 2 ^ 14 * 2 ^ 16 + 148 * 2 ^ 8 + 17)%Z.
Proof.
  unfold request_code_for, ioc. rewrite place_align. set (s := align_up (112 + b) 8). replace (2 ^ 14 - 1)%Z with (Z.ones 14) by reflexivity. rewrite Z.land_ones by lia.
  change (Z.lor (Z.lor (Z.shiftl (Z.land (Z.lor 2 1) (2 ^ 2 - 1)) 30) (Z.shiftl (Z.land BTRFS_IOC_MAGIC (2 ^ 8 - 1)) 8)) (Z.shiftl (Z.land 17 (2 ^ 8 - 1)) 0)) with (3 * 2 ^ 30 + 37905)%Z.
  assert (Hm : (0 <= s mod 2 ^ 14 < 2 ^ 14)%Z) by (apply Z.mod_pos_bound; lia). set (m := (s mod 2 ^ 14)%Z) in *. rewrite Z.shiftl_mul_pow2 by lia.
  assert (D : Z.land (3 * 2 ^ 30 + 37905) (m * 2 ^ 16) = 0%Z).
  { apply Z.bits_inj'. intros i Hi. rewrite Z.land_spec, Z.bits_0. destruct (Z_lt_ge_dec i 16) as [L|L]; [rewrite (Z.mul_pow2_bits_low m 16 i) by lia; apply andb_false_r|].
    rewrite (Z.mul_pow2_bits m 16 i) by lia. destruct (Z_lt_ge_dec i 30) as [L2|L2].
    - assert (X : (i = 16 \/ i = 17 \/ i = 18 \/ i = 19 \/ i = 20 \/ i = 21 \/ i = 22 \/ i = 23 \/ i = 24 \/ i = 25 \/ i = 26 \/ i = 27 \/ i = 28 \/ i = 29)%Z) by lia.
      assert (B : Z.testbit (3 * 2 ^ 30 + 37905) i = false) by (clear - X; repeat destruct X as [X|X]; subst i; reflexivity). rewrite B. reflexivity.
    - rewrite (small_bits m); [apply andb_false_r|exact Hm|lia]. }
  rewrite <- Z.lxor_lor by exact D. rewrite <- Z.add_nocarry_lxor by exact D. lia.
Qed.
Lemma code_correct b : (0 <= b)%Z -> request_code_for b = BTRFS_IOC_TREE_SEARCH_V2 <-> ((b + 7) / 8 * 8 mod 16384 = 0)%Z.
Proof.
  intros Hb. rewrite code_value. unfold BTRFS_IOC_TREE_SEARCH_V2, iowr. unfold align_up.
  replace ((112 + b + 8 - 1) / 8 * 8)%Z with (112 + (b + 7) / 8 * 8)%Z by (replace (112 + b + 8 - 1)%Z with (b + 7 + 14 * 8)%Z by lia; rewrite Z.div_add by lia; lia).
  set (c := ((b + 7) / 8 * 8)%Z). change (2 ^ 14)%Z with 16384%Z. change (2 ^ 30)%Z with 1073741824%Z. change (2 ^ 16)%Z with 65536%Z. change (2 ^ 8)%Z with 256%Z.
  pose proof (Z.div_mod c 16384 ltac:(lia)) as D. pose proof (Z.mod_pos_bound c 16384 ltac:(lia)) as M.
  pose proof (Z.div_mod (112 + c) 16384 ltac:(lia)) as D2. pose proof (Z.mod_pos_bound (112 + c) 16384 ltac:(lia)) as M2. split; intros H; lia.
Qed.

(** ** What a command asks *)
Section Asks.
Context (E : env) (HK : kernel_typed E).
Definition okev (ev : event) : Prop := match ev with EvIoctl _ k => request_ok k | _ => True end.
Definition tidy (w w' : world) : Prop := exists l, w_log w' = w_log w ++ l /\ Forall okev l.
Lemma tidy_refl w : tidy w w. Proof. exists []. rewrite app_nil_r. split; [reflexivity|constructor]. Qed.
Lemma tidy_trans a b c : tidy a b -> tidy b c -> tidy a c.
Proof. intros (l & A & B) (m & C & D). exists (l ++ m). rewrite C, A, app_assoc. split; [reflexivity|]. apply Forall_app; auto. Qed.
Lemma tidy_event w ev : okev ev -> tidy w (log_event w ev).
Proof. intros H. exists [ev]. split; [reflexivity|]. constructor; [exact H|constructor]. Qed.
Definition neat {A} (m : M A) : Prop := forall w w' r, m w = (w', r) -> tidy w w'.
Lemma neat_ret {A} (r : res A) : neat (mret r).
Proof. intros w w' r' H. injection H as <- <-. apply tidy_refl. Qed.
Lemma neat_bind {A B} (m : M A) (g : A -> M B) : neat m -> (forall a, neat (g a)) -> neat (mbind m g).
Proof.
  intros Hm Hg w w' r H. unfold mbind in H. destruct (m w) as [w1 [a|e|p|]] eqn:H1; apply Hm in H1; try (injection H as <- <-; exact H1). eapply tidy_trans; [exact H1|]. exact (Hg a _ _ _ H).
Qed.
Definition hdr_ok (h : header) : Prop := u 64 (h_objectid h) /\ u 64 (h_offset h).
Lemma le_bound bs : Forall (fun b => (b < 256)%N) bs -> (0 <= le bs < 256 ^ Z.of_nat (length bs))%Z.
Proof.
  induction 1 as [|b bs Hb H IH]; cbn [le length]; [split; [lia|reflexivity]|]. rewrite Nat2Z.inj_succ, Z.pow_succ_r by lia. lia.
Qed.
Lemma le_firstn n bs : Forall (fun b => (b < 256)%N) bs -> (0 <= le (firstn n bs) < 256 ^ Z.of_nat n)%Z.
Proof.
  intros H. assert (F : Forall (fun b => (b < 256)%N) (firstn n bs)) by (rewrite <- (firstn_skipn n bs) in H; apply Forall_app in H; tauto).
  apply le_bound in F. split; [lia|]. eapply Z.lt_le_trans; [apply F|]. apply Z.pow_le_mono_r; [lia|]. rewrite firstn_length. lia.
Qed.
Lemma skipn_bytes n (bs : str) : Forall (fun b => (b < 256)%N) bs -> Forall (fun b => (b < 256)%N) (skipn n bs).
Proof. intros H. rewrite <- (firstn_skipn n bs) in H. apply Forall_app in H. tauto. Qed.
Lemma firstn_bytes n (bs : str) : Forall (fun b => (b < 256)%N) bs -> Forall (fun b => (b < 256)%N) (firstn n bs).
Proof. intros H. rewrite <- (firstn_skipn n bs) in H. apply Forall_app in H. tauto. Qed.
Lemma buf_read_bytes buf off n : Forall (fun b => (b < 256)%N) buf -> Forall (fun b => (b < 256)%N) (buf_read buf off n).
Proof.
  intros H. unfold buf_read. apply firstn_bytes, Forall_app. split; [apply skipn_bytes; exact H|]. apply Forall_forall. intros x Hx. apply repeat_spec in Hx. subst x. reflexivity.
Qed.
Lemma header_of_ok b : Forall (fun b => (b < 256)%N) b -> hdr_ok (header_of b).
Proof.
  intros H. unfold hdr_ok, header_of, u. cbn [h_objectid h_offset]. change (2 ^ 64)%Z with (256 ^ Z.of_nat 8)%Z.
  split; apply le_firstn, skipn_bytes; exact H.
Qed.
Lemma extract_hdr oc nr buf : Forall (fun b => (b < 256)%N) buf -> forall off ret coll ret' coll', Forall (fun c => hdr_ok (fst c)) ret ->
  extract oc nr buf off ret coll = Ok (ret', coll') -> Forall (fun c => hdr_ok (fst c)) ret'.
Proof.
  intros Hbuf. induction nr as [|nr IH]; intros off ret coll ret' coll' Hr H; cbn [extract] in H; [injection H as <- <-; exact Hr|].
  unfold ensure in H. destruct (32 + off <=? MAX_BUF_SIZE)%Z; [|discriminate]. cbn [bind] in H. unfold buf_slice at 1 in H. destruct ((0 <=? off) && (off + 32 <=? MAX_BUF_SIZE))%Z; [|discriminate].
  cbn [bind] in H. pose proof (header_of_ok _ (buf_read_bytes buf off 32 Hbuf)) as Hh. set (h := header_of (buf_read buf off 32)) in *. destruct (h_len h + (off + 32) <=? MAX_BUF_SIZE)%Z; [|discriminate]. cbn [bind] in H.
  unfold buf_slice in H. match type of H with context [if ?c then Ok _ else _] => destruct c end; [|discriminate]. cbn [bind] in H.
  match type of H with (if ?c then _ else _) = _ => destruct c end.
  - destruct (i32_incr oc coll) as [c'| | |]; try discriminate. cbn [bind] in H. exact (IH _ _ _ _ _ Hr H).
  - refine (IH _ _ _ _ _ _ H). apply Forall_app. split; [exact Hr|]. constructor; [exact Hh|constructor].
Qed.
Lemma largest_hdr l m : Forall (fun c => hdr_ok (fst c)) l -> largest l = Some m -> hdr_ok m.
Proof.
  revert m. induction l as [|c l IH]; intros m HF H; cbn [largest] in H; [discriminate|]. pose proof (Forall_inv HF) as H1. apply Forall_inv_tail in HF.
  destruct (largest l) as [x|] eqn:Hx; injection H as <-; [|exact H1]. destruct (key_le (fst c) x); [apply IH; [exact HF|reflexivity]|exact H1].
Qed.
Lemma try_into_ok z t : try_into_u 8 z = Ok t -> u 8 t.
Proof. unfold try_into_u. destruct ((0 <=? z) && (z <? 2 ^ 8))%Z eqn:H; [|discriminate]. apply andb_true_iff in H. destruct H as [A B]. apply Z.leb_le in A. apply Z.ltb_lt in B. intros Q. injection Q as <-. split; assumption. Qed.
Lemma neat_search fd retry K : forall key ret coll, request_ok key -> Forall (fun c => hdr_ok (fst c)) ret -> neat (search_loop K E fd retry key ret coll).
Proof.
  induction K as [|K IH]; intros key ret coll Hk Hr w w' r H; cbn [search_loop] in H; [injection H as <- <-; apply tidy_refl|].
  assert (B : tidy w (log_event w (EvIoctl fd key))) by (apply tidy_event; exact Hk).
  destruct (ioctl E (tick w) fd key) as [nr buf|nr buf|] eqn:Ha; [| |injection H as <- <-; exact B].
  all: assert (Hbuf : Forall (fun b => (b < 256)%N) buf) by (first [exact (proj2 (HK _ _ _ _ _ (or_introl Ha)))|exact (proj2 (HK _ _ _ _ _ (or_intror Ha)))]).
  all: destruct (extract _ _ buf 0 ret coll) as [[ret' coll']| | |] eqn:He; try (injection H as <- <-; exact B); apply (extract_hdr _ _ _ Hbuf _ _ _ _ _ Hr) in He.
  all: destruct (negb retry || (nr =? 0)%Z); [injection H as <- <-; exact B|]; destruct (largest ret') as [m|] eqn:Hl; [|injection H as <- <-; exact B].
  all: apply (largest_hdr _ _ He) in Hl; destruct Hl as [L1 L2]; destruct (try_into_u 8 (h_type m)) as [t| | |] eqn:Ht; try (injection H as <- <-; exact B); apply try_into_ok in Ht.
  all: destruct (h_offset m + 1 <? 2 ^ 64)%Z eqn:Ho; [|injection H as <- <-; exact B]; apply Z.ltb_lt in Ho.
  all: eapply tidy_trans; [exact B|]; refine (IH _ _ _ _ He _ _ _ H).
  all: unfold request_ok in Hk |- *; cbn [sk_tree sk_min_objectid sk_max_objectid sk_min_type sk_max_type sk_min_offset sk_max_offset sk_min_transid sk_max_transid];
    destruct Hk as (A1 & A2 & A3 & A4 & A5 & A6 & A7 & A8 & A9); repeat apply conj; try assumption; unfold u in *; lia.
Qed.
Lemma neat_decode oc cs : neat (decode_chunks oc cs).
Proof.
  induction cs as [|[h b] cs IH]; intros w w' r H; cbn [decode_chunks] in H; [injection H as <- <-; apply tidy_refl|]. destruct (find _ STRUCTS) as [s|].
  - revert w w' r H. change (neat (do v <- mret (from_bytes oc s (Some (h_objectid h, h_type h, h_offset h)) b) ;; do vs <- decode_chunks oc cs ;; mret (Ok (v :: vs)))).
    apply neat_bind; [apply neat_ret|intros v]. apply neat_bind; [exact IH|intros vs; apply neat_ret].
  - eapply tidy_trans; [|exact (IH _ _ _ H)]. apply tidy_event. exact I.
Qed.
Lemma neat_eval_search K f tree key : neat (eval_search K E f tree key).
Proof.
  unfold eval_search. apply neat_bind; [apply neat_ret|intros [[n ky] fl]]. apply neat_bind; [apply neat_ret|intros _]. destruct f as [f|]; [|apply neat_ret].
  destruct (search_args tree fl) as [sk|e|p|] eqn:Hs; try (intros w w' r H; unfold mbind, mret in H; injection H as <- <-; apply tidy_refl).
  apply search_args_ok in Hs. assert (Hk : request_ok sk) by (unfold requested in Hs; tauto).
  intros w w' r H. unfold mbind at 1 in H. unfold mret at 1 in H. revert w w' r H. apply neat_bind; [|intros cs; apply neat_bind; [apply neat_decode|intros vs; apply neat_ret]].
  unfold fs_search. destruct f; [apply neat_search; [exact Hk|constructor]|apply neat_ret].
Qed.
Lemma neat_expr K vs f : forall e, neat (eval_expr K E vs f e).
Proof.
  fix IH 1. intros e. destruct e as [x|z|b|s|e|e fld|e i|fe args|op l r|op e|t e]; cbn [eval_expr]; try apply neat_ret.
  - apply IH.
  - apply neat_bind; [apply IH|intros v]. apply neat_bind; [apply neat_ret|intros [[nm ky] fl]]. destruct fld; apply neat_ret.
  - repeat (first [apply neat_ret|apply neat_bind; [first [apply IH|apply neat_ret]|intros ?]]).
  - apply neat_bind; [apply IH|intros fv]. apply neat_bind; [apply neat_ret|intros fn].
    destruct fn; repeat match goal with |- neat match ?l with [] => _ | _ => _ end => destruct l end; try apply neat_ret;
    repeat (first [apply neat_ret|apply neat_eval_search|apply neat_bind; [first [apply IH|apply neat_ret]|intros ?]]).
    destruct a0 as [[nm ky] fl]. destruct ky as [[[? ?] ?]|]; apply neat_ret.
  - destruct op; repeat (first [apply neat_ret|apply neat_bind; [first [apply IH|apply neat_ret]|intros ?]]);
    match goal with |- context [if ?x then _ else _] => destruct x end;
    repeat (first [apply neat_ret|apply neat_bind; [first [apply IH|apply neat_ret]|intros ?]]).
  - apply neat_bind; [apply IH|intros v; apply neat_ret].
  - apply neat_bind; [apply IH|intros v]. apply neat_bind; [apply neat_ret|intros z]. destruct (z <? 0)%Z; apply neat_ret.
Qed.
Lemma neat_lhs K vs f e : forall g, neat (lhs_assign K E vs f e g).
Proof.
  induction e; intros g; cbn [lhs_assign]; try apply neat_ret.
  - destruct e2; try apply neat_ret. apply IHe1.
  - apply neat_bind; [apply neat_expr|intros v]. apply neat_bind; [apply neat_ret|intros z]. apply IHe1.
Qed.
Lemma neat_open p : neat (fs_new E p).
Proof. intros w w' r H. unfold fs_new in H. injection H as <- <-. apply tidy_event. exact I. Qed.

Definition sneat (b : est -> est * ires) : Prop := forall s s' r, b s = (s', r) -> tidy (e_w s) (e_w s').
Definition evneat (ev : est -> stmt -> est * ires) : Prop := forall st, sneat (fun s => ev s st).
Lemma sn_end r : sneat (fun s => (s, r)).
Proof. intros s s' r' H. injection H as <- <-. apply tidy_refl. Qed.
Lemma sn_expr k e c : (forall v, sneat (fun s => c s v)) -> sneat (fun s => with_expr k E s e c).
Proof.
  intros Hc s s' r H. unfold with_expr in H. destruct (eval_expr k E (e_vars s) (e_fs s) e (e_w s)) as [w [v|x|p|]] eqn:He; apply neat_expr in He; try (injection H as <- <-; exact He).
  eapply tidy_trans; [exact He|]. exact (Hc v (with_w s w) s' r H).
Qed.
Lemma sn_list ev l : evneat ev -> sneat (fun s => run_list ev s l).
Proof.
  intros He. induction l as [|st l IH]; intros s s' r H; cbn [run_list] in H; [injection H as <- <-; apply tidy_refl|]. destruct (ev s st) as [s1 q] eqn:H1. apply (He st) in H1.
  destruct q; try (injection H as <- <-; exact H1). eapply tidy_trans; [exact H1|exact (IH _ _ _ H)].
Qed.
Lemma sn_while ev ke k c b : evneat ev -> sneat (while_loop ev ke E k c b).
Proof.
  intros He. induction k as [|k IH]; intros s s' r H; cbn [while_loop] in H; [injection H as <- <-; apply tidy_refl|]. revert s s' r H. apply (sn_expr ke c). intros v s s' r H.
  destruct (as_boolean v) as [[|]|e|p|]; try (injection H as <- <-; apply tidy_refl). destruct (run_list ev s b) as [s2 q] eqn:H2. apply (sn_list ev b He) in H2.
  destruct q; try (injection H as <- <-; exact H2); (eapply tidy_trans; [exact H2|exact (IH _ _ _ H)]).
Qed.
Lemma sn_insert x v : sneat (est_insert x v).
Proof. intros s s' r. unfold est_insert. destruct (vars_insert x v (e_vars s)); intros H; injection H as <- <-; apply tidy_refl. Qed.
Lemma sn_for ev x b items : evneat ev -> sneat (for_loop ev x b items).
Proof.
  intros He. induction items as [|v items IH]; intros s s' r H; cbn [for_loop] in H; [injection H as <- <-; apply tidy_refl|].
  destruct (est_insert x v s) as [s1 q1] eqn:H1. apply sn_insert in H1. destruct q1; try (injection H as <- <-; exact H1).
  destruct (run_list ev s1 b) as [s2 q] eqn:H2. apply (sn_list ev b He) in H2. assert (T : tidy (e_w s) (e_w s2)) by (eapply tidy_trans; [exact H1|exact H2]).
  destruct q; try (injection H as <- <-; exact T); (eapply tidy_trans; [exact T|exact (IH _ _ _ H)]).
Qed.
Lemma sn_scope b : sneat b -> sneat (fun s => in_scope s b).
Proof.
  intros Hb s s' r H. unfold in_scope in H. destruct (b (with_vars s (push_scope (e_vars s)))) as [s1 q] eqn:H1. apply Hb in H1. cbn [with_vars e_w] in H1.
  destruct (pop_scope (e_vars s1)); injection H as <- <-; exact H1.
Qed.
Lemma sn_write t : sneat (fun s => do_write E s t).
Proof.
  intros s s' r H. unfold do_write in H. destruct (sink E (tick (e_w s)) t) as [|k] eqn:Hs; injection H as <- <-; (exists [EvWrite t]; split; [reflexivity|repeat constructor]).
Qed.
Lemma sn_stmt inter n : evneat (eval_stmt n E inter).
Proof.
  induction n as [|n IH]; intros st; cbn [eval_stmt]; [apply sn_end|]. destruct st as [lhs rhs|c tb fb|c b|i re b| | | | |e|e|e].
  - apply sn_expr. intros v.
    assert (X : sneat (fun u => let '(w, r) := lhs_assign n E (e_vars u) (e_fs u) lhs (fun _ => Ok v) (e_w u) in match r with Ok vs => (mk_est vs (e_fs u) w, IOk) | _ => (with_w u w, ires_of r) end)).
    { intros u s' r H. destruct (lhs_assign n E (e_vars u) (e_fs u) lhs (fun _ => Ok v) (e_w u)) as [w [a|e|p|]] eqn:Hl; apply neat_lhs in Hl; injection H as <- <-; exact Hl. }
    destruct lhs; try exact X. apply sn_insert.
  - apply sn_scope, sn_expr. intros v. destruct (as_boolean v) as [t|x|p|]; try apply sn_end. apply sn_list. exact IH.
  - apply sn_scope, sn_while. exact IH.
  - apply sn_scope. destruct i; try apply sn_end. apply sn_expr. intros v. destruct (as_vec v) as [items|y|p|]; try apply sn_end. apply sn_for. exact IH.
  - apply sn_end.
  - apply sn_end.
  - apply sn_write.
  - apply sn_end.
  - apply sn_expr. intros v. destruct (as_string true v) as [p|x|p|]; try apply sn_end. intros u s' r H.
    destruct (fs_new E p (e_w u)) as [w [f|x|q|]] eqn:Hf; apply neat_open in Hf; injection H as <- <-; exact Hf.
  - apply sn_expr. intros v. destruct (print_text n (overflow_checks E) v) as [t|x|p|]; try apply sn_end. apply sn_write.
  - apply sn_expr. intros v. destruct inter; [apply sn_write|apply sn_end].
Qed.
Lemma rt_eval_neat n inter r cmd r' q : rt_eval n E inter r cmd = (r', q) -> tidy (e_w (r_eval r)) (e_w (r_eval r')).
Proof.
  intros H. unfold rt_eval in H. destruct (parse cmd) as [l|e|p|]; try (injection H as <- <-; apply tidy_refl).
  destruct (analyze (r_sem r) l) as [sem' [[]|e|p|]]; try (injection H as <- <-; apply tidy_refl). unfold eval_prog in H.
  destruct (run_list (eval_stmt n E inter) (r_eval r) l) as [s' q'] eqn:Hr. apply (sn_list _ l (sn_stmt inter n)) in Hr. injection H as <- <-. exact Hr.
Qed.
(** ** The program *)
Lemma start_neat w : tidy w (e_w (r_eval (rt_start E w))).
Proof.
  unfold rt_start, eval_start. destruct (getcwd E) as [c|]; [exists [EvOpen c]|exists []]; (split; [cbn; rewrite ?app_nil_r; reflexivity|repeat constructor]).
Qed.
Lemma println_neat w line w' ok : println E w line = (w', ok) -> tidy w w'.
Proof. unfold println. destruct (sink E (tick w) (line ++ nl)); intros H; injection H as <- <-; (exists [EvWrite (line ++ nl)]; split; [reflexivity|repeat constructor]). Qed.
Lemma printlns_neat lines : forall w w' ok, printlns E w lines = (w', ok) -> tidy w w'.
Proof.
  induction lines as [|l lines IH]; intros w w' ok H; cbn [printlns] in H; [injection H as <- <-; apply tidy_refl|]. destruct (println E w l) as [w1 [|]] eqn:H1; apply println_neat in H1.
  - eapply tidy_trans; [exact H1|exact (IH _ _ _ H)].
  - injection H as <- <-. exact H1.
Qed.
Lemma loop_neat n : forall evs r r' qs ns x, process_loop n E r evs = (r', qs, ns, x) -> tidy (e_w (r_eval r)) (e_w (r_eval r')).
Proof.
  induction evs as [|ev evs IH]; intros r r' qs ns x H; cbn [process_loop] in H; [injection H as <- <- <- <-; apply tidy_refl|]. destruct ev as [line| | |].
  - destruct (rt_eval n E true r (clean line)) as [r1 q] eqn:He. apply rt_eval_neat in He. destruct q; try (injection H as <- <- <- <-; exact He).
    all: destruct (process_loop n E r1 evs) as [[[r2 qs2] ns2] x2] eqn:Hl; injection H as <- <- <- <-; eapply tidy_trans; [exact He|exact (IH _ _ _ _ _ Hl)].
  - destruct (process_loop n E r evs) as [[[r2 qs2] ns2] x2] eqn:Hl. injection H as <- <- <- <-. exact (IH _ _ _ _ _ Hl).
  - destruct (println E (e_w (r_eval r)) (s_ "quit")) as [w [|]] eqn:Hw; apply println_neat in Hw; injection H as <- <- <- <-; exact Hw.
  - destruct (println E (e_w (r_eval r)) (s_ "quit")) as [w [|]] eqn:Hw; apply println_neat in Hw; [|injection H as <- <- <- <-; exact Hw].
    destruct (process_loop n E (rt_with_w r w) evs) as [[[r2 qs2] ns2] x2] eqn:Hl. injection H as <- <- <- <-. eapply tidy_trans; [exact Hw|exact (IH _ _ _ _ _ Hl)].
Qed.
Lemma process_neat n H m evs : Forall okev (w_log (p_world (process n E H m evs))).
Proof.
  assert (G : forall w, tidy (mk_world [] []) w -> Forall okev (w_log w)) by (intros w (l & A & B); rewrite A; exact B). apply G. clear G.
  unfold process. destruct (logger_ok H); [|apply tidy_refl]. destruct m as [c|].
  - unfold process_script. destruct c as [c|]; [|apply tidy_refl]. destruct (rt_eval n E false (rt_start E (mk_world [] [])) (strip_comments c)) as [r q] eqn:He. apply rt_eval_neat in He.
    destruct q; cbn [p_world]; (eapply tidy_trans; [apply start_neat|exact He]).
  - unfold process_repl. destruct (editor_ok H); [|apply tidy_refl]. destruct (printlns E (mk_world [] []) welcome_lines) as [w ok] eqn:Hw. apply printlns_neat in Hw.
    destruct ok; [|exact Hw]. destruct (process_loop n E (rt_start E w) evs) as [[[r qs] ns] x] eqn:Hl. apply loop_neat in Hl.
    assert (T : tidy (mk_world [] []) (e_w (r_eval r))) by (eapply tidy_trans; [exact Hw|]; eapply tidy_trans; [apply start_neat|exact Hl]).
    destruct x; [destruct (save_ok H)| | |]; exact T.
Qed.
End Asks.
