(** C34-C38, C57, C60: search().  The kernel is the oracle [ioctl E], the filesystem behind it a
    history of states that may change at any time (Spec_Search). *)
From Verif Require Import Base Ast Structs Definitions Value Variables Fs Eval Lib Demo Spec_Decode Proof_Run Spec_Search Proof_Search Proof_Search2 Demo_Search.
From Coq Require Import Sorted Lia.
Arguments s_ s%string_scope.

(** ** C34 *)
Theorem C34_search_sends_exactly_the_requested_key :
  forall K E vs fd e w tree key flds k w2 w' r,
  calls_search K E vs (Some (FsMounted fd)) e w tree key w2 -> is_search_key key flds ->
  requested tree flds k -> kernel_typed E -> K <> 0 ->
  eval_expr K E vs (Some (FsMounted fd)) e w = (w', r) ->
  exists requests warnings,
    w_log w' = w_log w2 ++ EvIoctl fd k :: requests ++ warnings /\
    Forall (fun ev => exists k', ev = EvIoctl fd k' /\ follow_up k k') requests /\
    Forall (fun ev => exists o t f, ev = EvWarn o t f) warnings.
Proof.
  intros K E vs fd e w tree key flds k w2 w' r Hc Hs Hr HE HK H. rewrite (calls_search_eq _ _ _ _ _ _ _ _ _ Hc), (eval_search_ok _ _ _ _ _ flds k) in H by assumption.
  unfold mbind at 1 in H. destruct (fs_search K E (FsMounted fd) k w2) as [w1 r1] eqn:Hf. unfold fs_search in Hf.
  destruct (search_loop_any E fd _ HE K k k [] 0 w2 w1 r1 (Forall_nil _) (follow_up_refl k) Hf) as (_ & (rest & Hio & Hl & Hne) & Hr1).
  destruct (Hne HK) as (rest' & ->). inversion_clear Hio.
  destruct r1 as [items|e1|p1|].
  - unfold mbind, mret in H. destruct (decode_chunks (overflow_checks E) items w1) as [w3 r3] eqn:Hd.
    destruct (decode_chunks_any _ _ Hr1 _ _ _ Hd) as (_ & (wn & Hw & HF) & _).
    assert (w' = w3) by (destruct r3; congruence). subst w'. exists rest', wn. rewrite Hw, Hl, <- app_assoc. cbn. auto.
  - injection H as <- <-. exists rest', []. rewrite app_nil_r. auto.
  - injection H as <- <-. exists rest', []. rewrite app_nil_r. auto.
  - injection H as <- <-. exists rest', []. rewrite app_nil_r. auto.
Qed.
Print Assumptions C34_search_sends_exactly_the_requested_key.

(** a number that is missing, not an integer or too large: error, and the kernel is not asked *)
Theorem C34_bad_request_is_an_error :
  forall K E vs fd e w tree key flds w2,
  calls_search K E vs (Some (FsMounted fd)) e w tree key w2 -> is_search_key key flds ->
  (forall k, ~ requested tree flds k) ->
  exists err, eval_expr K E vs (Some (FsMounted fd)) e w = (w2, Err err).
Proof.
  intros K E vs fd e w tree key flds w2 Hc Hs Hr. rewrite (calls_search_eq _ _ _ _ _ _ _ _ _ Hc), (eval_search_struct _ _ _ _ _ flds) by exact Hs.
  destruct (search_args_err tree flds) as [(k & Hk)|(err & He & _)]; [elim (Hr k); apply search_args_ok; exact Hk|].
  unfold mbind, mret. rewrite He. eauto.
Qed.
Print Assumptions C34_bad_request_is_an_error.

(** so is a key that is not a search key struct *)
Theorem C34_bad_key_is_an_error :
  forall K E vs f e w tree key w2,
  calls_search K E vs f e w tree key w2 -> (forall flds, ~ is_search_key key flds) ->
  exists err, eval_expr K E vs f e w = (w2, Err err).
Proof. intros K E vs f e w tree key w2 Hc Hk. rewrite (calls_search_eq _ _ _ _ _ _ _ _ _ Hc). apply eval_search_other. exact Hk. Qed.
Print Assumptions C34_bad_key_is_an_error.

Definition demo_vars : vars value := vars_new VInt VFun.
Definition demo_call (a b c d : Z) : expr :=
  ECall (EIdent (s_ "search")) [EIdent (s_ "BTRFS_ROOT_TREE_OBJECTID"); ECall (EIdent (s_ "key")) [EInt a; EInt b; EInt c; EInt d]].
Lemma demo_calls K E f a b c d w : calls_search K E demo_vars f (demo_call a b c d) w 1 (key_struct a b c d) w.
Proof.
  eexists _, _, _, w, w. split; [reflexivity|]. split; [vm_compute; reflexivity|]. split; [vm_compute; reflexivity|].
  cbn [eval_expr]. unfold mbind, mret. change (vars_get (s_ "key") demo_vars) with (Some (VFun FKey)). cbn [ok_or as_function as_integer]. rewrite make_search_key_eq. reflexivity.
Qed.
Lemma demo_is_key a b c d : is_search_key (key_struct a b c d)
    [(s_ "min_objectid", VInt a); (s_ "max_objectid", VInt (2 ^ 64 - 1)); (s_ "min_type", VInt b); (s_ "max_type", VInt 255);
     (s_ "min_offset", VInt c); (s_ "max_offset", VInt (2 ^ 64 - 1)); (s_ "min_transid", VInt d); (s_ "max_transid", VInt (2 ^ 64 - 1))].
Proof. unfold is_search_key, key_struct. eauto. Qed.
Example C34_example : exists flds k,
  calls_search 5 (tree_env true 1 demo_tree) demo_vars (Some (FsMounted 3)) (demo_call 1 2 3 4) w0 1 (key_struct 1 2 3 4) w0 /\
  is_search_key (key_struct 1 2 3 4) flds /\ requested 1 flds k /\ kernel_typed (tree_env true 1 demo_tree) /\
  w_log (fst (eval_expr 5 (tree_env true 1 demo_tree) demo_vars (Some (FsMounted 3)) (demo_call 1 2 3 4) w0)) =
    [EvIoctl 3 (mk_skey 1 1 (2 ^ 64 - 1) 2 255 3 (2 ^ 64 - 1) 4 (2 ^ 64 - 1)); EvWarn 12 253 9].
Proof.
  eexists _, (mk_skey 1 1 (2 ^ 64 - 1) 2 255 3 (2 ^ 64 - 1) 4 (2 ^ 64 - 1)). split; [apply demo_calls|]. split; [apply demo_is_key|].
  split; [|split; [apply tree_typed; [apply demo_tree_ok|reflexivity]|vm_compute; reflexivity]].
  unfold requested, request_ok, key_field, u. cbn [sk_tree sk_min_objectid sk_max_objectid sk_min_type sk_max_type sk_min_offset sk_max_offset sk_min_transid sk_max_transid].
  repeat split; try reflexivity; try discriminate.
Qed.
Example C34_example_too_large : exists flds,
  calls_search 5 (tree_env true 1 demo_tree) demo_vars (Some (FsMounted 3)) (demo_call 1 256 3 4) w0 1 (key_struct 1 256 3 4) w0 /\
  is_search_key (key_struct 1 256 3 4) flds /\ (forall k, ~ requested 1 flds k) /\
  eval_expr 5 (tree_env true 1 demo_tree) demo_vars (Some (FsMounted 3)) (demo_call 1 256 3 4) w0 = (w0, Err ETryFromInt).
Proof.
  eexists. split; [apply demo_calls|]. split; [apply demo_is_key|]. split; [|vm_compute; reflexivity].
  intros k (_ & _ & _ & Hf & _ & _ & _ & _ & _ & Hok). destruct Hok as (_ & _ & _ & [_ Hu] & _). cbn in Hf. injection Hf as Hf. rewrite <- Hf in Hu. discriminate.
Qed.

(** ** C35 *)
(** what a bounded search returns is complete, whatever happens to the filesystem meanwhile *)
Theorem C35_bounded_search_is_complete :
  forall K E vs fd states e w tree key flds k w2 w' v,
  honest E fd states ->
  calls_search K E vs (Some (FsMounted fd)) e w tree key w2 -> is_search_key key flds -> requested tree flds k -> bounded k ->
  eval_expr K E vs (Some (FsMounted fd)) e w = (w', Ok v) ->
  exists items l, v = VArr l false /\ shown (overflow_checks E) items l /\
    complete_result states k (tick w2) (tick w') items.
Proof.
  intros K E vs fd states e w tree key flds k w2 w' v HE Hc Hs Hr Hb H. rewrite (calls_search_eq _ _ _ _ _ _ _ _ _ Hc), (eval_search_ok _ _ _ _ _ flds k) in H by assumption.
  unfold mbind at 1 in H. destruct (fs_search K E (FsMounted fd) k w2) as [w1 r1] eqn:Hf.
  assert (Hreq : request_ok k) by (unfold requested in Hr; tauto).
  destruct r1 as [items|e1|p1|]; try discriminate.
  pose proof (bounded_search_outcome K E fd states k w2 w1 (Ok items) HE Hreq Hb Hf ltac:(discriminate)) as [Ha Ho].
  unfold mbind, mret in H. destruct (decode_chunks (overflow_checks E) items w1) as [w3 [l| | |]] eqn:Hd; try discriminate. injection H as <- <-.
  apply decode_chunks_shown in Hd. destruct Hd as (Hsh & _ & Hlog). exists items, l. split; [reflexivity|]. split; [exact Hsh|].
  apply (complete_mono _ _ _ (tick w1)); [unfold tick; rewrite Hlog, app_length; lia|exact Ho].
Qed.
Print Assumptions C35_bounded_search_is_complete.

(** the paging ends: with a large enough step budget the search is never cut off *)
Theorem C35_bounded_search_terminates :
  forall K E vs fd states e w tree key flds k w2,
  honest E fd states ->
  calls_search K E vs (Some (FsMounted fd)) e w tree key w2 -> is_search_key key flds -> requested tree flds k -> bounded k ->
  exists K0, forall K', K0 <= K' -> snd (eval_expr K' E vs (Some (FsMounted fd)) e w) <> Fuel.
Proof.
  intros K E vs fd states e w tree key flds k w2 HE Hc Hs Hr Hb.
  assert (Hreq : request_ok k) by (unfold requested in Hr; tauto).
  destruct (bounded_search_terminates E fd states k w2 HE Hreq Hb) as (K0 & HK0).
  exists (Nat.max K K0). intros K' HK'.
  assert (Hc' : calls_search K' E vs (Some (FsMounted fd)) e w tree key w2).
  { destruct Hc as (fe & a & b & wf & wa & -> & Hf & Ha & Hb'). exists fe, a, b, wf, wa. split; [reflexivity|].
    assert (HKK : K <= K') by lia. repeat split; (eapply eval_expr_mono; [exact HKK|eassumption|discriminate]). }
  rewrite (calls_search_eq _ _ _ _ _ _ _ _ _ Hc'), (eval_search_ok _ _ _ _ _ flds k) by assumption.
  unfold mbind at 1. specialize (HK0 K' ltac:(lia)). destruct (fs_search K' E (FsMounted fd) k w2) as [w1 r1] eqn:Hf. cbn [snd] in HK0.
  destruct r1 as [items|e1|p1|]; try discriminate; [|contradiction].
  pose proof (bounded_search_outcome K' E fd states k w2 w1 (Ok items) HE Hreq Hb Hf ltac:(discriminate)) as [Ha Ho].
  pose proof (honest_items_raw K' E fd states k w2 w1 items HE Hf) as HF.
  unfold mbind, mret. destruct (decode_chunks (overflow_checks E) items w1) as [w3 r3] eqn:Hd.
  destruct (decode_chunks_any _ _ HF _ _ _ Hd) as (_ & _ & [(l & ->)|(err & ->)]); cbn; discriminate.
Qed.
Print Assumptions C35_bounded_search_terminates.

(** and it succeeds (all items being decodable), provided the kernel reports no error and no item
    of the range has the largest possible offset *)
Theorem C35_bounded_search_succeeds_partial :
  forall K E vs fd states e w tree key flds k w2,
  honest E fd states -> (forall n k', ioctl E n fd k' <> IoErr) ->
  calls_search K E vs (Some (FsMounted fd)) e w tree key w2 -> is_search_key key flds -> requested tree flds k -> bounded k ->
  (forall n st c, states (sk_tree k) n st -> In c st -> in_range k c -> h_offset (fst c) <> (2 ^ 64 - 1)%Z) ->
  exists K0, forall K', K0 <= K' -> exists items b, complete_result states k (tick w2) b items /\
    forall l, shown (overflow_checks E) items l ->
    exists w', tick w' >= b /\ eval_expr K' E vs (Some (FsMounted fd)) e w = (w', Ok (VArr l false)).
Proof.
  intros K E vs fd states e w tree key flds k w2 HE Hno Hc Hs Hr Hb Hoff.
  assert (Hreq : request_ok k) by (unfold requested in Hr; tauto).
  destruct (bounded_search_terminates E fd states k w2 HE Hreq Hb) as (K0 & HK0).
  exists (Nat.max K K0). intros K' HK'.
  assert (Hc' : calls_search K' E vs (Some (FsMounted fd)) e w tree key w2).
  { destruct Hc as (fe & a & b & wf & wa & -> & Hf & Ha & Hb'). exists fe, a, b, wf, wa. split; [reflexivity|].
    assert (HKK : K <= K') by lia. repeat split; (eapply eval_expr_mono; [exact HKK|eassumption|discriminate]). }
  specialize (HK0 K' ltac:(lia)). destruct (fs_search K' E (FsMounted fd) k w2) as [w1 r1] eqn:Hf. cbn [snd] in HK0.
  pose proof (bounded_search_outcome K' E fd states k w2 w1 r1 HE Hreq Hb Hf HK0) as [Ha Ho].
  destruct r1 as [items|e1|p1|]; [|exfalso|contradiction|contradiction].
  - exists items, (tick w1). split; [exact Ho|]. intros l Hsh.
    pose proof (shown_decode_chunks _ _ _ Hsh w1) as Hd. destruct (decode_chunks (overflow_checks E) items w1) as [w3 r3] eqn:Hd3. cbn [snd] in Hd. subst r3.
    exists w3. destruct (decode_chunks_shown _ _ _ _ _ Hd3) as (_ & _ & Hlog). split; [unfold tick; rewrite Hlog, app_length; lia|].
    rewrite (calls_search_eq _ _ _ _ _ _ _ _ _ Hc'), (eval_search_ok _ _ _ _ _ flds k) by assumption.
    unfold mbind at 1. rewrite Hf. unfold mbind, mret. rewrite Hd3. reflexivity.
  - destruct e1; try contradiction.
    + exact (search_no_ioerr K' E fd k w2 w1 Hno Hf).
    + destruct Ho as (m & n & st & Hm & Hi & _ & Hst & Hin). exact (Hoff n st m Hst Hin Hi Hm).
Qed.
Print Assumptions C35_bounded_search_succeeds_partial.

(** An item with the largest offset makes an otherwise fine search fail: the next request's lower
    bound does not carry into the type. *)
Definition last_offset_tree : list chunk := [orphan 5; (mk_header 7 (2 ^ 64 - 5) (2 ^ 64 - 1) 48 0, [])].
Theorem C35_bounded_search_succeeds_refuted :
  exists E fd items k, honest E fd (fun _ _ st => st = items) /\ (forall n k', ioctl E n fd k' <> IoErr) /\ request_ok k /\ bounded k /\
    (forall c, In c items -> in_range k c) /\
    forall K, K <> 0 -> snd (fs_search K E (FsMounted fd) k w0) = Err EKeyOverflow.
Proof.
  exists (tree_env true 10 last_offset_tree), 3%Z, last_offset_tree, (demo_request 254 (2 ^ 64 - 1)).
  assert (Hok : Forall item_ok last_offset_tree) by (repeat constructor; unfold u; cbn; try lia).
  split; [apply tree_honest; [discriminate|exact Hok| |vm_compute; discriminate]; repeat constructor; cbn; lia|].
  split; [discriminate|]. split; [unfold request_ok, u; cbn; lia|]. split; [unfold bounded; cbn; lia|]. split.
  - intros c Hc. apply in_rangeb_spec. destruct Hc as [<-|[<-|[]]]; vm_compute; reflexivity.
  - intros [|K] HK; [congruence|]. vm_compute. reflexivity.
Qed.
Print Assumptions C35_bounded_search_succeeds_refuted.

(** a kernel returning one item at a time, three of four items in the range *)
Example C35_example :
  let E := tree_env true 1 demo_tree in let k := demo_request 255 257 in
  honest E 3 (fun _ _ st => st = demo_tree) /\ kernel_typed E /\ request_ok k /\ bounded k /\
  snd (fs_search 10 E (FsMounted 3) k w0) = Ok [(mk_header 6 12 9 253 3, [1;2;255]%N); orphan 5; orphan 257; orphan 300] /\
  tick (fst (fs_search 10 E (FsMounted 3) k w0)) = 5 /\
  snd (fs_search 10 E (FsMounted 3) (mk_skey 1 0 (2 ^ 64 - 5) 0 48 0 257 0 (2 ^ 64 - 1)) w0) = Ok [(mk_header 6 12 9 253 3, [1;2;255]%N); orphan 5; orphan 257].
Proof.
  destruct demo_tree_ok as (H1 & H2 & H3). split; [apply tree_honest; [discriminate|exact H1|exact H2|exact H3]|].
  split; [apply tree_typed; [exact H1|reflexivity]|]. split; [unfold request_ok, u; cbn; lia|]. split; [unfold bounded; cbn; lia|].
  vm_compute. auto.
Qed.
(** the whole expression, on the demo tree with max_offset changed through a variable *)
Example C35_example_call :
  let E := tree_env true 1 demo_tree in
  let key := VStruct (s_ "_btrfs_ioctl_search_key") None
    [(s_ "min_objectid", VInt 0); (s_ "max_objectid", VInt (2 ^ 64 - 1)); (s_ "min_type", VInt 0); (s_ "max_type", VInt 255);
     (s_ "min_offset", VInt 0); (s_ "max_offset", VInt 257); (s_ "min_transid", VInt 0); (s_ "max_transid", VInt (2 ^ 64 - 1))] in
  let vs := [[(s_ "search", VFun FSearch); (s_ "k", key)]] in
  let e := ECall (EIdent (s_ "search")) [EInt 1; EIdent (s_ "k")] in
  calls_search 10 E vs (Some (FsMounted 3)) e w0 1 key w0 /\
  (exists flds, is_search_key key flds /\ requested 1 flds (demo_request 255 257)) /\
  exists l, snd (eval_expr 10 E vs (Some (FsMounted 3)) e w0) = Ok (VArr l false) /\ length l = 3.
Proof.
  cbv zeta. split; [eexists _, _, _, w0, w0; repeat split|]. split.
  - eexists. split; [eexists; reflexivity|]. unfold requested, request_ok, key_field, u. repeat split; try reflexivity; try discriminate.
  - eexists. vm_compute. split; reflexivity.
Qed.

(** ** C36 *)
(** A search with all upper bounds at their maximum - the default of key() - asks the kernel only
    once: what does not fit into the first answer is silently missing. *)
Theorem C36_unbounded_search_returns_everything_refuted :
  exists E fd items k, honest E fd (fun _ _ st => st = items) /\ request_ok k /\ ~ bounded k /\
    (exists r, (forall K, K <> 0 -> snd (fs_search K E (FsMounted fd) k w0) = Ok r) /\
       exists c, In c items /\ in_range k c /\ ~ In c r).
Proof.
  exists (tree_env true 2 demo_tree), 3%Z, demo_tree, (demo_request 255 (2 ^ 64 - 1)). destruct demo_tree_ok as (H1 & H2 & H3).
  split; [apply tree_honest; [discriminate|exact H1|exact H2|exact H3]|]. split; [unfold request_ok, u; cbn; lia|]. split; [unfold bounded; cbn; lia|].
  exists [(mk_header 6 12 9 253 3, [1;2;255]%N); orphan 5]. split.
  - intros [|K] HK; [congruence|]. vm_compute. reflexivity.
  - exists (orphan 300). split; [cbn; auto|]. split; [apply in_rangeb_spec; vm_compute; reflexivity|].
    intros [H|[H|[]]]; vm_compute in H; discriminate.
Qed.
Print Assumptions C36_unbounded_search_returns_everything_refuted.

(** It returns a complete beginning of the range: everything up to the last item returned, and
    everything when the kernel's only answer was not cut off. *)
Theorem C36_unbounded_search_returns_everything_partial :
  forall K E fd states k w w' items,
  honest E fd states -> request_ok k -> ~ bounded k ->
  fs_search K E (FsMounted fd) k w = (w', Ok items) ->
  w_log w' = w_log w ++ [EvIoctl fd k] /\ answer_ok states (tick w) k items /\
  ((forall c, in_range k c -> (forall st, states (sk_tree k) (tick w) st -> In c st) -> exists i, In i items /\ ~ klt (key_of i) (key_of c)) ->
   complete_result states k (tick w) (tick w') items).
Proof. exact unbounded_search. Qed.
Print Assumptions C36_unbounded_search_returns_everything_partial.

Example C36_example :
  let k := demo_request 255 (2 ^ 64 - 1) in
  request_ok k /\ ~ bounded k /\ snd (fs_search 5 (tree_env true 9 demo_tree) (FsMounted 3) k w0) = Ok demo_tree.
Proof. cbv zeta. split; [unfold request_ok, u; cbn; lia|]. split; [unfold bounded; cbn; lia|]. vm_compute. reflexivity. Qed.

(** ** C37 *)
(** a buffer written as documented is read back exactly, whatever lies behind the items *)
Theorem C37_well_formed_buffer :
  forall oc items junk ret coll, Forall item_ok items -> NoDup (map fst ret ++ map fst items) ->
  (zlen (encode_items items) <= MAX_BUF_SIZE)%Z ->
  extract oc (length items) (encode_items items ++ junk) 0 ret coll = Ok (ret ++ items, coll).
Proof. intros oc items junk ret coll. exact (extract_ok oc items [] junk ret coll). Qed.
Print Assumptions C37_well_formed_buffer.

(** any buffer and count: either the items found are exactly those in the buffer, which lie within
    it, or there is an error; nothing outside is read *)
Theorem C37_any_buffer :
  forall oc nr buf, Forall (fun b => (b < 256)%N) buf ->
  match extract oc nr buf 0 [] 0 with
  | Ok (items, _) => exists all, length all = nr /\ Forall raw_item all /\
      (zlen (encode_items all) <= MAX_BUF_SIZE)%Z /\
      firstn (length (encode_items all)) (buf ++ repeat 0%N (Z.to_nat MAX_BUF_SIZE)) = encode_items all /\
      items = first_occurrences all
  | Err e => exists what, e = EShortRead what
  | Panic _ => False
  | Fuel => False
  end.
Proof. exact extract_fresh. Qed.
Print Assumptions C37_any_buffer.

(** any number of batches and any kernel: the only crash left is the counter of repeated items
    overflowing, and only with overflow checks *)
Theorem C37_search_reads_inside_the_buffer :
  forall K E fd k w, kernel_typed E ->
  match snd (fs_search K E (FsMounted fd) k w) with
  | Panic p => p = PArith /\ overflow_checks E = true
  | _ => True
  end.
Proof.
  intros K E fd k w HE. destruct (fs_search K E (FsMounted fd) k w) as [w' r] eqn:Hf. unfold fs_search in Hf.
  destruct (search_loop_any E fd _ HE K k k [] 0 w w' r (Forall_nil _) (follow_up_refl k) Hf) as (_ & _ & H). cbn. destruct r; auto.
Qed.
Print Assumptions C37_search_reads_inside_the_buffer.

Example C37_example :
  extract true 4 (encode_items demo_tree ++ [9; 9]%N) 0 [] 0 = Ok (demo_tree, 0%Z) /\
  extract true 5 (encode_items demo_tree ++ repeat 255%N 32) 0 [] 0 = Err (EShortRead (s_ "BtrfsIoctlSearchHeader payload short read")) /\
  extract true 2 (encode_items [orphan 5; orphan 5]) 0 [] 0 = Ok ([orphan 5], 1%Z).
Proof. vm_compute. auto. Qed.

(** ** C38 *)
Theorem C38_results_are_the_decoded_items :
  forall K E vs fd e w tree key flds k w2 w' v,
  calls_search K E vs (Some (FsMounted fd)) e w tree key w2 -> is_search_key key flds -> requested tree flds k ->
  eval_expr K E vs (Some (FsMounted fd)) e w = (w', Ok v) ->
  exists items w1 l, fs_search K E (FsMounted fd) k w2 = (w1, Ok items) /\ v = VArr l false /\ shown (overflow_checks E) items l.
Proof.
  intros K E vs fd e w tree key flds k w2 w' v Hc Hs Hr H. rewrite (calls_search_eq _ _ _ _ _ _ _ _ _ Hc), (eval_search_ok _ _ _ _ _ flds k) in H by assumption.
  unfold mbind at 1 in H. destruct (fs_search K E (FsMounted fd) k w2) as [w1 [items| | |]] eqn:Hf; try discriminate.
  unfold mbind, mret in H. destruct (decode_chunks (overflow_checks E) items w1) as [w3 [l| | |]] eqn:Hd; try discriminate. injection H as <- <-.
  apply decode_chunks_shown in Hd. destruct Hd as (Hsh & _). exists items, w1, l. auto.
Qed.
Print Assumptions C38_results_are_the_decoded_items.

(** each result is the struct of the item's definition and carries the item's key, which keyof() returns *)
Theorem C38_keyof_gives_the_items_key :
  forall oc items l, Forall raw_item items -> shown oc items l ->
  exists known, l = map snd known /\
    (forall c v, In (c, v) known -> exists s ms, In s STRUCTS /\ v = VStruct (st_name s) (Some (key_of c)) ms /\
       forall K E vs f e w w1, overflow_checks E = oc -> vars_get (s_ "keyof") vs = Some (VFun FKeyOf) ->
         eval_expr K E vs f e w = (w1, Ok v) ->
         eval_expr K E vs f (ECall (EIdent (s_ "keyof")) [e]) w =
           (w1, Ok (VStruct (s_ "btrfs_key") None
              [(s_ "objectid", VInt (h_objectid (fst c))); (s_ "type", VInt (h_type (fst c))); (s_ "offset", VInt (h_offset (fst c)))]))) /\
    map fst known = filter (fun c => existsb (fun s => st_km s (h_objectid (fst c)) (h_type (fst c)) (h_offset (fst c))) STRUCTS) items.
Proof. exact shown_keys. Qed.
Print Assumptions C38_keyof_gives_the_items_key.

Example C38_example :
  shown true demo_tree (map (fun f => VStruct (s_ "btrfs_orphan_item") (Some (2 ^ 64 - 5, 48, f)%Z) []) [5; 257; 300]%Z) /\
  Forall raw_item demo_tree.
Proof.
  split.
  - assert (H : snd (decode_chunks true demo_tree w0) = Ok (map (fun f => VStruct (s_ "btrfs_orphan_item") (Some (2 ^ 64 - 5, 48, f)%Z) []) [5; 257; 300]%Z)) by (vm_compute; reflexivity).
    destruct (decode_chunks true demo_tree w0) as [w' r] eqn:Hd. cbn [snd] in H. subst r. apply decode_chunks_shown in Hd. tauto.
  - eapply Forall_impl; [|apply demo_tree_ok]. exact item_raw.
Qed.

(** ** C57 *)
Theorem C57_key_builds_the_search_key :
  forall K E vs f a b c d w wa wb wc wd za zb zc zd,
  vars_get (s_ "key") vs = Some (VFun FKey) ->
  eval_expr K E vs f a w = (wa, Ok (VInt za)) -> eval_expr K E vs f b wa = (wb, Ok (VInt zb)) ->
  eval_expr K E vs f c wb = (wc, Ok (VInt zc)) -> eval_expr K E vs f d wc = (wd, Ok (VInt zd)) ->
  eval_expr K E vs f (ECall (EIdent (s_ "key")) [a; b; c; d]) w = (wd, Ok (key_struct za zb zc zd)).
Proof.
  intros K E vs f a b c d w wa wb wc wd za zb zc zd Hk Ha Hb Hc Hd. cbn [eval_expr]. unfold mbind, mret. rewrite Hk. cbn [ok_or as_function].
  rewrite Ha. cbn [as_integer]. rewrite Hb. cbn [as_integer]. rewrite Hc. cbn [as_integer]. rewrite Hd. cbn [as_integer]. rewrite make_search_key_eq. reflexivity.
Qed.
Print Assumptions C57_key_builds_the_search_key.

(** anything but four arguments is an error, at once *)
Theorem C57_key_wants_four_arguments :
  forall K E vs f args w, vars_get (s_ "key") vs = Some (VFun FKey) -> length args <> 4 ->
  eval_expr K E vs f (ECall (EIdent (s_ "key")) args) w = (w, Err (EArity (s_ "key") (s_ "'key()' requires 4 arguments"))).
Proof.
  intros K E vs f args w Hk Hn. cbn [eval_expr]. unfold mbind, mret. rewrite Hk. cbn [ok_or as_function].
  destruct args as [|a [|b [|c [|d [|x args]]]]]; try reflexivity. cbn in Hn. lia.
Qed.
Print Assumptions C57_key_wants_four_arguments.

(** if key() succeeds all arguments are integers *)
Theorem C57_key_wants_integers :
  forall K E vs f args w w' v, vars_get (s_ "key") vs = Some (VFun FKey) ->
  eval_expr K E vs f (ECall (EIdent (s_ "key")) args) w = (w', Ok v) ->
  exists a b c d za zb zc zd wa wb wc, args = [a; b; c; d] /\
    eval_expr K E vs f a w = (wa, Ok (VInt za)) /\ eval_expr K E vs f b wa = (wb, Ok (VInt zb)) /\
    eval_expr K E vs f c wb = (wc, Ok (VInt zc)) /\ eval_expr K E vs f d wc = (w', Ok (VInt zd)) /\ v = key_struct za zb zc zd.
Proof.
  intros K E vs f args w w' v Hk H. cbn [eval_expr] in H. unfold mbind, mret in H. rewrite Hk in H. cbn [ok_or as_function] in H.
  destruct args as [|a [|b [|c [|d [|x args]]]]]; try discriminate.
  destruct (eval_expr K E vs f a w) as [wa [va| | |]] eqn:Ha; try discriminate. destruct va; try discriminate. cbn [as_integer] in H.
  destruct (eval_expr K E vs f b wa) as [wb [vb| | |]] eqn:Hb; try discriminate. destruct vb; try discriminate. cbn [as_integer] in H.
  destruct (eval_expr K E vs f c wb) as [wc [vc| | |]] eqn:Hc; try discriminate. destruct vc; try discriminate. cbn [as_integer] in H.
  destruct (eval_expr K E vs f d wc) as [wd [vd| | |]] eqn:Hd; try discriminate. destruct vd; try discriminate. cbn [as_integer] in H.
  rewrite make_search_key_eq in H. injection H as <- <-. repeat eexists; eassumption.
Qed.
Print Assumptions C57_key_wants_integers.

(** keyof() of a struct: its key if it has one, otherwise an error *)
Theorem C57_keyof_gives_the_key :
  forall K E vs f e w w1 n key ms, vars_get (s_ "keyof") vs = Some (VFun FKeyOf) ->
  eval_expr K E vs f e w = (w1, Ok (VStruct n key ms)) ->
  eval_expr K E vs f (ECall (EIdent (s_ "keyof")) [e]) w =
    (w1, match key with
         | Some (o, t, off) => Ok (VStruct (s_ "btrfs_key") None [(s_ "objectid", VInt o); (s_ "type", VInt t); (s_ "offset", VInt off)])
         | None => Err ENoKey
         end).
Proof.
  intros K E vs f e w w1 n key ms Hk He. cbn [eval_expr]. unfold mbind, mret. rewrite Hk. cbn [ok_or as_function]. rewrite He. cbn [as_struct].
  destruct key as [[[o t] off]|]; [rewrite make_disk_key_eq|]; reflexivity.
Qed.
Print Assumptions C57_keyof_gives_the_key.

Example C57_example :
  eval_expr 1 (demo_env true) demo_vars None (ECall (EIdent (s_ "key")) [EInt 1; EInt 2; EInt 3; EInt 4]) w0 = (w0, Ok (key_struct 1 2 3 4)) /\
  vars_get (s_ "key") demo_vars = Some (VFun FKey) /\ vars_get (s_ "keyof") demo_vars = Some (VFun FKeyOf).
Proof. vm_compute. auto. Qed.

(** ** C60 *)
Theorem C60_documented_keys_are_recognised_partial :
  forall n o t f, on_disk_key n o t f -> t <> 60%Z -> n <> s_ "btrfs_balance_item" -> recognised n o t f.
Proof. exact keys_recognised. Qed.
Print Assumptions C60_documented_keys_are_recognised_partial.

(** directory log items (type 60) and balance items are never recognised *)
Theorem C60_documented_keys_are_recognised_refuted :
  (forall o f n, on_disk_key (s_ "btrfs_dir_log_item") o 60 f /\ ~ recognised n o 60 f) /\
  (forall n, on_disk_key (s_ "btrfs_balance_item") (2 ^ 64 - 4) 248 0 /\ ~ recognised n (2 ^ 64 - 4) 248 0).
Proof. exact keys_not_recognised. Qed.
Print Assumptions C60_documented_keys_are_recognised_refuted.

Example C60_example : on_disk_key (s_ "btrfs_dir_item") 256 84 3817753667 /\ recognised (s_ "btrfs_dir_item") 256 84 3817753667.
Proof. split; [constructor|]. apply keys_recognised; [constructor|discriminate|discriminate]. Qed.
