(** C83: the number of kernel requests a search makes. *)
From Verif Require Import Base Structs Definitions Value Variables Fs Ast Eval Lib Demo Demo_Search Spec_Decode Spec_Search Proof_Run Proof_Search Proof_Search2 Properties_Search Spec_Still Properties_Still Spec_Cost Proof_Cost.
From Coq Require Import Sorted Lia.
Arguments s_ s%string_scope.

(** A bounded search asks at most once per item that ever was in the range, and once more - whatever
    it ends with, and however the filesystem changes meanwhile. *)
Theorem C83_requests_are_bounded_by_the_items_in_range :
  forall K E vs fd states e w tree key flds k w2 w' r l,
  honest E fd states -> covers states k l ->
  calls_search K E vs (Some (FsMounted fd)) e w tree key w2 -> is_search_key key flds -> requested tree flds k -> bounded k ->
  eval_expr K E vs (Some (FsMounted fd)) e w = (w', r) ->
  exists n, requests fd w2 w' n /\ n <= length l + 1.
Proof.
  intros K E vs fd states e w tree key flds k w2 w' r l HE HL Hc Hs Hr Hb H.
  rewrite (calls_search_eq _ _ _ _ _ _ _ _ _ Hc), (eval_search_ok _ _ _ _ _ flds k) in H by assumption.
  assert (Hreq : request_ok k) by (unfold requested in Hr; tauto).
  unfold mbind at 1 in H. destruct (fs_search K E (FsMounted fd) k w2) as [w1 r1] eqn:Hf.
  destruct (search_count K E fd states k l w2 w1 r1 HE HL Hreq Hb Hf) as (reqs & Hlog & HF & Hn & _).
  assert (Hstay : requests fd w2 w1 (length reqs)).
  { exists reqs, []. rewrite app_nil_r. split; [exact Hlog|]. split; [exact HF|]. split; [constructor|reflexivity]. }
  exists (length reqs). split; [|exact Hn].
  destruct r1 as [items|e1|p1|]; try (injection H as <- _; exact Hstay).
  pose proof (honest_items_raw K E fd states k w2 w1 items HE Hf) as HR. unfold mbind, mret in H.
  destruct (decode_chunks (overflow_checks E) items w1) as [w3 r3] eqn:Hd.
  destruct (decode_chunks_any _ _ HR _ _ _ Hd) as (_ & (rest & Hl & HW) & _).
  assert (He : w' = w3) by (destruct r3; injection H as <- _; reflexivity). subst w3.
  exists reqs, rest. split; [rewrite Hl, Hlog, app_assoc; reflexivity|]. split; [exact HF|]. split; [exact HW|reflexivity].
Qed.
Print Assumptions C83_requests_are_bounded_by_the_items_in_range.

(** So with that many steps it is never cut off. *)
Theorem C83_search_ends_in_time :
  forall K E vs fd states e w tree key flds k w2 l,
  honest E fd states -> covers states k l ->
  calls_search K E vs (Some (FsMounted fd)) e w tree key w2 -> is_search_key key flds -> requested tree flds k -> bounded k ->
  length l + 1 <= K -> snd (eval_expr K E vs (Some (FsMounted fd)) e w) <> Fuel.
Proof.
  intros K E vs fd states e w tree key flds k w2 l HE HL Hc Hs Hr Hb HK.
  rewrite (calls_search_eq _ _ _ _ _ _ _ _ _ Hc), (eval_search_ok _ _ _ _ _ flds k) by assumption.
  assert (Hreq : request_ok k) by (unfold requested in Hr; tauto).
  unfold mbind at 1. destruct (fs_search K E (FsMounted fd) k w2) as [w1 r1] eqn:Hf.
  destruct (search_count K E fd states k l w2 w1 r1 HE HL Hreq Hb Hf) as (reqs & _ & _ & _ & _ & HFu).
  destruct r1 as [items|e1|p1|]; try discriminate; [|specialize (HFu eq_refl); lia].
  pose proof (honest_items_raw K E fd states k w2 w1 items HE Hf) as HR.
  unfold mbind, mret. destruct (decode_chunks (overflow_checks E) items w1) as [w3 r3] eqn:Hd.
  destruct (decode_chunks_any _ _ HR _ _ _ Hd) as (_ & _ & [(vl & ->)|(err & ->)]); cbn; discriminate.
Qed.
Print Assumptions C83_search_ends_in_time.

(** A bounded search that succeeds asked at most once per element it returned or warned about, and once more. *)
Theorem C83_requests_are_bounded_by_the_results :
  forall K E vs fd states e w tree key flds k w2 w' vl,
  honest E fd states ->
  calls_search K E vs (Some (FsMounted fd)) e w tree key w2 -> is_search_key key flds -> requested tree flds k -> bounded k ->
  eval_expr K E vs (Some (FsMounted fd)) e w = (w', Ok (VArr vl false)) ->
  exists reqs warns, w_log w' = w_log w2 ++ reqs ++ warns /\ Forall (is_request fd) reqs /\ Forall is_warning warns /\
    1 <= length reqs <= length vl + length warns + 1.
Proof.
  intros K E vs fd states e w tree key flds k w2 w' vl HE Hc Hs Hr Hb H.
  rewrite (calls_search_eq _ _ _ _ _ _ _ _ _ Hc), (eval_search_ok _ _ _ _ _ flds k) in H by assumption.
  assert (Hreq : request_ok k) by (unfold requested in Hr; tauto).
  unfold mbind at 1 in H. destruct (fs_search K E (FsMounted fd) k w2) as [w1 r1] eqn:Hf.
  destruct r1 as [items|e1|p1|]; try discriminate.
  assert (Hcov : exists reqs, w_log w1 = w_log w2 ++ reqs /\ Forall (is_request fd) reqs /\ 1 <= length reqs <= length items + 1).
  { pose proof (bounded_search_outcome K E fd states k w2 w1 (Ok items) HE Hreq Hb Hf ltac:(discriminate)) as [Ha _].
    unfold fs_search in Hf. rewrite (bounded_retry k Hb) in Hf.
    destruct (paging_len E fd states k (tick w2) HE K k [] w2 w1 _ (paging_start _ _ _ Hreq) (le_n _) Hf) as (reqs & Hl & HF & Hn).
    exists reqs. split; [exact Hl|]. split; [exact HF|]. split; [|exact Hn]. unfold tick in Ha. rewrite Hl, app_length in Ha. lia. }
  destruct Hcov as (reqs & Hlog & HF & Hn).
  unfold mbind, mret in H. destruct (decode_chunks (overflow_checks E) items w1) as [w3 [l3| | |]] eqn:Hd; try discriminate. injection H as <- <-.
  apply decode_chunks_shown in Hd. destruct Hd as (Hsh & _ & Hl). exists reqs, (flat_map warn_of items).
  split; [rewrite Hl, Hlog, app_assoc; reflexivity|]. split; [exact HF|]. split.
  - apply Forall_forall. intros ev Hin. apply in_flat_map in Hin. destruct Hin as (c & _ & Hin). unfold warn_of in Hin.
    destruct (find _ STRUCTS); [destruct Hin|destruct Hin as [<-|[]]; eexists _, _, _; reflexivity].
  - rewrite (shown_length _ _ _ Hsh) in Hn. lia.
Qed.
Print Assumptions C83_requests_are_bounded_by_the_results.

(** A search without upper bounds asks exactly once, whatever the kernel answers. *)
Theorem C83_unbounded_search_asks_once :
  forall K E vs fd e w tree key flds k w2 w' r, kernel_typed E -> K <> 0 ->
  calls_search K E vs (Some (FsMounted fd)) e w tree key w2 -> is_search_key key flds -> requested tree flds k -> ~ bounded k ->
  eval_expr K E vs (Some (FsMounted fd)) e w = (w', r) -> requests fd w2 w' 1.
Proof.
  intros K E vs fd e w tree key flds k w2 w' r HE HK Hc Hs Hr Hb H.
  rewrite (calls_search_eq _ _ _ _ _ _ _ _ _ Hc), (eval_search_ok _ _ _ _ _ flds k) in H by assumption.
  unfold mbind at 1 in H. destruct (fs_search K E (FsMounted fd) k w2) as [w1 r1] eqn:Hf.
  pose proof (unbounded_one K E fd k w2 w1 r1 Hb HK Hf) as Hlog.
  assert (HF : Forall (is_request fd) [EvIoctl fd k]) by (constructor; [eexists; reflexivity|constructor]).
  assert (Hstay : requests fd w2 w1 1).
  { exists [EvIoctl fd k], []. split; [exact Hlog|]. split; [exact HF|]. split; [constructor|reflexivity]. }
  destruct r1 as [items|e1|p1|]; try (injection H as <- _; exact Hstay).
  assert (HR : Forall raw_item items).
  { unfold fs_search in Hf. destruct (search_loop_any E fd _ HE K k k [] 0 w2 w1 _ (Forall_nil _) (follow_up_refl k) Hf) as (_ & _ & HH). exact HH. }
  unfold mbind, mret in H. destruct (decode_chunks (overflow_checks E) items w1) as [w3 r3] eqn:Hd.
  destruct (decode_chunks_any _ _ HR _ _ _ Hd) as (_ & (rest & Hl & HW) & _).
  assert (He : w' = w3) by (destruct r3; injection H as <- _; reflexivity). subst w3.
  exists [EvIoctl fd k], rest. split; [rewrite Hl, Hlog, app_assoc; reflexivity|]. split; [exact HF|]. split; [exact HW|reflexivity].
Qed.
Print Assumptions C83_unbounded_search_asks_once.

(** ** Examples *)
Lemma requests_only fd w' n : forallb (fun ev => match ev with EvIoctl f _ => (f =? fd)%Z | _ => false end) (w_log w') = true ->
  length (w_log w') = n -> requests fd w0 w' n.
Proof.
  intros H Hn. exists (w_log w'), []. rewrite app_nil_r. split; [reflexivity|]. split; [|split; [constructor|exact Hn]].
  apply Forall_forall. intros ev He. rewrite forallb_forall in H. specialize (H ev He). destruct ev; try discriminate. apply Z.eqb_eq in H. subst. eexists. reflexivity.
Qed.
(** three items in the range: four requests when the kernel hands out one at a time, which is the
    bound; three when it hands out two *)
Example C83_example oc :
  let k := range_request 1 0 400 in let call m := eval_expr 10 (forest_env oc m demo_forest) (range_vars 0 400) (Some (FsMounted 3)) (range_call 1) w0 in
  still (forest_env oc 1 demo_forest) 3 demo_forest /\ bounded k /\ request_ok k /\
  covers (fun t _ st => st = demo_forest t) k [orphan 5; orphan 257; orphan 300] /\
  snd (call 1) = Ok (VArr (found [5; 257; 300]%Z) false) /\ requests 3 w0 (fst (call 1)) 4 /\ requests 3 w0 (fst (call 2)) 3.
Proof.
  cbv zeta. split; [apply demo_forest_still; discriminate|]. split; [unfold bounded; cbn; lia|]. split; [unfold request_ok, u; cbn; lia|]. split.
  { intros n st c -> Hc Hr. unfold demo_forest, demo_tree in Hc. cbn in Hc. destruct Hc as [<-|[<-|[<-|[<-|[]]]]]; cbn; auto. exfalso. apply in_rangeb_spec in Hr. vm_compute in Hr. discriminate. }
  split; [destruct oc; vm_compute; reflexivity|].
  split; apply requests_only; destruct oc; vm_compute; reflexivity.
Qed.
(** an item of an unknown type is warned about, and counts; with no upper bound there is one request *)
Example C83_example_unknown oc :
  let call := eval_expr 10 (forest_env oc 1 demo_forest) demo_vars (Some (FsMounted 3)) (demo_call 0 0 0 0) w0 in
  ~ bounded (demo_request 255 (2 ^ 64 - 1)) /\ snd call = Ok (VArr [] false) /\ requests 3 w0 (fst call) 1 /\
  let '(w', r) := fs_search 10 (forest_env oc 1 demo_forest) (FsMounted 3) (demo_request 255 257) w0 in
  r = Ok demo_tree /\ requests 3 w0 w' 5.
Proof.
  cbv zeta. split; [unfold bounded; cbn; lia|]. split; [destruct oc; vm_compute; reflexivity|]. split.
  - eexists [_], [_]. split; [destruct oc; vm_compute; reflexivity|]. split; [constructor; [eexists; reflexivity|constructor]|]. split; [constructor; [eexists _, _, _; reflexivity|constructor]|reflexivity].
  - match goal with |- let '(_, _) := ?x in _ => assert (H : snd x = Ok demo_tree /\ requests 3 w0 (fst x) 5); [|destruct x; exact H] end.
    split; [destruct oc; vm_compute; reflexivity|]. apply requests_only; destruct oc; vm_compute; reflexivity.
Qed.
