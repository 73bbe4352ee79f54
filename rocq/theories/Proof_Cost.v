(** C83: lemmas. *)
From Verif Require Import Base Structs Definitions Value Variables Fs Ast Eval Lib Spec_Search Proof_Search Proof_Search2 Spec_Cost.
From Coq Require Import Sorted Lia.

Lemma sorted_keys_nodup l : StronglySorted klt (map key_of l) -> NoDup l.
Proof. intros H. apply (NoDup_map_inv fst). apply sorted_nodup_headers. exact H. Qed.

(** the loop's requests: never more than the items collected, plus one *)
Lemma paging_count E fd states k0 a l : honest E fd states -> covers states k0 l -> forall K k ret w w' r,
  paging states k0 k a (tick w) ret -> a <= tick w -> search_loop K E fd true k ret 0 w = (w', r) ->
  exists reqs, w_log w' = w_log w ++ reqs /\ Forall (is_request fd) reqs /\ length ret + length reqs <= length l + 1 /\
    (forall items, r = Ok items -> length ret + length reqs <= length items + 1) /\
    (r = Fuel -> length ret + K <= length l).
Proof.
  intros HE HL. induction K as [|K IH]; intros k ret w w' r P Ha Hr.
  - assert (Hlen : length ret <= length l).
    { apply NoDup_incl_length; [apply sorted_keys_nodup; apply (pg_sorted _ _ _ _ _ _ P)|]. intros c Hc.
      destruct (pg_range _ _ _ _ _ _ P c Hc) as (Hi & n & st & _ & Hs & Hin). exact (HL n st c Hs Hin Hi). }
    cbn in Hr. injection Hr as <- <-. exists []. rewrite app_nil_r. cbn. split; [reflexivity|]. split; [constructor|]. split; [lia|]. split; [discriminate|lia].
  - assert (Hlen : length ret <= length l).
    { apply NoDup_incl_length; [apply sorted_keys_nodup; apply (pg_sorted _ _ _ _ _ _ P)|]. intros c Hc.
      destruct (pg_range _ _ _ _ _ _ P c Hc) as (Hi & n & st & _ & Hs & Hin). exact (HL n st c Hs Hin Hi). }
    assert (Ht : tick (log_event w (EvIoctl fd k)) = S (tick w)) by (unfold tick, log_event; cbn [w_log]; rewrite app_length; cbn; lia).
    assert (Hone : exists reqs, w_log (log_event w (EvIoctl fd k)) = w_log w ++ reqs /\ Forall (is_request fd) reqs /\ length reqs = 1).
    { exists [EvIoctl fd k]. split; [reflexivity|]. split; [|reflexivity]. constructor; [eexists; reflexivity|constructor]. }
    destruct (paging_step E fd states k0 k a w ret K HE P Ha) as [H|[[H Hc]|[(items & m & H & _)|(items & m & H & P' & _ & Hne)]]]; rewrite H in Hr.
    1-3: injection Hr as <- <-; destruct Hone as (reqs & H1 & H2 & H3); exists reqs; split; [exact H1|]; split; [exact H2|]; split; [lia|]; split; [|discriminate];
         intros its Hi; try discriminate; injection Hi as <-; lia.
    destruct (IH _ _ _ _ _ P' ltac:(lia) Hr) as (reqs & H1 & H2 & H3 & H4 & H5). rewrite app_length in H3, H4, H5.
    assert (Hn : 1 <= length items) by (destruct items; [congruence|cbn; lia]).
    exists (EvIoctl fd k :: reqs). split; [rewrite H1; unfold log_event; cbn [w_log]; rewrite <- app_assoc; reflexivity|].
    split; [constructor; [eexists; reflexivity|exact H2]|]. cbn [length]. split; [lia|]. split.
    + intros its Hi. specialize (H4 its Hi). lia.
    + intros Hf. specialize (H5 Hf). lia.
Qed.

(** the search itself *)
Lemma search_count K E fd states k l w w' r : honest E fd states -> covers states k l -> request_ok k -> bounded k ->
  fs_search K E (FsMounted fd) k w = (w', r) ->
  exists reqs, w_log w' = w_log w ++ reqs /\ Forall (is_request fd) reqs /\ length reqs <= length l + 1 /\
    (forall items, r = Ok items -> length reqs <= length items + 1) /\ (r = Fuel -> K <= length l).
Proof.
  intros HE HL Hk Hb H. unfold fs_search in H. rewrite (bounded_retry k Hb) in H.
  exact (paging_count E fd states k (tick w) l HE HL K k [] w w' r (paging_start _ _ _ Hk) (le_n _) H).
Qed.
Lemma unbounded_one K E fd k w w' r : ~ bounded k -> K <> 0 -> fs_search K E (FsMounted fd) k w = (w', r) -> w_log w' = w_log w ++ [EvIoctl fd k].
Proof.
  intros Hb HK H. unfold fs_search in H.
  assert (Hn : negb (sk_max_objectid k =? U64_MAX)%Z || negb (sk_max_type k =? U8_MAX)%Z || negb (sk_max_offset k =? U64_MAX)%Z || negb (sk_max_transid k =? U64_MAX)%Z = false).
  { apply not_true_is_false. intros Ht. apply Hb. unfold bounded. unfold U64_MAX, U8_MAX in Ht.
    rewrite !orb_true_iff, !negb_true_iff, !Z.eqb_neq in Ht. tauto. }
  rewrite Hn in H. destruct K as [|K]; [congruence|]. cbn [search_loop negb orb] in H.
  destruct (ioctl E (tick w) fd k) as [nr buf|nr buf|]; [| |injection H as <- <-; reflexivity];
  (destruct (extract (overflow_checks E) (Z.to_nat nr) buf 0 [] 0) as [[rt cl]| | |]; injection H as <- _; reflexivity).
Qed.
Lemma paging_len E fd states k0 a : honest E fd states -> forall K k ret w w' items,
  paging states k0 k a (tick w) ret -> a <= tick w -> search_loop K E fd true k ret 0 w = (w', Ok items) ->
  exists reqs, w_log w' = w_log w ++ reqs /\ Forall (is_request fd) reqs /\ length ret + length reqs <= length items + 1.
Proof.
  intros HE. induction K as [|K IH]; intros k ret w w' r P Ha Hr; [cbn in Hr; discriminate|].
  assert (Ht : tick (log_event w (EvIoctl fd k)) = S (tick w)) by (unfold tick, log_event; cbn [w_log]; rewrite app_length; cbn; lia).
  destruct (paging_step E fd states k0 k a w ret K HE P Ha) as [H|[[H Hc]|[(items & m & H & _)|(items & m & H & P' & _ & Hne)]]]; rewrite H in Hr; try discriminate.
  - injection Hr as <- <-. exists [EvIoctl fd k]. split; [reflexivity|]. split; [constructor; [eexists; reflexivity|constructor]|]. cbn. lia.
  - destruct (IH _ _ _ _ _ P' ltac:(lia) Hr) as (reqs & H1 & H2 & H3). rewrite app_length in H3.
    assert (Hn : 1 <= length items) by (destruct items; [congruence|cbn; lia]).
    exists (EvIoctl fd k :: reqs). split; [rewrite H1; unfold log_event; cbn [w_log]; rewrite <- app_assoc; reflexivity|].
    split; [constructor; [eexists; reflexivity|exact H2]|]. cbn [length]. lia.
Qed.
Lemma shown_length oc items l : shown oc items l -> length items = length l + length (flat_map warn_of items).
Proof.
  induction 1 as [|h b cs vs HN H IH|h b cs vs pre s post v HS HP HK HB H IH]; [reflexivity| |]; cbn [flat_map length]; unfold warn_of at 1; cbn [fst]; rewrite app_length.
  - destruct (find _ STRUCTS) as [s|] eqn:Hf; [apply find_some in Hf; rewrite (HN s) in Hf by tauto; destruct Hf; discriminate|]. cbn [length]. lia.
  - rewrite HS, (find_intro _ pre s post HP HK). cbn [length]. lia.
Qed.
