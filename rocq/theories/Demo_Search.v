(** Concrete kernels for the search examples: a tree with fixed items, sorted by key, of which at
    most m are returned per request. *)
From Verif Require Import Base Structs Definitions Value Variables Fs Ast Eval Lib Spec_Decode Proof_Decode Spec_Search Proof_Search.
From Coq Require Import Sorted Lia.
Arguments s_ s%string_scope.

Definition kltb (a b : dkey) : bool :=
  let '(o, t, f) := a in let '(o', t', f') := b in
  ((o <? o') || ((o =? o') && ((t <? t') || ((t =? t') && (f <? f')))))%Z.
Lemma kltb_spec a b : kltb a b = true <-> klt a b.
Proof.
  destruct a as [[o t] f], b as [[o' t'] f']. unfold kltb, klt. rewrite orb_true_iff, andb_true_iff, orb_true_iff, andb_true_iff, !Z.ltb_lt, !Z.eqb_eq. tauto.
Qed.
Definition in_rangeb (k : skey) (c : chunk) : bool :=
  (negb (kltb (key_of c) (min_key k)) && negb (kltb (max_key k) (key_of c)) &&
   (sk_min_transid k <=? h_transid (fst c)) && (h_transid (fst c) <=? sk_max_transid k))%Z.
Lemma in_rangeb_spec k c : in_rangeb k c = true <-> in_range k c.
Proof.
  unfold in_rangeb, in_range. rewrite !andb_true_iff, !negb_true_iff, !Z.leb_le.
  rewrite <- (kltb_spec (key_of c)), <- (kltb_spec (max_key k)).
  destruct (kltb (key_of c) (min_key k)), (kltb (max_key k) (key_of c)); intuition congruence.
Qed.

Definition tree_answer (m : nat) (items : list chunk) (k : skey) : list chunk := firstn m (filter (in_rangeb k) items).
(** several trees, found by their number *)
Definition forest_env (oc : bool) (m : nat) (forest : Z -> list chunk) : env :=
  mk_env oc (fun _ _ k => IoOk (zlen (tree_answer m (forest (sk_tree k)) k)) (encode_items (tree_answer m (forest (sk_tree k)) k)))
         (fun _ _ => OpNone) (fun _ _ => SkOk) None.
(** the same items under every number *)
Definition tree_env (oc : bool) (m : nat) (items : list chunk) : env := forest_env oc m (fun _ => items).

Lemma sorted_filter {A} (R : A -> A -> Prop) (p : A -> bool) l : StronglySorted R l -> StronglySorted R (filter p l).
Proof.
  induction 1 as [|a l H IH HF]; cbn; [constructor|]. destruct (p a); [|exact IH]. constructor; [exact IH|].
  apply Forall_forall. intros x Hx. apply filter_In in Hx. rewrite Forall_forall in HF. apply HF. tauto.
Qed.
Lemma sorted_map_filter {A B} (g : A -> B) (R : B -> B -> Prop) (p : A -> bool) l : StronglySorted R (map g l) -> StronglySorted R (map g (filter p l)).
Proof.
  induction l as [|a l IH]; cbn; intros H; [constructor|]. apply StronglySorted_inv in H. destruct H as [H HF]. destruct (p a); [|auto]. cbn. constructor; [auto|].
  apply Forall_forall. intros x Hx. apply in_map_iff in Hx. destruct Hx as (y & <- & Hy). apply filter_In in Hy. rewrite Forall_forall in HF. apply HF. apply in_map. tauto.
Qed.
Lemma encode_filter_len p l : length (encode_items (filter p l)) <= length (encode_items l).
Proof. induction l as [|a l IH]; cbn; [lia|]. unfold encode_items in *. destruct (p a); cbn; rewrite !app_length; lia. Qed.
Lemma encode_firstn_len m l : length (encode_items (firstn m l)) <= length (encode_items l).
Proof. revert l. induction m; intros [|a l]; cbn; try lia. unfold encode_items in *. rewrite !app_length. specialize (IHm l). lia. Qed.

Lemma forest_honest oc m forest fd : m <> 0 ->
  (forall t, Forall item_ok (forest t) /\ StronglySorted klt (map key_of (forest t)) /\ (zlen (encode_items (forest t)) <= MAX_BUF_SIZE)%Z) ->
  honest (forest_env oc m forest) fd (fun t _ st => st = forest t).
Proof.
  intros Hm HA n k. right. destruct (HA (sk_tree k)) as (HF & HS & Hsz). exists (tree_answer m (forest (sk_tree k)) k). split; [reflexivity|].
  unfold answer_ok. generalize dependent (forest (sk_tree k)). intros items HF HS Hsz.
  set (l := filter (in_rangeb k) items).
  assert (Sl : StronglySorted klt (map key_of l)) by (apply sorted_map_filter; exact HS).
  assert (Hin : forall c, In c (tree_answer m items k) -> In c l) by (intros c Hc; unfold tree_answer in Hc; fold l in Hc; rewrite <- (firstn_skipn m l); apply in_or_app; left; exact Hc).
  split; [|split; [|split]].
  - unfold tree_answer. fold l. rewrite <- (firstn_skipn m l), map_app in Sl. apply sorted_app_inv in Sl. tauto.
  - intros c Hc. apply Hin in Hc. apply filter_In in Hc. destruct Hc as [Hc Hr]. rewrite Forall_forall in HF. split; [auto|]. split; [apply in_rangeb_spec; exact Hr|]. eauto.
  - unfold zlen in *. pose proof (encode_firstn_len m l). pose proof (encode_filter_len (in_rangeb k) items). unfold tree_answer. fold l. fold l in H0. lia.
  - intros c Hr Hst. assert (Hc : In c l) by (apply filter_In; split; [apply (Hst items eq_refl)|apply in_rangeb_spec; exact Hr]).
    rewrite <- (firstn_skipn m l) in Hc. apply in_app_or in Hc. destruct Hc as [Hc|Hc]; [left; exact Hc|right].
    assert (Hl : length l > m) by (destruct (Nat.le_gt_cases (length l) m) as [H|H]; [rewrite skipn_all2 in Hc by exact H; destruct Hc|exact H]).
    split; [unfold tree_answer; fold l; destruct l; [cbn in Hl; lia|destruct m; [congruence|discriminate]]|].
    intros i Hi. unfold tree_answer in Hi. fold l in Hi. rewrite <- (firstn_skipn m l), map_app in Sl. apply sorted_app_inv in Sl. destruct Sl as (_ & _ & Sl).
    apply Sl; apply in_map; assumption.
Qed.
Lemma tree_honest oc m items fd : m <> 0 -> Forall item_ok items -> StronglySorted klt (map key_of items) ->
  (zlen (encode_items items) <= MAX_BUF_SIZE)%Z -> honest (tree_env oc m items) fd (fun _ _ st => st = items).
Proof. intros Hm H1 H2 H3. apply (forest_honest oc m (fun _ => items)); auto. Qed.
Lemma tree_typed oc m items : Forall item_ok items -> (zlen (encode_items items) < 2 ^ 32)%Z -> kernel_typed (tree_env oc m items).
Proof.
  intros HF Hl n fd k nr buf [H|H]; cbn in H; [|discriminate]. injection H as <- <-.
  assert (Hi : forall c, In c (tree_answer m items k) -> item_ok c).
  { intros c Hc. unfold tree_answer in Hc. assert (Hc' : In c (filter (in_rangeb k) items)) by (rewrite <- (firstn_skipn m (filter (in_rangeb k) items)); apply in_or_app; left; exact Hc).
    apply filter_In in Hc'. rewrite Forall_forall in HF. apply HF. tauto. }
  split.
  - assert (G : forall l, Forall item_ok l -> (zlen l <= zlen (encode_items l))%Z).
    { clear. induction 1 as [|c l Hc Hl IH]; [reflexivity|]. cbn [encode_items flat_map]. fold (encode_items l). pose proof (encode_item_len c Hc) as He. destruct Hc as (_ & _ & _ & _ & [Hp _] & _).
      unfold zlen in *. rewrite app_length. cbn [length]. lia. }
    pose proof (encode_firstn_len m (filter (in_rangeb k) items)) as A. pose proof (encode_filter_len (in_rangeb k) items) as B. specialize (G (tree_answer m items k) (proj2 (Forall_forall _ _) Hi)).
    unfold u, zlen in *. unfold tree_answer in *. lia.
  - apply Forall_forall. intros b Hb. apply in_flat_map in Hb. destruct Hb as (c & Hc & Hb). apply Hi in Hc. destruct Hc as (_ & _ & _ & _ & _ & _ & Hp). destruct c as [h pl]. cbn [encode_item snd] in *.
    assert (E : Forall (fun b => (b < 256)%N) (le_bytes 8 (h_transid h) ++ le_bytes 8 (h_objectid h) ++ le_bytes 8 (h_offset h) ++ le_bytes 4 (h_type h) ++ le_bytes 4 (h_len h) ++ pl)).
    { repeat (apply Forall_app; split); try apply le_bytes_ok. exact Hp. }
    rewrite Forall_forall in E. apply E. exact Hb.
Qed.

(** three orphan items (empty payload), an item of unknown type and a btrfs_key-less one *)
Definition orphan (f : Z) : chunk := (mk_header 7 (2 ^ 64 - 5) f 48 0, []).
Definition demo_tree : list chunk := [(mk_header 6 12 9 253 3, [1;2;255]%N); orphan 5; orphan 257; orphan 300].
Definition demo_request (max_type max_off : Z) : skey := mk_skey 1 0 (2 ^ 64 - 1) 0 max_type 0 max_off 0 (2 ^ 64 - 1).
Lemma demo_tree_ok : Forall item_ok demo_tree /\ StronglySorted klt (map key_of demo_tree) /\ (zlen (encode_items demo_tree) <= MAX_BUF_SIZE)%Z.
Proof.
  split; [|split].
  - repeat constructor; unfold u; cbn; try lia; try reflexivity; try (split; [discriminate|reflexivity]).
  - repeat constructor; cbn; lia.
  - vm_compute. discriminate.
Qed.
