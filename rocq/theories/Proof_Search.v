(** search() against the kernel specification (C34-C38). *)
From Verif Require Import Base Structs Definitions Value Fs Lib Spec_Decode Proof_Decode Spec_Search.
Require Import Lia ZArith.
From Coq Require Import Sorted.
Opaque Z.pow.

(** ** Reading the buffer *)
Lemma buf_read_app pre x post n : (Z.of_nat (length x) = n)%Z -> buf_read (pre ++ x ++ post) (Z.of_nat (length pre)) n = x.
Proof.
  intros <-. unfold buf_read. rewrite !Nat2Z.id, skipn_app_exact by reflexivity.
  rewrite <- app_assoc. apply firstn_app_exact. reflexivity.
Qed.
Lemma buf_read_ok buf off n : Forall (fun b => (b < 256)%N) buf -> Forall (fun b => (b < 256)%N) (buf_read buf off n).
Proof.
  intros H. unfold buf_read. apply Forall_firstn. apply Forall_app. split; [apply Forall_skipn; exact H|].
  apply Forall_forall. intros b Hb. apply repeat_spec in Hb. subst. reflexivity.
Qed.
Lemma buf_read_len buf off n : length (buf_read buf off n) = Z.to_nat n.
Proof. unfold buf_read. rewrite firstn_length, app_length, repeat_length. lia. Qed.

Lemma pow256_8 : (256 ^ Z.of_nat 8 = 2 ^ 64)%Z. Proof. reflexivity. Qed.
Lemma pow256_4 : (256 ^ Z.of_nat 4 = 2 ^ 32)%Z. Proof. reflexivity. Qed.

Lemma encode_item_len c : item_ok c -> zlen (encode_item c) = (32 + h_len (fst c))%Z.
Proof.
  intros (_ & _ & _ & _ & _ & Hl & _). destruct c as [h b]. cbn [fst snd encode_item] in *. unfold zlen in *. rewrite !app_length, !le_bytes_len. lia.
Qed.
Lemma buf_slice_app pre x post n : (Z.of_nat (length x) = n)%Z -> (Z.of_nat (length pre) + n <= MAX_BUF_SIZE)%Z ->
  buf_slice (pre ++ x ++ post) (Z.of_nat (length pre)) n = Ok x.
Proof.
  intros H1 H2. unfold buf_slice. rewrite (proj2 (Z.leb_le 0 _)), (proj2 (Z.leb_le _ _)) by lia. cbn [andb]. rewrite buf_read_app by exact H1. reflexivity.
Qed.
Definition encode_header (h : header) : str :=
  le_bytes 8 (h_transid h) ++ le_bytes 8 (h_objectid h) ++ le_bytes 8 (h_offset h) ++ le_bytes 4 (h_type h) ++ le_bytes 4 (h_len h).
Lemma encode_item_split c : encode_item c = encode_header (fst c) ++ snd c.
Proof. destruct c as [h b]. unfold encode_item, encode_header. cbn [fst snd]. rewrite <- !app_assoc. reflexivity. Qed.
Lemma encode_header_len h : length (encode_header h) = 32.
Proof. unfold encode_header. rewrite !app_length, !le_bytes_len. reflexivity. Qed.
Lemma header_of_ok c : item_ok c -> header_of (encode_header (fst c)) = fst c.
Proof.
  intros (H1 & H2 & H3 & H4 & H5 & _). destruct c as [h b]. cbn [fst snd] in *. unfold u in *.
  assert (H4' : (0 <= h_type h < 256 ^ Z.of_nat 4)%Z) by (rewrite pow256_4; change (2 ^ 8)%Z with 256%Z in H4; change (2 ^ 32)%Z with 4294967296%Z; lia).
  unfold header_of, encode_header.
  assert (S1 : forall x r : str, length x = 8 -> skipn 8 (x ++ r) = r) by (intros; apply skipn_app_exact; lia).
  assert (S2 : forall x y r : str, length x = 8 -> length y = 8 -> skipn 16 (x ++ y ++ r) = r) by (intros; rewrite app_assoc; apply skipn_app_exact; rewrite app_length; lia).
  assert (S3 : forall x y z r : str, length x = 8 -> length y = 8 -> length z = 8 -> skipn 24 (x ++ y ++ z ++ r) = r) by (intros; rewrite (app_assoc y), (app_assoc x); apply skipn_app_exact; rewrite !app_length; lia).
  assert (S4 : forall x y z v r : str, length x = 8 -> length y = 8 -> length z = 8 -> length v = 4 -> skipn 28 (x ++ y ++ z ++ v ++ r) = r) by (intros; rewrite (app_assoc z), (app_assoc y), (app_assoc x); apply skipn_app_exact; rewrite !app_length; lia).
  rewrite S1, S2, S3, S4 by (apply le_bytes_len). repeat (rewrite firstn_app_exact by (rewrite le_bytes_len; reflexivity)).
  replace (firstn 4 (le_bytes 4 (h_len h))) with (le_bytes 4 (h_len h)) by (symmetry; apply firstn_all2; rewrite le_bytes_len; lia).
  rewrite !le_le_bytes by (rewrite ?pow256_8, ?pow256_4; assumption). destruct h; reflexivity.
Qed.

Lemma header_eqb_eq a b : header_eqb a b = true -> a = b.
Proof.
  unfold header_eqb. rewrite !andb_true_iff, !Z.eqb_eq. intros ((((H1 & H2) & H3) & H4) & H5). destruct a, b; cbn in *; congruence.
Qed.

(** extraction of a well-formed buffer *)
Lemma extract_ok oc : forall items pre post ret coll,
  Forall item_ok items -> NoDup (map fst ret ++ map fst items) ->
  (zlen (pre ++ encode_items items) <= MAX_BUF_SIZE)%Z ->
  extract oc (length items) (pre ++ encode_items items ++ post) (Z.of_nat (length pre)) ret coll = Ok (ret ++ items, coll).
Proof.
  induction items as [|c items IH]; intros pre post ret coll HF Hnd Hsz.
  - cbn. rewrite app_nil_r. reflexivity.
  - inversion HF as [|? ? Hc HF']; subst. cbn [encode_items flat_map] in Hsz |- *. fold (encode_items items) in Hsz |- *.
    pose proof (encode_item_len c Hc) as Hlen. 
    assert (Hlc : (0 <= h_len (fst c))%Z) by (destruct Hc as (_ & _ & _ & _ & [? ?] & _); lia).
    assert (Hsz' : (Z.of_nat (length pre) + (32 + h_len (fst c)) + zlen (encode_items items) <= MAX_BUF_SIZE)%Z).
    { unfold zlen in *. rewrite !app_length in Hsz. lia. }
    assert (Hpos : (0 <= zlen (encode_items items))%Z) by (unfold zlen; lia).
    rewrite <- app_assoc. cbn [extract length]. unfold ensure.
    rewrite (proj2 (Z.leb_le (32 + Z.of_nat (length pre)) _)) by lia. cbn [bind].
    assert (Hh : buf_slice (pre ++ encode_item c ++ encode_items items ++ post) (Z.of_nat (length pre)) 32 = Ok (encode_header (fst c))).
    { rewrite encode_item_split, <- app_assoc. apply buf_slice_app; [rewrite encode_header_len; reflexivity|lia]. }
    rewrite Hh. cbn [bind]. rewrite (header_of_ok c Hc). rewrite (proj2 (Z.leb_le _ _)) by lia. cbn [bind].
    assert (Hb : buf_slice (pre ++ encode_item c ++ encode_items items ++ post) (Z.of_nat (length pre) + 32) (h_len (fst c)) = Ok (snd c)).
    { rewrite encode_item_split, <- app_assoc. rewrite (app_assoc pre). replace (Z.of_nat (length pre) + 32)%Z with (Z.of_nat (length (pre ++ encode_header (fst c)))) by (rewrite app_length, encode_header_len; lia).
      apply buf_slice_app; [destruct Hc as (_ & _ & _ & _ & _ & Hc & _); symmetry; exact Hc|rewrite app_length, encode_header_len; lia]. }
    rewrite Hb. cbn [bind].
    assert (Hex : existsb (fun c0 => header_eqb (fst c0) (fst c)) ret = false).
    { destruct (existsb _ ret) eqn:Hex; [|reflexivity]. apply existsb_exists in Hex. destruct Hex as (x & Hx & He). apply header_eqb_eq in He.
      exfalso. cbn [map] in Hnd. apply NoDup_remove_2 in Hnd. apply Hnd. apply in_or_app. left. rewrite <- He. apply in_map. exact Hx. }
    rewrite Hex. specialize (IH (pre ++ encode_item c) post (ret ++ [c]) coll HF').
    replace (Z.of_nat (length pre) + 32 + h_len (fst c))%Z with (Z.of_nat (length (pre ++ encode_item c))) by (rewrite app_length; unfold zlen in Hlen; lia).
    rewrite <- (surjective_pairing c). rewrite <- !app_assoc in IH. etransitivity; [apply IH|reflexivity].
    + rewrite map_app. cbn [map app]. rewrite <- app_assoc. exact Hnd.
    + unfold zlen in *. rewrite !app_length in *. lia.
Qed.

(** ** Keys *)
Lemma klt_trans a b c : klt a b -> klt b c -> klt a c.
Proof. destruct a as [[? ?] ?], b as [[? ?] ?], c as [[? ?] ?]; cbn; lia. Qed.
Lemma klt_irrefl a : ~ klt a a.
Proof. destruct a as [[? ?] ?]; cbn; lia. Qed.
Lemma klt_total a b : klt a b \/ a = b \/ klt b a.
Proof.
  destruct a as [[a1 a2] a3], b as [[b1 b2] b3]; cbn.
  assert (H : ((a1 < b1 \/ a1 = b1 /\ (a2 < b2 \/ a2 = b2 /\ a3 < b3)) \/ (a1 = b1 /\ a2 = b2 /\ a3 = b3) \/ (b1 < a1 \/ b1 = a1 /\ (b2 < a2 \/ b2 = a2 /\ b3 < a3)))%Z) by lia.
  destruct H as [H|[(-> & -> & ->)|H]]; auto.
Qed.

Lemma key_le_spec a b : key_le a b = true <-> ~ klt (h_objectid b, h_type b, h_offset b) (h_objectid a, h_type a, h_offset a).
Proof.
  unfold key_le, klt. rewrite !Z.gtb_ltb. destruct (Z.ltb_spec (h_objectid a) (h_objectid b)); [split; [lia|reflexivity]|].
  destruct (Z.ltb_spec (h_objectid b) (h_objectid a)); [split; [discriminate|lia]|].
  destruct (Z.ltb_spec (h_type a) (h_type b)); [split; [lia|reflexivity]|].
  destruct (Z.ltb_spec (h_type b) (h_type a)); [split; [discriminate|lia]|]. rewrite Z.leb_le. lia.
Qed.

Lemma sorted_app_inv {A} (R : A -> A -> Prop) l1 l2 : StronglySorted R (l1 ++ l2) ->
  StronglySorted R l1 /\ StronglySorted R l2 /\ (forall x y, In x l1 -> In y l2 -> R x y).
Proof.
  induction l1 as [|a l1 IH]; cbn; intros H; [split; [constructor|split; [exact H|intros x y []]]|].
  apply StronglySorted_inv in H. destruct H as [H HF]. destruct (IH H) as (H1 & H2 & H3). apply Forall_app in HF. destruct HF as [F1 F2].
  split; [constructor; assumption|]. split; [exact H2|]. intros x y [->|Hx] Hy; [|auto]. rewrite Forall_forall in F2. auto.
Qed.
Lemma sorted_app {A} (R : A -> A -> Prop) l1 l2 : StronglySorted R l1 -> StronglySorted R l2 ->
  (forall x y, In x l1 -> In y l2 -> R x y) -> StronglySorted R (l1 ++ l2).
Proof.
  induction 1 as [|a l1 H IH HF]; intros H2 Hx; [exact H2|]. cbn. constructor; [apply IH; [exact H2|intros; apply Hx; [right|]; assumption]|].
  apply Forall_app. split; [exact HF|]. apply Forall_forall. intros y Hy. apply Hx; [left; reflexivity|exact Hy].
Qed.

Lemma largest_sorted l c : StronglySorted klt (map key_of (l ++ [c])) -> largest (l ++ [c]) = Some (fst c).
Proof.
  induction l as [|a l IH]; cbn [app map largest]; intros H; [reflexivity|].
  apply StronglySorted_inv in H. destruct H as [H HF]. rewrite (IH H). rewrite Forall_forall in HF.
  assert (Hk : klt (key_of a) (key_of c)) by (apply HF; rewrite map_app; apply in_or_app; right; left; reflexivity).
  rewrite (proj2 (key_le_spec (fst a) (fst c))); [reflexivity|]. intros Hn. apply (klt_irrefl (key_of a)). exact (klt_trans _ _ _ Hk Hn).
Qed.

Lemma sorted_nodup_headers l : StronglySorted klt (map key_of l) -> NoDup (map fst l).
Proof.
  induction l as [|c l IH]; cbn; intros H; constructor; apply StronglySorted_inv in H; destruct H as [H HF]; [|apply IH; exact H].
  intros Hin. apply in_map_iff in Hin. destruct Hin as (c' & He & Hin). rewrite Forall_forall in HF.
  specialize (HF (key_of c') (in_map key_of _ _ Hin)). unfold key_of in HF. rewrite He in HF. exact (klt_irrefl _ HF).
Qed.

(** ** The paging loop *)
Definition kpos (k : skey) : Z := (sk_min_objectid k * 2 ^ 72 + sk_min_type k * 2 ^ 64 + sk_min_offset k)%Z.
Lemma kpos_range k : request_ok k -> (0 <= kpos k < 2 ^ 136)%Z.
Proof.
  intros (_ & H1 & _ & H2 & _ & H3 & _). unfold u, kpos in *. change (2 ^ 64)%Z with 18446744073709551616%Z in *. change (2 ^ 8)%Z with 256%Z in *.
  change (2 ^ 72)%Z with 4722366482869645213696%Z. change (2 ^ 136)%Z with 87112285931760246646623899502532662132736%Z. lia.
Qed.

(** the invariant: [k0] is the request, [k] the current one, made after the interactions
    from a to b, ret the results so far *)
Record paging (states : history) (k0 k : skey) (a b : nat) (ret : list chunk) : Prop := {
  pg_ok : request_ok k;
  pg_tree : sk_tree k = sk_tree k0;
  pg_max : max_key k = max_key k0;
  pg_trans : sk_min_transid k = sk_min_transid k0 /\ sk_max_transid k = sk_max_transid k0;
  pg_min : ~ klt (min_key k) (min_key k0);
  pg_sorted : StronglySorted klt (map key_of ret);
  pg_below : forall c, In c ret -> klt (key_of c) (min_key k);
  pg_range : forall c, In c ret -> in_range k0 c /\ exists n st, a <= n < b /\ states (sk_tree k0) n st /\ In c st;
  pg_all : forall c, in_range k0 c -> (forall n st, a <= n < b -> states (sk_tree k0) n st -> In c st) -> In c ret \/ in_range k c
}.

Lemma in_range_down states k0 k a b ret c : paging states k0 k a b ret -> in_range k c -> in_range k0 c.
Proof.
  intros P (H1 & H2 & H3). destruct P as [_ _ Hm [Ht1 Ht2] Hmin _ _ _ _]. split; [|split].
  - intros Hk. apply H1. destruct (klt_total (min_key k) (min_key k0)) as [Hx|[Hx|Hx]]; [contradiction|rewrite Hx; exact Hk|exact (klt_trans _ _ _ Hk Hx)].
  - rewrite <- Hm. exact H2.
  - rewrite <- Ht1, <- Ht2. exact H3.
Qed.

Definition next_key (k : skey) (m : header) : skey :=
  mk_skey (sk_tree k) (h_objectid m) (sk_max_objectid k) (h_type m) (sk_max_type k) (h_offset m + 1) (sk_max_offset k) (sk_min_transid k) (sk_max_transid k).

Lemma last_case {A} (l : list A) : l = [] \/ exists l' x, l = l' ++ [x].
Proof. destruct l as [|a l]; [left; reflexivity|right]. destruct (@exists_last _ (a :: l)) as (l' & x & H); [discriminate|eauto]. Qed.

(** one request *)
Lemma paging_step E fd states k0 k a w ret K :
  honest E fd states -> paging states k0 k a (tick w) ret -> a <= tick w ->
  let w' := log_event w (EvIoctl fd k) in
  (search_loop (S K) E fd true k ret 0 w = (w', Err EIoctl)) \/
  (search_loop (S K) E fd true k ret 0 w = (w', Ok ret) /\ complete_result states k0 a (tick w') ret) \/
  (exists items m, (search_loop (S K) E fd true k ret 0 w = (w', Err EKeyOverflow)) /\
     In m items /\ h_offset (fst m) = (2 ^ 64 - 1)%Z /\ in_range k0 m /\ exists st, states (sk_tree k0) (tick w) st /\ In m st) \/
  (exists items m, search_loop (S K) E fd true k ret 0 w = search_loop K E fd true (next_key k m) (ret ++ items) 0 w' /\
     paging states k0 (next_key k m) a (tick w') (ret ++ items) /\ (kpos k < kpos (next_key k m))%Z /\ items <> []).
Proof.
  intros HE P Ha w'. assert (Ht : tick w' = S (tick w)) by (unfold tick, w', log_event; cbn [w_log]; rewrite app_length; cbn; lia).
  cbn [search_loop]. fold w'. destruct (HE (tick w) k) as [->|(items & -> & HA)]; [left; reflexivity|right].
  unfold answer_ok in HA. rewrite (pg_tree _ _ _ _ _ _ P) in HA. destruct HA as (Hs & Hi & Hsz & Hall).
  assert (HF : Forall item_ok items) by (apply Forall_forall; intros c Hc; apply Hi; exact Hc).
  assert (Hcross : forall x y, In x (map key_of ret) -> In y (map key_of items) -> klt x y).
  { intros x y Hx Hy. apply in_map_iff in Hx, Hy. destruct Hx as (cx & <- & Hx), Hy as (cy & <- & Hy).
    destruct (Hi cy Hy) as (_ & (Hr & _) & _). pose proof (pg_below _ _ _ _ _ _ P cx Hx) as Hb.
    destruct (klt_total (key_of cy) (min_key k)) as [?|[He|Hk]]; [contradiction|rewrite He; exact Hb|exact (klt_trans _ _ _ Hb Hk)]. }
  assert (Hs' : StronglySorted klt (map key_of (ret ++ items))) by (rewrite map_app; apply sorted_app; [apply (pg_sorted _ _ _ _ _ _ P)|exact Hs|exact Hcross]).
  pose proof (sorted_nodup_headers _ Hs') as Hnd. rewrite map_app in Hnd.
  pose proof (extract_ok (overflow_checks E) items [] [] ret 0 HF Hnd Hsz) as Hex. cbn [app length] in Hex. rewrite app_nil_r in Hex.
  assert (HN : Z.to_nat (zlen items) = length items) by (unfold zlen; apply Nat2Z.id). rewrite HN. change (Z.of_nat 0) with 0%Z in Hex. rewrite Hex. cbn [negb orb].
  destruct (last_case items) as [->|(its & m & ->)].
  - left. cbn [zlen length Z.of_nat]. change (zlen (@nil chunk) =? 0)%Z with true. cbn [ensure Z.eqb bind]. rewrite app_nil_r. split; [reflexivity|].
    split; [apply (pg_sorted _ _ _ _ _ _ P)|]. split.
    + intros c Hc. destruct (pg_range _ _ _ _ _ _ P c Hc) as (H1 & n & st & H2 & H3 & H4). split; [exact H1|]. exists n, st. split; [lia|auto].
    + intros c Hc Hst. destruct (pg_all _ _ _ _ _ _ P c Hc) as [H1|H1]; [intros n st Hn; apply Hst; lia|exact H1|].
      destruct (Hall c H1) as [[]|[Hne _]]; [intros st; apply Hst; lia|congruence].
  - assert (Hz : (zlen (its ++ [m]) =? 0)%Z = false) by (apply Z.eqb_neq; unfold zlen; rewrite app_length; cbn; lia).
    rewrite Hz. rewrite app_assoc in Hs' |- *. rewrite (largest_sorted _ _ Hs').
    assert (Hmin : In m (its ++ [m])) by (apply in_or_app; right; left; reflexivity).
    destruct (Hi m Hmin) as (Hok & Hr & Hpres). pose proof Hok as (_ & Uo & Uf & Ut & _).
    unfold try_into_u. unfold u in Ut, Uf, Uo. rewrite (proj2 (Z.leb_le _ _)), (proj2 (Z.ltb_lt _ _)) by lia. cbn [andb].
    pose proof (in_range_down _ _ _ _ _ _ m P Hr) as Hr0.
    destruct (Z.ltb_spec (h_offset (fst m) + 1) (2 ^ 64)) as [Hlt|Hge].
    + right. right. exists (its ++ [m]), (fst m). split; [unfold next_key; rewrite ?app_assoc; reflexivity|].
      assert (Hsucc : forall x, klt x (min_key (next_key k (fst m))) <-> klt x (key_of m) \/ x = key_of m).
      { intros [[x1 x2] x3]. unfold min_key, next_key, key_of. cbn. split.
        - intros H. assert (Hd : ((x1 < h_objectid (fst m) \/ x1 = h_objectid (fst m) /\ (x2 < h_type (fst m) \/ x2 = h_type (fst m) /\ x3 < h_offset (fst m))) \/ (x1 = h_objectid (fst m) /\ x2 = h_type (fst m) /\ x3 = h_offset (fst m)))%Z) by lia.
          destruct Hd as [?|(-> & -> & ->)]; auto.
        - intros [H|H]; [lia|]. injection H as -> -> ->. lia. }
      assert (Hge_m : forall c, In c (ret ++ its ++ [m]) -> klt (key_of c) (key_of m) \/ c = m).
      { intros c Hc. rewrite app_assoc in Hc. apply in_app_or in Hc. destruct Hc as [Hc|[->|[]]]; [left|right; reflexivity].
        rewrite map_app in Hs'. apply sorted_app_inv in Hs'. apply Hs'; [apply in_map; exact Hc|left; reflexivity]. }
      assert (Hmk : klt (min_key k) (min_key (next_key k (fst m)))).
      { apply Hsucc. destruct Hr as [Hr _]. destruct (klt_total (min_key k) (key_of m)) as [?|[?|?]]; auto. contradiction. }
      split.
      * constructor.
        -- destruct (pg_ok _ _ _ _ _ _ P) as (R1 & R2 & R3 & R4 & R5 & R6 & R7 & R8 & R9). unfold request_ok, next_key, u in *. cbn. repeat split; try tauto; lia.
        -- exact (pg_tree _ _ _ _ _ _ P).
        -- exact (pg_max _ _ _ _ _ _ P).
        -- exact (pg_trans _ _ _ _ _ _ P).
        -- intros Hk. apply (pg_min _ _ _ _ _ _ P). exact (klt_trans _ _ _ Hmk Hk).
        -- rewrite app_assoc. exact Hs'.
        -- intros c Hc. apply Hsucc. destruct (Hge_m c Hc) as [?| ->]; auto.
        -- intros c Hc. apply in_app_or in Hc. destruct Hc as [Hc|Hc].
           ++ destruct (pg_range _ _ _ _ _ _ P c Hc) as (H1 & n & st & H2 & H3 & H4). split; [exact H1|]. exists n, st. split; [lia|auto].
           ++ destruct (Hi c Hc) as (_ & Hcr & st & Hst & Hin). split; [eapply in_range_down; eassumption|]. exists (tick w), st. split; [lia|auto].
        -- intros c Hc Hst. destruct (pg_all _ _ _ _ _ _ P c Hc) as [H1|H1]; [intros n st Hn; apply Hst; lia|left; apply in_or_app; left; exact H1|].
           destruct (Hall c H1) as [H2|[_ H2]]; [intros st; apply Hst; lia|left; apply in_or_app; right; exact H2|].
           right. destruct H1 as (I1 & I2 & I3). split; [|split; [exact I2|exact I3]].
           rewrite Hsucc. intros [Hx|Hx]; pose proof (H2 m Hmin) as Hmc.
           ++ apply (klt_irrefl (key_of m)). exact (klt_trans _ _ _ Hmc Hx).
           ++ rewrite <- Hx in Hmc. exact (klt_irrefl _ Hmc).
      * assert (Hok' : request_ok (next_key k (fst m))).
        { destruct (pg_ok _ _ _ _ _ _ P) as (R1 & R2 & R3 & R4 & R5 & R6 & R7 & R8 & R9). unfold request_ok, next_key, u in *. cbn. repeat split; try tauto; lia. }
        pose proof (pg_ok _ _ _ _ _ _ P) as Hok0. destruct Hok' as (_ & B1 & _ & B2 & _ & B3 & _). destruct Hok0 as (_ & A1 & _ & A2 & _ & A3 & _).
        unfold u, min_key, klt, kpos in *. cbn in B1, B2, B3, Hmk |- *. change (2 ^ 64)%Z with 18446744073709551616%Z in *. change (2 ^ 8)%Z with 256%Z in *. change (2 ^ 72)%Z with 4722366482869645213696%Z.
        split; [clear -A1 A2 A3 B1 B2 B3 Hmk; lia|]. destruct its; discriminate.
    + right. left. exists (its ++ [m]), m. split; [reflexivity|]. split; [exact Hmin|]. split; [|split; [exact Hr0|exact Hpres]].
      rewrite p64 in *. lia.
Qed.

Lemma paging_start states k a : request_ok k -> paging states k k a a [].
Proof.
  intros H. constructor; auto.
  - apply klt_irrefl.
  - constructor.
  - intros c [].
  - intros c [].
Qed.

(** what a bounded search can do, with enough steps *)
Definition search_outcome (states : history) (k0 : skey) (a : nat) (w' : world) (r : res (list chunk)) : Prop :=
  a < tick w' /\
  match r with
  | Ok ret => complete_result states k0 a (tick w') ret
  | Err EIoctl => True
  | Err EKeyOverflow => exists m n st, h_offset (fst m) = (2 ^ 64 - 1)%Z /\ in_range k0 m /\ a <= n < tick w' /\ states (sk_tree k0) n st /\ In m st
  | _ => False
  end.
Lemma paging_loop E fd states k0 a : honest E fd states -> forall K k ret w w' r,
  paging states k0 k a (tick w) ret -> a <= tick w ->
  search_loop K E fd true k ret 0 w = (w', r) -> r <> Fuel -> search_outcome states k0 a w' r.
Proof.
  intros HE. induction K as [|K IH]; intros k ret w w' r P Ha Hr Hf; [cbn in Hr; injection Hr as <- <-; congruence|].
  assert (Ht : tick (log_event w (EvIoctl fd k)) = S (tick w)) by (unfold tick, log_event; cbn [w_log]; rewrite app_length; cbn; lia).
  destruct (paging_step E fd states k0 k a w ret K HE P Ha) as [H|[[H Hc]|[(items & m & H & Hin & Ho & Hi & st & Hs & Hst)|(items & m & H & P' & _)]]]; rewrite H in Hr.
  - injection Hr as <- <-. split; [lia|exact I].
  - injection Hr as <- <-. split; [lia|exact Hc].
  - injection Hr as <- <-. split; [lia|]. exists m, (tick w), st. split; [exact Ho|]. split; [exact Hi|]. split; [lia|auto].
  - eapply IH; [exact P'|lia|exact Hr|exact Hf].
Qed.
Lemma paging_terminates E fd states k0 a : honest E fd states -> forall N k ret w,
  paging states k0 k a (tick w) ret -> a <= tick w -> (2 ^ 136 - kpos k <= Z.of_nat N)%Z ->
  forall K, N <= K -> snd (search_loop K E fd true k ret 0 w) <> Fuel.
Proof.
  intros HE. induction N as [|N IH]; intros k ret w P Ha HN K HK.
  - pose proof (kpos_range k (pg_ok _ _ _ _ _ _ P)). lia.
  - destruct K as [|K]; [lia|].
    destruct (paging_step E fd states k0 k a w ret K HE P Ha) as [H|[[H Hc]|[(items & m & H & _)|(items & m & H & P' & Hk & _)]]]; rewrite H; try (cbn; discriminate).
    assert (Ht : tick (log_event w (EvIoctl fd k)) = S (tick w)) by (unfold tick, log_event; cbn [w_log]; rewrite app_length; cbn; lia).
    apply IH; [exact P'|lia|lia|lia].
Qed.

Lemma bounded_retry k : bounded k ->
  negb (sk_max_objectid k =? U64_MAX)%Z || negb (sk_max_type k =? U8_MAX)%Z || negb (sk_max_offset k =? U64_MAX)%Z || negb (sk_max_transid k =? U64_MAX)%Z = true.
Proof.
  unfold bounded, U64_MAX, U8_MAX. rewrite !orb_true_iff, !negb_true_iff, !Z.eqb_neq. tauto.
Qed.
Lemma bounded_search_outcome K E fd states k w w' r : honest E fd states -> request_ok k -> bounded k ->
  fs_search K E (FsMounted fd) k w = (w', r) -> r <> Fuel -> search_outcome states k (tick w) w' r.
Proof.
  intros HE Hk Hb H Hf. unfold fs_search in H. rewrite (bounded_retry k Hb) in H.
  eapply paging_loop; [exact HE|apply paging_start; exact Hk|apply le_n|exact H|exact Hf].
Qed.
Lemma bounded_search_terminates E fd states k w : honest E fd states -> request_ok k -> bounded k ->
  exists K0, forall K, K0 <= K -> snd (fs_search K E (FsMounted fd) k w) <> Fuel.
Proof.
  intros HE Hk Hb. exists (Z.to_nat (2 ^ 136)). intros K HK. unfold fs_search. rewrite (bounded_retry k Hb).
  pose proof (kpos_range k Hk). apply (paging_terminates E fd states k (tick w) HE (Z.to_nat (2 ^ 136))); [apply paging_start; exact Hk|apply le_n| |exact HK]. rewrite Z2Nat.id; lia.
Qed.
