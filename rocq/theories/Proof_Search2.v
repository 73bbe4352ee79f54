(** Searches with an arbitrary kernel: buffers of any content, the requests made, decoding. *)
From Verif Require Import Base Structs Definitions Value Variables Fs Ast Eval Lib Spec_Decode Proof_Decode Proof_Decode2 Spec_Search Proof_Search.
From Coq Require Import Sorted Lia.
Arguments s_ s%string_scope.

Lemma zlen_app {A} (a b : list A) : zlen (a ++ b) = (zlen a + zlen b)%Z.
Proof. unfold zlen. rewrite app_length. lia. Qed.
Lemma buf_read_nth buf off n : buf_read buf off n = map (fun i => nth (Z.to_nat off + i) buf 0%N) (seq 0 (Z.to_nat n)).
Proof.
  apply (nth_ext _ _ 0%N (nth (Z.to_nat off + 0) buf 0%N)); rewrite buf_read_len; [rewrite map_length, seq_length; reflexivity|].
  intros i Hi. rewrite (map_nth (fun i => nth (Z.to_nat off + i) buf 0%N) (seq 0 (Z.to_nat n)) 0 i), seq_nth by exact Hi. cbn [plus].
  unfold buf_read. set (b := skipn (Z.to_nat off) buf).
  rewrite <- (firstn_skipn (Z.to_nat n) (b ++ repeat 0%N (Z.to_nat n - length b))) at 1.
  assert (E : forall (l : str) i n, i < n -> nth i (firstn n l) 0%N = nth i l 0%N).
  { clear. induction l as [|a l IH]; intros [|i] [|n] H; try lia; cbn; auto. apply IH. lia. }
  rewrite firstn_skipn, E by exact Hi.
  assert (S : forall (l : str) k i, nth i (skipn k l) 0%N = nth (k + i) l 0%N).
  { clear. induction l as [|a l IH]; intros [|k] i; cbn; auto; destruct i; auto. }
  destruct (Nat.lt_ge_cases i (length b)) as [H|H].
  - rewrite app_nth1 by exact H. unfold b. apply S.
  - rewrite app_nth2 by exact H. rewrite nth_repeat. unfold b in H. rewrite skipn_length in H. symmetry. apply nth_overflow. lia.
Qed.
Lemma buf_read_plus buf off a b : (0 <= off)%Z -> (0 <= a)%Z -> (0 <= b)%Z ->
  buf_read buf off (a + b) = buf_read buf off a ++ buf_read buf (off + a) b.
Proof.
  intros Ho Ha Hb. rewrite !buf_read_nth. rewrite !Z2Nat.inj_add by lia. rewrite seq_app, map_app. f_equal. cbn [plus].
  assert (G : forall m k, map (fun i => nth (Z.to_nat off + i) buf 0%N) (seq k m) = map (fun i => nth (Z.to_nat off + k + i) buf 0%N) (seq 0 m)).
  { clear. intros m k. assert (Hs : forall m k j, map (fun i => nth (Z.to_nat off + i) buf 0%N) (seq (k + j) m) = map (fun i => nth (Z.to_nat off + k + i) buf 0%N) (seq j m)).
    { clear. induction m as [|m IH]; intros k j; cbn; [reflexivity|]. f_equal; [f_equal; lia|]. rewrite <- (IH k (S j)). replace (k + S j) with (S (k + j)) by lia. reflexivity. }
    rewrite <- (Hs m k 0). replace (k + 0) with k by lia. reflexivity. }
  apply G.
Qed.

Lemma header_bytes (hb : str) : length hb = 32 -> Forall (fun b => (b < 256)%N) hb ->
  encode_header (header_of hb) = hb.
Proof.
  intros Hl HF. unfold encode_header, header_of. cbn [h_transid h_objectid h_offset h_type h_len].
  assert (E : forall n m, n + m <= 32 -> le_bytes n (le (firstn n (skipn m hb))) = firstn n (skipn m hb)).
  { intros n m H. assert (L : length (firstn n (skipn m hb)) = n) by (rewrite firstn_length, skipn_length; lia).
    rewrite <- L at 1. apply le_bytes_le. apply Forall_firstn, Forall_skipn. exact HF. }
  pose proof (E 8 0) as E0. cbn [skipn] in E0. rewrite E0, !E by lia.
  rewrite <- (firstn_skipn 8 hb) at 6. f_equal.
  rewrite <- (firstn_skipn 8 (skipn 8 hb)) at 2. rewrite skipn_skipn. f_equal.
  rewrite <- (firstn_skipn 8 (skipn (8 + 8) hb)). rewrite skipn_skipn. f_equal.
  rewrite <- (firstn_skipn 4 (skipn (8 + (8 + 8)) hb)). rewrite skipn_skipn. f_equal.
  apply firstn_all2. rewrite skipn_length. lia.
Qed.
Lemma header_widths (hb : str) : length hb = 32 -> Forall (fun b => (b < 256)%N) hb ->
  u 64 (h_transid (header_of hb)) /\ u 64 (h_objectid (header_of hb)) /\ u 64 (h_offset (header_of hb)) /\ u 32 (h_type (header_of hb)) /\ u 32 (h_len (header_of hb)).
Proof.
  intros Hl HF. unfold header_of, u. cbn [h_transid h_objectid h_offset h_type h_len].
  assert (E : forall n m, n + m <= 32 -> (0 <= le (firstn n (skipn m hb)) < 256 ^ Z.of_nat n)%Z).
  { intros n m H. assert (L : length (firstn n (skipn m hb)) = n) by (rewrite firstn_length, skipn_length; lia).
    pose proof (le_range (firstn n (skipn m hb)) ltac:(apply Forall_firstn, Forall_skipn; exact HF)) as R. rewrite L in R. exact R. }
  pose proof (E 8 0) as E0. cbn [skipn] in E0.
  rewrite <- pow256_8, <- pow256_4. repeat split; try (apply E0; lia); try (apply E; lia).
Qed.

Definition merge (ret all : list chunk) : list chunk :=
  fold_left (fun r c => if existsb (fun d => header_eqb (fst d) (fst c)) r then r else r ++ [c]) all ret.

Lemma extract_any oc : forall nr buf off ret coll,
  Forall (fun b => (b < 256)%N) buf -> (0 <= off)%Z ->
  match extract oc nr buf off ret coll with
  | Ok (ret', _) => exists all, length all = nr /\ Forall raw_item all /\
      buf_read buf off (zlen (encode_items all)) = encode_items all /\
      (all = [] \/ off + zlen (encode_items all) <= MAX_BUF_SIZE)%Z /\ ret' = merge ret all
  | Err e => exists what, e = EShortRead what
  | Panic p => p = PArith /\ oc = true /\ (2 ^ 31 <= coll + (MAX_BUF_SIZE - off) / 32)%Z
  | Fuel => False
  end.
Proof.
  induction nr as [|nr IH]; intros buf off ret coll HF Hoff; cbn [extract].
  - exists []. repeat split; auto.
  - unfold ensure at 1. destruct (Z.leb_spec (32 + off) MAX_BUF_SIZE) as [H1|H1]; cbn [bind]; [|eexists; reflexivity].
    unfold buf_slice at 1. rewrite (proj2 (Z.leb_le 0 off)), (proj2 (Z.leb_le _ _)) by lia. cbn [andb bind].
    set (hb := buf_read buf off 32). assert (Lh : length hb = 32) by apply buf_read_len.
    assert (Fh : Forall (fun b => (b < 256)%N) hb) by (apply buf_read_ok; exact HF).
    destruct (header_widths hb Lh Fh) as (W1 & W2 & W3 & W4 & W5).
    pose proof (header_bytes hb Lh Fh) as He;
    (unfold ensure; destruct (Z.leb_spec (h_len (header_of hb) + (off + 32)) MAX_BUF_SIZE) as [H2|H2]; cbn [bind]; [|eexists; reflexivity];
     assert (Hl0 : (0 <= h_len (header_of hb))%Z) by apply W5;
     unfold buf_slice; rewrite (proj2 (Z.leb_le 0 (off + 32))), (proj2 (Z.leb_le (off + 32 + _) _)) by lia; cbn [andb bind];
     set (pl := buf_read buf (off + 32) (h_len (header_of hb)));
     assert (Fp : Forall (fun b => (b < 256)%N) pl) by (apply buf_read_ok; exact HF);
     assert (Lp : zlen pl = h_len (header_of hb)) by (unfold zlen, pl; rewrite buf_read_len; lia);
     assert (Hraw : raw_item (header_of hb, pl)) by (unfold raw_item; cbn [fst snd]; auto 10);
     assert (Henc : encode_item (header_of hb, pl) = hb ++ pl) by (rewrite encode_item_split; cbn [fst snd]; rewrite He; reflexivity);
     assert (Hlen : zlen (encode_item (header_of hb, pl)) = (32 + h_len (header_of hb))%Z) by (rewrite Henc; unfold zlen in *; rewrite app_length; lia);
     assert (Hcat : forall all, buf_read buf (off + 32 + h_len (header_of hb)) (zlen (encode_items all)) = encode_items all ->
        buf_read buf off (zlen (encode_items ((header_of hb, pl) :: all))) = encode_items ((header_of hb, pl) :: all)) by
       (intros all Ha; cbn [encode_items flat_map]; fold (encode_items all); rewrite zlen_app, Hlen;
        assert (0 <= zlen (encode_items all))%Z by (unfold zlen; lia); rewrite <- (Zplus_assoc 32), (buf_read_plus buf off 32), (buf_read_plus buf (off + 32)) by lia; rewrite Henc; fold hb pl; rewrite <- app_assoc; f_equal; f_equal; exact Ha);
     assert (Hsz : forall all, (all = [] \/ off + 32 + h_len (header_of hb) + zlen (encode_items all) <= MAX_BUF_SIZE)%Z ->
        ((header_of hb, pl) :: all = [] \/ off + zlen (encode_items ((header_of hb, pl) :: all)) <= MAX_BUF_SIZE)%Z) by
       (intros all Ha; right; cbn [encode_items flat_map]; fold (encode_items all); rewrite zlen_app, Hlen; destruct Ha as [->|Ha]; [change (zlen (encode_items [])) with 0%Z; lia|lia]);
     assert (Hdiv : ((MAX_BUF_SIZE - (off + 32 + h_len (header_of hb))) / 32 + 1 <= (MAX_BUF_SIZE - off) / 32)%Z) by
       (rewrite <- Z.div_add by lia; apply Z.div_le_mono; lia);
     destruct (existsb (fun c => header_eqb (fst c) (header_of hb)) ret) eqn:Hex).
    + unfold i32_incr. destruct (Z.ltb_spec (coll + 1) (2 ^ 31)) as [Hc|Hc]; [|destruct oc]; cbn [bind].
      * specialize (IH buf (off + 32 + h_len (header_of hb))%Z ret (coll + 1)%Z HF ltac:(lia)).
        destruct (extract oc nr buf _ ret (coll + 1)%Z) as [[ret' coll']|e|p|]; auto.
        -- destruct IH as (all & L & FR & B & S & M). exists ((header_of hb, pl) :: all). split; [cbn; lia|]. split; [constructor; assumption|]. split; [auto|]. split; [auto|].
           cbn [merge fold_left fst]. rewrite Hex. exact M.
        -- destruct IH as (? & ? & ?). repeat split; auto. lia.
      * repeat split. assert (0 <= (MAX_BUF_SIZE - (off + 32 + h_len (header_of hb))) / 32)%Z by (apply Z.div_pos; lia). lia.
      * specialize (IH buf (off + 32 + h_len (header_of hb))%Z ret (- 2 ^ 31)%Z HF ltac:(lia)).
        destruct (extract false nr buf _ ret (- 2 ^ 31)%Z) as [[ret' coll']|e|p|]; auto.
        -- destruct IH as (all & L & FR & B & S & M). exists ((header_of hb, pl) :: all). split; [cbn; lia|]. split; [constructor; assumption|]. split; [auto|]. split; [auto|].
           cbn [merge fold_left fst]. rewrite Hex. exact M.
        -- destruct IH as (? & ? & ?). discriminate.
    + specialize (IH buf (off + 32 + h_len (header_of hb))%Z (ret ++ [(header_of hb, pl)]) coll HF ltac:(lia)).
      destruct (extract oc nr buf _ (ret ++ [(header_of hb, pl)]) coll) as [[ret' coll']|e|p|]; auto.
      * destruct IH as (all & L & FR & B & S & M). exists ((header_of hb, pl) :: all). split; [cbn; lia|]. split; [constructor; assumption|]. split; [auto|]. split; [auto|].
        cbn [merge fold_left fst]. rewrite Hex. exact M.
      * destruct IH as (? & ? & ?). repeat split; auto. lia.
Qed.

Lemma merge_raw all : forall ret, Forall raw_item ret -> Forall raw_item all -> Forall raw_item (merge ret all).
Proof.
  induction all as [|c all IH]; intros ret Hr Ha; [exact Hr|]. inversion_clear Ha. cbn [merge fold_left]. apply IH; [|assumption].
  match goal with |- context [existsb ?f ret] => destruct (existsb f ret) end; [exact Hr|]. apply Forall_app. split; [exact Hr|constructor; [assumption|constructor]].
Qed.
Lemma merge_nonempty all : forall ret, ret <> [] \/ all <> [] -> merge ret all <> [].
Proof.
  induction all as [|c all IH]; intros ret H; [destruct H; [exact H|congruence]|]. cbn [merge fold_left]. apply IH. left.
  match goal with |- context [existsb ?f ret] => destruct (existsb f ret) eqn:E end; [|destruct ret; discriminate]. destruct ret; [discriminate|discriminate].
Qed.
Lemma largest_some l : l <> [] -> exists c, In c l /\ largest l = Some (fst c).
Proof.
  induction l as [|a l IH]; [congruence|]. intros _. cbn [largest]. destruct l as [|b l]; [exists a; cbn; auto|].
  destruct IH as (c & Hc & ->); [discriminate|]. destruct (key_le (fst a) (fst c)); [exists c; cbn in *; tauto|exists a; cbn; tauto].
Qed.

Definition io_ok (l : list event) (fd : Z) (k : skey) : Prop :=
  Forall (fun ev => exists k', ev = EvIoctl fd k' /\ follow_up k k') l.

(** any kernel: the requests made and the kinds of outcomes *)
Lemma search_loop_any E fd retry : kernel_typed E -> forall K key0 key ret coll w w' r,
  Forall raw_item ret -> follow_up key0 key ->
  search_loop K E fd retry key ret coll w = (w', r) ->
  w_out w' = w_out w /\
  (exists rest, io_ok rest fd key0 /\ w_log w' = w_log w ++ rest /\ (K <> 0 -> exists rest', rest = EvIoctl fd key :: rest')) /\
  match r with
  | Ok items => Forall raw_item items
  | Err e => e <> EUnhandledControlFlow
  | Panic p => p = PArith /\ overflow_checks E = true
  | Fuel => True
  end.
Proof.
  intros HE. induction K as [|K IH]; intros key0 key ret coll w w' r Hret Hf H; cbn [search_loop] in H.
  - injection H as <- <-. split; [reflexivity|]. split; [exists []; rewrite app_nil_r; repeat split; [constructor|congruence]|exact I].
  - assert (H1 : forall w1 r1, w1 = log_event w (EvIoctl fd key) -> (w1, r1) = (w', r) ->
       w_out w' = w_out w /\ (exists rest, io_ok rest fd key0 /\ w_log w' = w_log w ++ rest /\ (S K <> 0 -> exists rest', rest = EvIoctl fd key :: rest')) /\ r = r1).
    { intros w1 r1 -> He. injection He as <- <-. cbn [log_event w_out w_log]. split; [reflexivity|]. split; [|reflexivity].
      exists [EvIoctl fd key]. split; [constructor; [eauto|constructor]|]. split; [reflexivity|eauto]. }
    assert (Hb : forall nr buf, ioctl E (tick w) fd key = IoOk nr buf \/ ioctl E (tick w) fd key = IoOverflow nr buf ->
      match extract (overflow_checks E) (Z.to_nat nr) buf 0 ret coll with
      | Err e => (log_event w (EvIoctl fd key), Err e)
      | Panic p => (log_event w (EvIoctl fd key), Panic p)
      | Fuel => (log_event w (EvIoctl fd key), Fuel)
      | Ok (ret', coll') =>
        if negb retry || (nr =? 0)%Z then
          (log_event w (EvIoctl fd key), let* _ := ensure (coll' =? 0)%Z (ECollisions coll') in Ok ret')
        else
          match largest ret' with
          | None => (log_event w (EvIoctl fd key), Panic PUnwrap)
          | Some m =>
            match try_into_u 8 (h_type m) with
            | Ok t =>
              if (h_offset m + 1 <? 2 ^ 64)%Z then
                search_loop K E fd retry
                  (mk_skey (sk_tree key) (h_objectid m) (sk_max_objectid key) t (sk_max_type key)
                           (h_offset m + 1) (sk_max_offset key) (sk_min_transid key)
                           (sk_max_transid key))
                  ret' coll' (log_event w (EvIoctl fd key))
              else (log_event w (EvIoctl fd key), Err EKeyOverflow)
            | Err e => (log_event w (EvIoctl fd key), Err e)
            | Panic p => (log_event w (EvIoctl fd key), Panic p)
            | Fuel => (log_event w (EvIoctl fd key), Fuel)
            end
          end
      end = (w', r) ->
      w_out w' = w_out w /\
      (exists rest, io_ok rest fd key0 /\ w_log w' = w_log w ++ rest /\ (S K <> 0 -> exists rest', rest = EvIoctl fd key :: rest')) /\
      match r with
      | Ok items => Forall raw_item items
      | Err e => e <> EUnhandledControlFlow
      | Panic p => p = PArith /\ overflow_checks E = true
      | Fuel => True
      end).
    { intros nr buf Hio Hr. destruct (HE _ _ _ _ _ Hio) as [Hnr Hbuf].
      pose proof (extract_any (overflow_checks E) (Z.to_nat nr) buf 0 ret coll Hbuf ltac:(lia)) as Hx.
      destruct (extract (overflow_checks E) (Z.to_nat nr) buf 0 ret coll) as [[ret' coll']|e|p|].
      - destruct Hx as (all & La & Fa & _ & _ & ->).
        assert (Fm : Forall raw_item (merge ret all)) by (apply merge_raw; assumption).
        destruct (negb retry || (nr =? 0)%Z) eqn:Hdone.
        + destruct (H1 _ _ eq_refl Hr) as (A & B & ->). split; [exact A|]. split; [exact B|]. unfold ensure. destruct (coll' =? 0)%Z; cbn [bind]; [exact Fm|discriminate].
        + apply orb_false_iff in Hdone. destruct Hdone as [_ Hn]. apply Z.eqb_neq in Hn. unfold u in Hnr.
          destruct (largest_some (merge ret all)) as (c & Hc & Hl); [apply merge_nonempty; right; intros ->; cbn in La; lia|]. rewrite Hl in Hr.
          destruct (try_into_u 8 (h_type (fst c))) as [t|e|p|] eqn:Ht.
          * destruct (h_offset (fst c) + 1 <? 2 ^ 64)%Z.
            -- assert (Hf' : follow_up key0 (mk_skey (sk_tree key) (h_objectid (fst c)) (sk_max_objectid key) t (sk_max_type key) (h_offset (fst c) + 1) (sk_max_offset key) (sk_min_transid key) (sk_max_transid key))).
               { unfold follow_up, max_key in *. cbn. exact Hf. }
               destruct (IH key0 _ _ _ _ _ _ Fm Hf' Hr) as (A & (rest & Hrest & Hlog & _) & C). split; [exact A|]. split; [|exact C].
               exists (EvIoctl fd key :: rest). split; [constructor; [eauto|exact Hrest]|]. split; [|eauto].
               rewrite Hlog. unfold log_event. cbn [w_log]. rewrite <- app_assoc. reflexivity.
            -- destruct (H1 _ _ eq_refl Hr) as (A & B & ->). split; [exact A|]. split; [exact B|]. discriminate.
          * destruct (H1 _ _ eq_refl Hr) as (A & B & ->). split; [exact A|]. split; [exact B|]. unfold try_into_u in Ht. destruct ((0 <=? h_type (fst c)) && (h_type (fst c) <? 2 ^ 8))%Z; congruence.
          * unfold try_into_u in Ht. destruct ((0 <=? h_type (fst c)) && (h_type (fst c) <? 2 ^ 8))%Z; congruence.
          * unfold try_into_u in Ht. destruct ((0 <=? h_type (fst c)) && (h_type (fst c) <? 2 ^ 8))%Z; congruence.
      - destruct (H1 _ _ eq_refl Hr) as (A & B & ->). split; [exact A|]. split; [exact B|]. destruct Hx as [what ->]. discriminate.
      - destruct (H1 _ _ eq_refl Hr) as (A & B & ->). split; [exact A|]. split; [exact B|]. tauto.
      - contradiction. }
    destruct (ioctl E (tick w) fd key) as [nr buf|nr buf|] eqn:Hio.
    + eapply Hb; [left; reflexivity|exact H].
    + eapply Hb; [right; reflexivity|exact H].
    + destruct (H1 _ _ eq_refl H) as (A & B & ->). split; [exact A|]. split; [exact B|]. discriminate.
Qed.

Lemma follow_up_refl k : follow_up k k.
Proof. unfold follow_up. auto. Qed.

Lemma key_arg_ok flds n bits z : key_arg flds n bits = Ok z <-> key_field flds n z /\ u bits z.
Proof.
  unfold key_arg, get_field, key_field, u, try_into_u. destruct (assoc n flds) as [v|]; cbn [ok_or bind].
  - destruct v; cbn [as_integer bind]; try (split; [discriminate|intros [? ?]; congruence]).
    destruct (Z.leb_spec 0 z0), (Z.ltb_spec z0 (2 ^ bits)); cbn [andb]; (split; [intros H'; first [discriminate|injection H' as <-; auto]|intros [He Hu]; injection He as ->; first [reflexivity|lia]]).
  - split; [discriminate|intros [? ?]; discriminate].
Qed.
Lemma key_arg_err flds n bits : (exists z, key_arg flds n bits = Ok z) \/ (exists e, key_arg flds n bits = Err e /\ e <> EUnhandledControlFlow).
Proof.
  unfold key_arg, get_field, try_into_u. destruct (assoc n flds) as [v|]; cbn [ok_or bind]; [|right; eexists; split; [reflexivity|discriminate]].
  destruct v; cbn [as_integer bind]; try (right; eexists; split; [reflexivity|discriminate]).
  destruct ((0 <=? z) && (z <? 2 ^ bits))%Z; [left|right]; eexists; [|split]; [reflexivity|reflexivity|discriminate].
Qed.
Lemma search_args_ok tree flds k : search_args tree flds = Ok k <-> requested tree flds k.
Proof.
  unfold search_args, requested, request_ok. split.
  - unfold try_into_u. destruct (Z.leb_spec 0 tree), (Z.ltb_spec tree (2 ^ 64)); cbn [andb bind]; try discriminate.
    destruct (key_arg flds (s_ "min_objectid") 64) as [a1| | |] eqn:A1; cbn [bind]; try discriminate.
    destruct (key_arg flds (s_ "max_objectid") 64) as [a2| | |] eqn:A2; cbn [bind]; try discriminate.
    destruct (key_arg flds (s_ "min_type") 8) as [a3| | |] eqn:A3; cbn [bind]; try discriminate.
    destruct (key_arg flds (s_ "max_type") 8) as [a4| | |] eqn:A4; cbn [bind]; try discriminate.
    destruct (key_arg flds (s_ "min_offset") 64) as [a5| | |] eqn:A5; cbn [bind]; try discriminate.
    destruct (key_arg flds (s_ "max_offset") 64) as [a6| | |] eqn:A6; cbn [bind]; try discriminate.
    destruct (key_arg flds (s_ "min_transid") 64) as [a7| | |] eqn:A7; cbn [bind]; try discriminate.
    destruct (key_arg flds (s_ "max_transid") 64) as [a8| | |] eqn:A8; cbn [bind]; try discriminate.
    intros He. injection He as <-. cbn [sk_tree sk_min_objectid sk_max_objectid sk_min_type sk_max_type sk_min_offset sk_max_offset sk_min_transid sk_max_transid].
    apply key_arg_ok in A1, A2, A3, A4, A5, A6, A7, A8. unfold u at 1. tauto.
  - intros (<- & F1 & F2 & F3 & F4 & F5 & F6 & F7 & F8 & U0 & U1 & U2 & U3 & U4 & U5 & U6 & U7 & U8). destruct k as [t a1 a2 a3 a4 a5 a6 a7 a8]. cbn in *.
    unfold try_into_u, u in U0 |- *. rewrite (proj2 (Z.leb_le _ _)), (proj2 (Z.ltb_lt _ _)) by lia. cbn [andb bind].
    rewrite (proj2 (key_arg_ok flds _ 64 a1)) by auto. cbn [bind]. rewrite (proj2 (key_arg_ok flds _ 64 a2)) by auto. cbn [bind].
    rewrite (proj2 (key_arg_ok flds _ 8 a3)) by auto. cbn [bind]. rewrite (proj2 (key_arg_ok flds _ 8 a4)) by auto. cbn [bind].
    rewrite (proj2 (key_arg_ok flds _ 64 a5)) by auto. cbn [bind]. rewrite (proj2 (key_arg_ok flds _ 64 a6)) by auto. cbn [bind].
    rewrite (proj2 (key_arg_ok flds _ 64 a7)) by auto. cbn [bind]. rewrite (proj2 (key_arg_ok flds _ 64 a8)) by auto. reflexivity.
Qed.
Lemma search_args_err tree flds : (exists k, search_args tree flds = Ok k) \/ (exists e, search_args tree flds = Err e /\ e <> EUnhandledControlFlow).
Proof.
  unfold search_args, try_into_u. destruct ((0 <=? tree) && (tree <? 2 ^ 64))%Z; cbn [bind]; [|right; eexists; split; [reflexivity|discriminate]].
  repeat match goal with |- context [key_arg flds ?n ?b] => destruct (key_arg_err flds n b) as [(? & ->)|(? & -> & ?)]; cbn [bind]; [|right; eexists; split; [reflexivity|assumption]] end.
  left. eauto.
Qed.

(** decoding the items *)
Lemma find_first {A} (p : A -> bool) l x : find p l = Some x -> exists pre post, l = pre ++ x :: post /\ (forall y, In y pre -> p y = false) /\ p x = true.
Proof.
  induction l as [|a l IH]; cbn; [discriminate|]. destruct (p a) eqn:E; intros H.
  - injection H as ->. exists [], l. split; [reflexivity|]. split; [intros ? []|exact E].
  - destruct (IH H) as (pre & post & -> & Hp & Hx). exists (a :: pre), post. split; [reflexivity|]. split; [|exact Hx]. intros y [<-|Hy]; auto.
Qed.
Lemma find_intro {A} (p : A -> bool) pre x post : (forall y, In y pre -> p y = false) -> p x = true -> find p (pre ++ x :: post) = Some x.
Proof.
  induction pre as [|a pre IH]; cbn; intros H Hx; [rewrite Hx; reflexivity|]. rewrite (H a (or_introl eq_refl)). apply IH; auto.
Qed.
Definition warn_of (c : chunk) : list event :=
  match find (fun s => st_km s (h_objectid (fst c)) (h_type (fst c)) (h_offset (fst c))) STRUCTS with
  | Some _ => [] | None => [EvWarn (h_objectid (fst c)) (h_type (fst c)) (h_offset (fst c))] end.
Lemma decode_chunks_shown oc cs : forall w w' vs, decode_chunks oc cs w = (w', Ok vs) ->
  shown oc cs vs /\ w_out w' = w_out w /\ w_log w' = w_log w ++ flat_map warn_of cs.
Proof.
  induction cs as [|[h b] cs IH]; intros w w' vs H; cbn [decode_chunks] in H.
  - injection H as <- <-. split; [constructor|]. cbn. rewrite app_nil_r. auto.
  - cbn [flat_map]. unfold warn_of at 1. cbn [fst].
    destruct (find (fun s => st_km s (h_objectid h) (h_type h) (h_offset h)) STRUCTS) as [s|] eqn:Hf.
    + unfold mbind, mret in H. destruct (from_bytes oc s (Some (h_objectid h, h_type h, h_offset h)) b) as [v| | |] eqn:Hv; try discriminate.
      destruct (decode_chunks oc cs w) as [w1 [vs1| | |]] eqn:Hd; try discriminate. injection H as <- <-.
      destruct (IH _ _ _ Hd) as (Hs & Ho & Hl). apply find_first in Hf. destruct Hf as (pre & post & He & Hp & Hx).
      split; [exact (shown_item oc h b cs vs1 pre s post v He Hp Hx Hv Hs)|]. auto.
    + destruct (IH _ _ _ H) as (Hs & Ho & Hl). split; [apply shown_unknown; [|exact Hs]; intros s Hin; exact (find_none _ _ Hf s Hin)|]. split; [exact Ho|].
      rewrite Hl. unfold log_event. cbn [w_log]. rewrite <- app_assoc. reflexivity.
Qed.
Lemma shown_decode_chunks oc cs vs : shown oc cs vs -> forall w, snd (decode_chunks oc cs w) = Ok vs.
Proof.
  induction 1 as [|h b cs vs Hu Hs IH|h b cs vs pre s post v He Hp Hx Hv Hs IH]; intros w; cbn [decode_chunks]; [reflexivity| |].
  - destruct (find (fun s => st_km s (h_objectid h) (h_type h) (h_offset h)) STRUCTS) as [s|] eqn:Hf; [|apply IH].
    apply find_some in Hf. destruct Hf as [Hi Hk]. rewrite (Hu s Hi) in Hk. discriminate.
  - rewrite He, (find_intro _ pre s post Hp Hx). unfold mbind, mret. rewrite Hv. specialize (IH w). destruct (decode_chunks oc cs w) as [w1 r]. cbn in IH. rewrite IH. reflexivity.
Qed.
Lemma decode_chunks_any oc cs : Forall raw_item cs -> forall w w' r, decode_chunks oc cs w = (w', r) ->
  w_out w' = w_out w /\ (exists rest, w_log w' = w_log w ++ rest /\ Forall (fun ev => exists o t f, ev = EvWarn o t f) rest) /\
  ((exists vs, r = Ok vs) \/ (exists e, r = Err e)).
Proof.
  induction 1 as [|[h b] cs Hc Hcs IH]; intros w w' r H; cbn [decode_chunks] in H.
  - injection H as <- <-. split; [reflexivity|]. split; [exists []; rewrite app_nil_r; auto|eauto].
  - destruct (find (fun s => st_km s (h_objectid h) (h_type h) (h_offset h)) STRUCTS) as [s|] eqn:Hf.
    + assert (Hb : bytes_ok b). { destruct Hc as (_ & _ & _ & _ & [_ Hl] & He & HF). cbn [fst snd] in *. split; [exact HF|]. rewrite <- He. rewrite p63. change (2 ^ 32)%Z with 4294967296%Z in Hl. lia. }
      assert (Hin : In s STRUCTS) by (apply find_some in Hf; tauto).
      unfold mbind, mret in H. destruct (decode_total oc s (Some (h_objectid h, h_type h, h_offset h)) b Hin Hb) as [(ms & Hd)|(e & Hd)]; rewrite Hd in H.
      * destruct (decode_chunks oc cs w) as [w1 r1] eqn:Hd1. destruct (IH _ _ _ Hd1) as (A & B & [(vs & ->)|(e & ->)]); injection H as <- <-; split; auto; split; eauto.
      * injection H as <- <-. split; [reflexivity|]. split; [exists []; rewrite app_nil_r; auto|eauto].
    + destruct (IH _ _ _ H) as (A & (rest & Hl & HF) & C). split; [exact A|]. split; [|exact C].
      exists (EvWarn (h_objectid h) (h_type h) (h_offset h) :: rest). split; [rewrite Hl; unfold log_event; cbn [w_log]; rewrite <- app_assoc; reflexivity|]. constructor; [eauto|exact HF].
Qed.

(** the call *)
Lemma calls_search_eq K E vs f e w tree key w2 : calls_search K E vs f e w tree key w2 ->
  eval_expr K E vs f e w = eval_search K E f tree key w2.
Proof.
  intros (fe & a & b & wf & wa & -> & Hf & Ha & Hb). cbn [eval_expr]. unfold mbind at 1. rewrite Hf. cbn [as_function mret mbind]. unfold mbind, mret.
  cbn [as_function]. rewrite Ha. cbn [as_integer]. rewrite Hb. reflexivity.
Qed.
Lemma eval_search_struct K E f tree v flds w : is_search_key v flds ->
  eval_search K E f tree v w =
  match f with
  | None => (w, Err ENoFilesystem)
  | Some fs =>
    (do sk <- mret (search_args tree flds) ;; do cs <- fs_search K E fs sk ;; do vs <- decode_chunks (overflow_checks E) cs ;; mret (Ok (VArr vs false))) w
  end.
Proof. intros (key & ->). unfold eval_search, mbind, mret. cbn [as_struct]. change (str_eqb _ _) with true. cbn [ensure]. destruct f; reflexivity. Qed.
Lemma eval_search_other K E f tree v w : (forall flds, ~ is_search_key v flds) -> exists e, eval_search K E f tree v w = (w, Err e).
Proof.
  intros H. unfold eval_search, mbind, mret. destruct v; cbn [as_struct]; eauto. destruct (str_eqb name (st_name btrfs_ioctl_search_key)) eqn:He.
  - apply str_eqb_eq in He. subst. elim (H fields). unfold is_search_key. eauto.
  - cbn [ensure]. eauto.
Qed.
Lemma eval_search_ok K E fd tree v flds k w : is_search_key v flds -> requested tree flds k ->
  eval_search K E (Some (FsMounted fd)) tree v w =
  (do cs <- fs_search K E (FsMounted fd) k ;; do vs <- decode_chunks (overflow_checks E) cs ;; mret (Ok (VArr vs false))) w.
Proof. intros Hk Hr. rewrite (eval_search_struct _ _ _ _ _ flds) by exact Hk. apply search_args_ok in Hr. rewrite Hr. reflexivity. Qed.

Lemma complete_mono states k a b b' items : b <= b' -> complete_result states k a b items -> complete_result states k a b' items.
Proof.
  intros Hb (H1 & H2 & H3). split; [exact H1|]. split.
  - intros c Hc. destruct (H2 c Hc) as (Hr & n & st & Hn & Hs). split; [exact Hr|]. exists n, st. split; [lia|exact Hs].
  - intros c Hr Ha. apply H3; [exact Hr|]. intros n st Hn Hs. apply (Ha n st); [lia|exact Hs].
Qed.
Lemma item_raw c : item_ok c -> raw_item c.
Proof. unfold item_ok, raw_item, u. intros (H1 & H2 & H3 & H4 & H5). repeat split; try tauto. change (2 ^ 8)%Z with 256%Z in H4. change (2 ^ 32)%Z with 4294967296%Z. lia. Qed.

Lemma honest_items_raw K' E fd states k w2 w1 items : honest E fd states ->
  fs_search K' E (FsMounted fd) k w2 = (w1, Ok items) -> Forall raw_item items.
Proof.
  intros HE Hf.
  assert (Ht : kernel_typed (mk_env (overflow_checks E) (fun n fd' k' => if Z.eqb fd' fd then ioctl E n fd' k' else IoErr) (open_path E) (sink E) (getcwd E))).
    { intros n fd' k' nr buf. cbn. destruct (Z.eqb_spec fd' fd) as [->|]; [|intros [?|?]; discriminate]. intros [Hi|Hi].
      - destruct (HE n k') as [Hn|(its & Hi' & _ & Hin & Hsz & _)]; [congruence|]. rewrite Hi' in Hi. injection Hi as <- <-.
        assert (Hits : Forall item_ok its) by (apply Forall_forall; intros c Hin'; apply (Hin c Hin')).
        split.
        + assert (G : (zlen its <= zlen (encode_items its))%Z).
          { clear -Hits. induction Hits as [|c l Hc Hl IH]; [reflexivity|]. cbn [encode_items flat_map]. fold (encode_items l). pose proof (encode_item_len c Hc) as He. destruct Hc as (_ & _ & _ & _ & [Hp _] & _).
            unfold zlen in *. rewrite app_length. cbn [length]. lia. }
          unfold u, MAX_BUF_SIZE in *. change (2 ^ 32)%Z with 4294967296%Z. unfold zlen in *. lia.
        + apply Forall_forall. intros b Hbb. apply in_flat_map in Hbb. destruct Hbb as (c & Hcc & Hbb). rewrite Forall_forall in Hits. apply Hits in Hcc. destruct Hcc as (_ & _ & _ & _ & _ & _ & Hp). destruct c as [h pl]. cbn [encode_item snd] in *.
          assert (EE : Forall (fun b => (b < 256)%N) (le_bytes 8 (h_transid h) ++ le_bytes 8 (h_objectid h) ++ le_bytes 8 (h_offset h) ++ le_bytes 4 (h_type h) ++ le_bytes 4 (h_len h) ++ pl)).
          { repeat (apply Forall_app; split); try apply Proof_Decode.le_bytes_ok. exact Hp. }
          rewrite Forall_forall in EE. apply EE. exact Hbb.
      - destruct (HE n k') as [Hn|(its & Hi' & _)]; congruence. }
    unfold fs_search in Hf.
    match type of Hf with search_loop _ _ _ ?retry _ _ _ _ = _ => pose proof (search_loop_any _ fd retry Ht K' k k [] 0 w2 w1 (Ok items) (Forall_nil _) (follow_up_refl k)) as Hl end.
    apply Hl. rewrite <- Hf. clear.
    match goal with |- search_loop _ _ _ ?rr _ _ _ _ = _ => generalize rr as retry; intros retry end. generalize (@nil chunk) as ret. generalize 0%Z as coll. revert k w2. induction K' as [|K' IH]; intros k w coll ret; [reflexivity|].
    cbn [search_loop ioctl overflow_checks]. rewrite Z.eqb_refl.
    destruct (ioctl E (tick w) fd k); [| |reflexivity];
    destruct (extract (overflow_checks E) (Z.to_nat nr) buf 0 ret coll) as [[ret' coll']| | |]; try reflexivity;
    destruct (negb retry || (nr =? 0)%Z); try reflexivity;
    destruct (largest ret') as [m|]; try reflexivity; destruct (try_into_u 8 (h_type m)); try reflexivity;
    destruct (h_offset m + 1 <? 2 ^ 64)%Z; try reflexivity; apply IH. 
Qed.

(** key() and keyof() *)
Lemma make_search_key_eq oc a b c d : make_search_key oc (VInt a) (VInt b) (VInt c) (VInt d) = Ok (key_struct a b c d).
Proof. destruct oc; reflexivity. Qed.
Lemma make_disk_key_eq oc o t f : make_disk_key oc o t f =
  Ok (VStruct (s_ "btrfs_key") None [(s_ "objectid", VInt o); (s_ "type", VInt t); (s_ "offset", VInt f)]).
Proof. destruct oc; reflexivity. Qed.

Lemma search_no_ioerr K E fd k w w' : (forall n k', ioctl E n fd k' <> IoErr) -> fs_search K E (FsMounted fd) k w = (w', Err EIoctl) -> False.
Proof.
  intros Hno. unfold fs_search. match goal with |- search_loop _ _ _ ?rr _ _ _ _ = _ -> _ => generalize rr as retry end. intros retry.
  assert (Hx : forall oc nr buf off ret coll, extract oc nr buf off ret coll <> Err EIoctl).
  { clear. intros oc nr. induction nr as [|nr IH]; intros buf off ret coll; cbn [extract]; [discriminate|].
    unfold ensure at 1. destruct (32 + off <=? MAX_BUF_SIZE)%Z; cbn [bind]; [|discriminate].
    unfold buf_slice at 1. destruct ((0 <=? off) && (off + 32 <=? MAX_BUF_SIZE))%Z; cbn [bind]; [|discriminate].
    match goal with |- context [ensure ?c _] => destruct c; cbn [ensure bind]; [|discriminate] end.
    unfold buf_slice. match goal with |- context [if ?c then Ok _ else Panic PSlice] => destruct c; cbn [bind]; [|discriminate] end.
    match goal with |- context [existsb ?p ret] => destruct (existsb p ret) end; [|apply IH].
    unfold i32_incr. destruct (coll + 1 <? 2 ^ 31)%Z; cbn [bind]; [apply IH|]. destruct oc; cbn [bind]; [discriminate|apply IH]. }
  generalize (@nil chunk) as ret. generalize 0%Z as coll. revert k w. induction K as [|K IH]; intros k w coll ret H; cbn [search_loop] in H; [discriminate|].
  specialize (Hno (tick w) k). destruct (ioctl E (tick w) fd k); [| |congruence];
  specialize (Hx (overflow_checks E) (Z.to_nat nr) buf 0%Z ret coll);
  destruct (extract (overflow_checks E) (Z.to_nat nr) buf 0 ret coll) as [[ret' coll']| | |]; try discriminate; try congruence;
  (destruct (negb retry || (nr =? 0)%Z); [unfold ensure in H; destruct (coll' =? 0)%Z; discriminate|]);
  (destruct (largest ret') as [m|]; [|discriminate]);
  (destruct (try_into_u 8 (h_type m)) eqn:Ht; try discriminate; [|unfold try_into_u in Ht; destruct ((0 <=? h_type m) && (h_type m <? 2 ^ 8))%Z; congruence]);
  (destruct (h_offset m + 1 <? 2 ^ 64)%Z; [|discriminate]); exact (IH _ _ _ _ H).
Qed.

Lemma unbounded_search K E fd states k w w' items :
  honest E fd states -> request_ok k -> ~ bounded k ->
  fs_search K E (FsMounted fd) k w = (w', Ok items) ->
  w_log w' = w_log w ++ [EvIoctl fd k] /\ answer_ok states (tick w) k items /\
  ((forall c, in_range k c -> (forall st, states (sk_tree k) (tick w) st -> In c st) -> exists i, In i items /\ ~ klt (key_of i) (key_of c)) ->
   complete_result states k (tick w) (tick w') items).
Proof.
  intros HE Hreq Hb H. unfold fs_search in H.
  assert (Hr : negb (sk_max_objectid k =? U64_MAX)%Z || negb (sk_max_type k =? U8_MAX)%Z || negb (sk_max_offset k =? U64_MAX)%Z || negb (sk_max_transid k =? U64_MAX)%Z = false).
  { apply not_true_is_false. intros Ht. apply Hb. unfold bounded, U64_MAX, U8_MAX in *. rewrite !orb_true_iff, !negb_true_iff, !Z.eqb_neq in Ht. tauto. }
  rewrite Hr in H. destruct K as [|K]; [discriminate|]. cbn [search_loop] in H.
  destruct (HE (tick w) k) as [He|(its & He & Hans)]; rewrite He in H; [discriminate|].
  pose proof Hans as (Hs & Hin & Hsz & Hall).
  assert (Hok : Forall item_ok its) by (apply Forall_forall; intros c Hc; apply (Hin c Hc)).
  pose proof (extract_ok (overflow_checks E) its [] [] [] 0%Z Hok (sorted_nodup_headers _ Hs) Hsz) as Hx.
  cbn [app length Z.of_nat] in Hx. rewrite app_nil_r in Hx. unfold zlen in H. rewrite Nat2Z.id in H. change chunk with (header * str)%type in *. rewrite Hx in H. cbn [negb orb] in H.
  cbn [ensure bind Z.eqb] in H. injection H as <- <-.
  split; [reflexivity|]. split; [exact Hans|]. intros Hcov.
  assert (Ht : tick (log_event w (EvIoctl fd k)) = S (tick w)) by (unfold tick, log_event; cbn [w_log]; rewrite app_length; cbn; lia).
  rewrite Ht. split; [exact Hs|]. split.
  - intros c Hc. destruct (Hin c Hc) as (_ & Hr' & st & Hst & Hcs). split; [exact Hr'|]. exists (tick w), st. split; [lia|auto].
  - intros c Hc Ha. assert (Hst : forall st, states (sk_tree k) (tick w) st -> In c st) by (intros st Hst; apply (Ha (tick w) st); [lia|exact Hst]).
    destruct (Hall c Hc Hst) as [Hi|(_ & Hlt)]; [exact Hi|]. destruct (Hcov c Hc Hst) as (i & Hi & Hn). elim Hn. apply Hlt. exact Hi.
Qed.

Lemma extract_fresh oc nr buf : Forall (fun b => (b < 256)%N) buf ->
  match extract oc nr buf 0 [] 0 with
  | Ok (items, _) => exists all, length all = nr /\ Forall raw_item all /\
      (zlen (encode_items all) <= MAX_BUF_SIZE)%Z /\
      firstn (length (encode_items all)) (buf ++ repeat 0%N (Z.to_nat MAX_BUF_SIZE)) = encode_items all /\
      items = first_occurrences all
  | Err e => exists what, e = EShortRead what
  | Panic _ => False
  | Fuel => False
  end.
Proof.
  intros HF. pose proof (extract_any oc nr buf 0 [] 0 HF ltac:(lia)) as H. destruct (extract oc nr buf 0 [] 0) as [[items c]|e|p|]; auto.
  - destruct H as (all & H1 & H2 & H3 & H4 & H5). exists all. split; [exact H1|]. split; [exact H2|].
    assert (Hsz : (zlen (encode_items all) <= MAX_BUF_SIZE)%Z) by (destruct H4 as [->|H4]; [vm_compute; discriminate|lia]).
    split; [exact Hsz|]. split; [|exact H5]. rewrite <- H3 at 2. unfold buf_read, zlen in *. cbn [Z.to_nat skipn]. rewrite Nat2Z.id.
    assert (Hn : length (encode_items all) <= Z.to_nat MAX_BUF_SIZE) by lia. revert Hn. generalize (length (encode_items all)) as n, (Z.to_nat MAX_BUF_SIZE) as M. clear. intros n M Hn.
    rewrite !firstn_app. f_equal.
    assert (G : forall k m, firstn k (repeat 0%N m) = repeat 0%N (Nat.min k m)) by (clear; induction k; intros [|m]; cbn; f_equal; auto).
    rewrite !G. f_equal. lia.
  - destruct H as (_ & _ & H). exfalso. revert H. unfold MAX_BUF_SIZE. vm_compute. congruence.
Qed.

Lemma shown_keys oc items l : Forall raw_item items -> shown oc items l ->
  exists known, l = map snd known /\
    (forall c v, In (c, v) known -> exists s ms, In s STRUCTS /\ v = VStruct (st_name s) (Some (key_of c)) ms /\
       forall K E vs f e w w1, overflow_checks E = oc -> vars_get (s_ "keyof") vs = Some (VFun FKeyOf) ->
         eval_expr K E vs f e w = (w1, Ok v) ->
         eval_expr K E vs f (ECall (EIdent (s_ "keyof")) [e]) w =
           (w1, Ok (VStruct (s_ "btrfs_key") None
              [(s_ "objectid", VInt (h_objectid (fst c))); (s_ "type", VInt (h_type (fst c))); (s_ "offset", VInt (h_offset (fst c)))]))) /\
    map fst known = filter (fun c => existsb (fun s => st_km s (h_objectid (fst c)) (h_type (fst c)) (h_offset (fst c))) STRUCTS) items.
Proof.
  intros HF H. induction H as [|h b cs vs Hu Hs IH|h b cs vs pre s post v He Hp Hx Hv Hs IH].
  - exists []. split; [reflexivity|]. split; [intros c v []|reflexivity].
  - inversion_clear HF. destruct IH as (known & H1 & H2 & H3); [assumption|]. exists known. split; [exact H1|]. split; [exact H2|]. cbn [filter fst].
    destruct (existsb (fun s => st_km s (h_objectid h) (h_type h) (h_offset h)) STRUCTS) eqn:Hex; [|exact H3].
    apply existsb_exists in Hex. destruct Hex as (s & Hi & Hk). rewrite (Hu s Hi) in Hk. discriminate.
  - inversion_clear HF as [|? ? Hc HF']. destruct IH as (known & -> & H2 & H3); [exact HF'|]. exists (((h, b), v) :: known). split; [reflexivity|].
    assert (Hin : In s STRUCTS) by (rewrite He; apply in_or_app; right; left; reflexivity).
    split.
    + intros c v' [Heq|Hi]; [|exact (H2 c v' Hi)]. injection Heq as <- <-.
      assert (Hb : bytes_ok b). { destruct Hc as (_ & _ & _ & _ & [_ Hl] & Hlen & HFb). cbn [fst snd] in *. split; [exact HFb|]. rewrite <- Hlen. rewrite p63. change (2 ^ 32)%Z with 4294967296%Z in Hl. lia. }
      destruct (decode_total oc s (Some (h_objectid h, h_type h, h_offset h)) b Hin Hb) as [(ms & Hd)|(e & Hd)]; rewrite Hd in Hv; [|discriminate]. injection Hv as <-.
      exists s, ms. split; [exact Hin|]. split; [reflexivity|]. intros K E vs0 f e w w1 Hoc Hk Hev.
      cbn [eval_expr]. unfold mbind, mret. rewrite Hk. cbn [ok_or as_function]. rewrite Hev. cbn [as_struct fst]. rewrite make_disk_key_eq. reflexivity.
    + cbn [map filter fst]. replace (existsb (fun s => st_km s (h_objectid h) (h_type h) (h_offset h)) STRUCTS) with true; [f_equal; exact H3|].
      symmetry. apply existsb_exists. exists s. auto.
Qed.

(** ** Key recognition *)
Ltac km_false := first [reflexivity | apply andb_false_intro2; reflexivity | apply andb_false_intro1, andb_false_intro2; reflexivity].
Ltac km_at i :=
  let l := eval cbv [STRUCTS nth] in (nth i STRUCTS btrfs_key) in
  exists (firstn i STRUCTS), l, (skipn (S i) STRUCTS); split; [reflexivity|];
  split; [let p := fresh "p" in let Hp := fresh "Hp" in intros p Hp; cbn [firstn STRUCTS In] in Hp; repeat (destruct Hp as [<-|Hp]; [km_false|]); contradiction|];
  split; [reflexivity|reflexivity].
Lemma keys_recognised n o t f : on_disk_key n o t f -> t <> 60%Z -> n <> s_ "btrfs_balance_item" -> recognised n o t f.
Proof.
  intros H H60 Hbal. destruct H; unfold recognised.
  - km_at 3. - km_at 5. - km_at 9. - km_at 10. - km_at 10. - km_at 11. - km_at 12. - km_at 13. - km_at 15.
  - congruence. - km_at 16. - km_at 17. - km_at 17. - km_at 17. - km_at 18. - km_at 19. - km_at 19. - congruence.
  - km_at 24. - km_at 25. - km_at 26. - km_at 27. - km_at 28. - km_at 29. - km_at 30. - km_at 31. - km_at 32. - km_at 33.
Qed.
Lemma not_recognised o t f : (forall s, In s STRUCTS -> st_km s o t f = false) -> forall n, ~ recognised n o t f.
Proof. intros H n (pre & s & post & He & _ & Hk & _). rewrite (H s) in Hk; [discriminate|]. rewrite He. apply in_or_app. right. left. reflexivity. Qed.
Lemma keys_not_recognised :
  (forall o f n, on_disk_key (s_ "btrfs_dir_log_item") o 60 f /\ ~ recognised n o 60 f) /\
  (forall n, on_disk_key (s_ "btrfs_balance_item") (2 ^ 64 - 4) 248 0 /\ ~ recognised n (2 ^ 64 - 4) 248 0).
Proof.
  split.
  - intros o f n. split; [constructor|]. apply not_recognised. intros p Hp. cbn [STRUCTS In] in Hp. repeat (destruct Hp as [<-|Hp]; [km_false|]). contradiction.
  - intros n. split; [constructor|]. apply not_recognised. intros p Hp. cbn [STRUCTS In] in Hp. repeat (destruct Hp as [<-|Hp]; [km_false|]). contradiction.
Qed.
