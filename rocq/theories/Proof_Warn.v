(** Proofs for C82. *)
From Verif Require Import Base Ast Pom Parse Structs Definitions Value Variables Semantics Fs Eval Runtime Lib Spec_Run Spec_Session Spec_Decode Spec_Search Spec_Warn Proof_Search Proof_Search2 Proof_Segments.
From Coq Require Import Lia.
Import Spec_Search.
Arguments s_ s%string_scope.

Section Warn.
Context (E : env) (HE : kernel_typed E).
(** the item comes from an answer to one of the requests l *)
Definition sourced (i : nat) (l : list event) (c : chunk) : Prop :=
  exists m fd k nr buf, nth_error l m = Some (EvIoctl fd k) /\ (ioctl E (i + m) fd k = IoOk nr buf \/ ioctl E (i + m) fd k = IoOverflow nr buf) /\ holds nr buf c.
Lemma sourced_left i a b c : sourced i a c -> sourced i (a ++ b) c.
Proof. intros (m & fd & k & nr & buf & H & R). exists m, fd, k, nr, buf. split; [|exact R]. rewrite nth_error_app1; [exact H|]. apply nth_error_Some. rewrite H. discriminate. Qed.
Lemma sourced_right i a b c : sourced (i + length a) b c -> sourced i (a ++ b) c.
Proof. intros (m & fd & k & nr & buf & H & R). exists (length a + m), fd, k, nr, buf. rewrite Nat.add_assoc. split; [|exact R]. rewrite nth_error_app2 by lia. replace (length a + m - length a) with m by lia. exact H. Qed.
Lemma merge_in : forall all ret c, In c (merge ret all) -> In c ret \/ In c all.
Proof.
  induction all as [|x all IH]; intros ret c H; [left; exact H|]. change (merge ret (x :: all)) with (merge (if existsb (fun d => header_eqb (fst d) (fst x)) ret then ret else ret ++ [x]) all) in H. apply IH in H.
  destruct H as [H|H]; [|right; right; exact H]. match type of H with In _ (if ?b then _ else _) => destruct b end; [left; exact H|]. apply in_app_or in H. destruct H as [H|[<-|[]]]; [left; exact H|right; left; reflexivity].
Qed.
Lemma extract_holds oc nr buf ret coll ret' coll' : Forall (fun b => (b < 256)%N) buf -> (0 <= nr)%Z -> extract oc (Z.to_nat nr) buf 0 ret coll = Ok (ret', coll') ->
  forall c, In c ret' -> In c ret \/ holds nr buf c.
Proof.
  intros HF Hn He c Hc. pose proof (extract_any oc (Z.to_nat nr) buf 0 ret coll HF ltac:(lia)) as H. rewrite He in H. destruct H as (all & H1 & H2 & H3 & H4 & ->).
  apply merge_in in Hc. destruct Hc as [Hc|Hc]; [left; exact Hc|right]. exists all. split; [rewrite H1; apply Z2Nat.id; exact Hn|]. split; [exact Hc|]. split; [exact H2|].
  assert (Hsz : (zlen (encode_items all) <= MAX_BUF_SIZE)%Z) by (destruct H4 as [->|H4]; [vm_compute; discriminate|lia]).
  rewrite <- H3 at 2. unfold buf_read, zlen in *. cbn [Z.to_nat skipn]. rewrite Nat2Z.id.
  assert (Hm : length (encode_items all) <= Z.to_nat MAX_BUF_SIZE) by lia. revert Hm. generalize (length (encode_items all)) as n, (Z.to_nat MAX_BUF_SIZE) as M. clear. intros n M Hn.
  rewrite !firstn_app. f_equal.
  assert (G : forall k m, firstn k (repeat 0%N m) = repeat 0%N (Nat.min k m)) by (clear; induction k; intros [|m]; cbn; f_equal; auto).
  rewrite !G. f_equal. lia.
Qed.
Definition asked (l : list event) : Prop := Forall (fun ev => exists fd k, ev = EvIoctl fd k) l.
Lemma search_sourced fd retry : forall K key ret coll w w' r, search_loop K E fd retry key ret coll w = (w', r) ->
  exists l, w_log w' = w_log w ++ l /\ asked l /\ forall items, r = Ok items -> forall c, In c items -> In c ret \/ sourced (tick w) l c.
Proof.
  induction K as [|K IH]; intros key ret coll w w' r H; cbn [search_loop] in H; [injection H as <- <-; exists []; split; [symmetry; apply app_nil_r|]; split; [constructor|discriminate]|].
  assert (B : forall r0 : res (list chunk), (log_event w (EvIoctl fd key), r0) = (w', r) -> (forall items, r0 <> Ok items) -> exists l, w_log w' = w_log w ++ l /\ asked l /\ forall items, r = Ok items -> forall c, In c items -> In c ret \/ sourced (tick w) l c).
  { intros r0 Hr Hn. injection Hr as <- <-. exists [EvIoctl fd key]. split; [reflexivity|]. split; [constructor; [eauto|constructor]|]. intros items X. elim (Hn items X). }
  assert (G : forall nr buf, (ioctl E (tick w) fd key = IoOk nr buf \/ ioctl E (tick w) fd key = IoOverflow nr buf) -> match extract (overflow_checks E) (Z.to_nat nr) buf 0 ret coll with
      | Ok (ret', coll') =>
        if negb retry || (nr =? 0)%Z then (log_event w (EvIoctl fd key), let* _ := ensure (coll' =? 0)%Z (ECollisions coll') in Ok ret')
        else match largest ret' with
          | None => (log_event w (EvIoctl fd key), Panic PUnwrap)
          | Some m => match try_into_u 8 (h_type m) with
            | Ok t => if (h_offset m + 1 <? 2 ^ 64)%Z then
                search_loop K E fd retry (mk_skey (sk_tree key) (h_objectid m) (sk_max_objectid key) t (sk_max_type key) (h_offset m + 1) (sk_max_offset key) (sk_min_transid key) (sk_max_transid key))
                  ret' coll' (log_event w (EvIoctl fd key))
              else (log_event w (EvIoctl fd key), Err EKeyOverflow)
            | Err e => (log_event w (EvIoctl fd key), Err e)
            | Panic p => (log_event w (EvIoctl fd key), Panic p)
            | Fuel => (log_event w (EvIoctl fd key), Fuel)
            end
          end
      | Err e => (log_event w (EvIoctl fd key), Err e)
      | Panic p => (log_event w (EvIoctl fd key), Panic p)
      | Fuel => (log_event w (EvIoctl fd key), Fuel) end = (w', r) -> exists l, w_log w' = w_log w ++ l /\ asked l /\ forall items, r = Ok items -> forall c, In c items -> In c ret \/ sourced (tick w) l c).
  { clear H. intros nr buf Ha H. destruct (HE _ _ _ _ _ Ha) as [Hnr Hbuf]. unfold u in Hnr.
    destruct (extract (overflow_checks E) (Z.to_nat nr) buf 0 ret coll) as [[ret' coll']| | |] eqn:He; try (apply (B _ H); discriminate).
    pose proof (extract_holds _ _ _ _ _ _ _ Hbuf (proj1 Hnr) He) as Hh. clear He.
    assert (S : forall c, In c ret' -> In c ret \/ sourced (tick w) [EvIoctl fd key] c).
    { intros c Hc. destruct (Hh c Hc) as [X|X]; [left; exact X|right]. exists 0, fd, key, nr, buf. rewrite Nat.add_0_r. split; [reflexivity|]. split; assumption. }
    destruct (negb retry || (nr =? 0)%Z).
    - injection H as <- <-. exists [EvIoctl fd key]. split; [reflexivity|]. split; [constructor; [eauto|constructor]|]. intros items X. unfold ensure in X. destruct (coll' =? 0)%Z; [|discriminate]. cbn [bind] in X. injection X as <-. exact S.
    - destruct (largest ret') as [m|]; [|apply (B _ H); discriminate]. destruct (try_into_u 8 (h_type m)); try (apply (B _ H); discriminate). destruct (h_offset m + 1 <? 2 ^ 64)%Z; [|apply (B _ H); discriminate].
      apply IH in H. destruct H as (l & Hl & Hq & Hs). exists (EvIoctl fd key :: l). split; [rewrite Hl; cbn [log_event w_log]; rewrite <- app_assoc; reflexivity|]. split; [constructor; [eauto|exact Hq]|].
      intros items X c Hc. destruct (Hs items X c Hc) as [Y|Y].
      + destruct (S c Y) as [Z|Z]; [left; exact Z|right]. apply (sourced_left _ [EvIoctl fd key] l). exact Z.
      + right. apply (sourced_right _ [EvIoctl fd key] l). unfold tick in Y |- *. cbn [log_event w_log] in Y. rewrite app_length in Y. exact Y. }
  destruct (ioctl E (tick w) fd key) as [nr buf|nr buf|]; [exact (G nr buf (or_introl eq_refl) H)|exact (G nr buf (or_intror eq_refl) H)|apply (B _ H); discriminate].
Qed.
Lemma fs_search_sourced K f k w w' r : fs_search K E f k w = (w', r) ->
  exists l, w_log w' = w_log w ++ l /\ asked l /\ forall items, r = Ok items -> forall c, In c items -> sourced (tick w) l c.
Proof.
  unfold fs_search. destruct f as [fd|img].
  - intros H. apply search_sourced in H. destruct H as (l & A & B & C). exists l. split; [exact A|]. split; [exact B|]. intros items X c Hc. destruct (C items X c Hc) as [[]|Y]. exact Y.
  - intros H. injection H as <- <-. exists []. split; [symmetry; apply app_nil_r|]. split; [constructor|discriminate].
Qed.
End Warn.

(** ** What the decoder reports *)
Lemma unknown_none o t f : find (fun s => st_km s o t f) STRUCTS = None -> unknown o t f.
Proof. intros H s Hs. exact (find_none _ _ H s Hs). Qed.
Lemma decode_reports oc : forall cs w w' r, decode_chunks oc cs w = (w', r) ->
  exists l, w_log w' = w_log w ++ l /\ w_out w' = w_out w /\
  ((exists vs, r = Ok vs /\ reports cs l /\ shown oc cs vs) \/
   (exists before c after s x, cs = before ++ c :: after /\ reports before l /\ In s STRUCTS /\ st_km s (h_objectid (fst c)) (h_type (fst c)) (h_offset (fst c)) = true /\
      from_bytes oc s (Some (key_of c)) (snd c) = x /\ (forall v, x <> Ok v) /\ match x with Ok _ => False | Err e => r = Err e | Panic p => r = Panic p | Fuel => r = Fuel end)).
Proof.
  induction cs as [|[h b] cs IH]; intros w w' r H; cbn [decode_chunks] in H.
  - injection H as <- <-. exists []. split; [symmetry; apply app_nil_r|]. split; [reflexivity|]. left. exists []. repeat constructor.
  - destruct (find (fun s => st_km s (h_objectid h) (h_type h) (h_offset h)) STRUCTS) as [s|] eqn:Hf.
    + pose proof (find_first _ _ _ Hf) as (pre & post & He & Hp & Hx). assert (Hi : In s STRUCTS) by (rewrite He; apply in_elt).
      unfold mbind, mret in H. destruct (from_bytes oc s (Some (h_objectid h, h_type h, h_offset h)) b) as [v|e|p|] eqn:Hv.
      2-4: injection H as <- <-; exists []; split; [symmetry; apply app_nil_r|]; split; [reflexivity|]; right; exists [], (h, b), cs, s; eexists; split; [reflexivity|]; split; [constructor|]; split; [exact Hi|]; split; [exact Hx|]; split; [exact Hv|]; split; [discriminate|reflexivity].
      destruct (decode_chunks oc cs w) as [w1 r1] eqn:Hd. destruct (IH _ _ _ Hd) as (l & A & A' & B). exists l.
      assert (W : w' = w1) by (destruct r1; injection H as <- _; reflexivity). subst w'. split; [exact A|]. split; [exact A'|].
      destruct B as [(vs & -> & R & S)|(before & c & after & s' & x & -> & R & Hi' & Hk & Hx' & Hn & Hr)].
      * left. exists (v :: vs). injection H as <-. split; [reflexivity|]. split; [exact (re_known (h, b) _ _ s Hi Hx R)|]. eapply shown_item; eauto.
      * right. exists ((h, b) :: before), c, after, s', x. split; [reflexivity|]. split; [exact (re_known (h, b) _ _ s Hi Hx R)|]. split; [exact Hi'|]. split; [exact Hk|]. split; [exact Hx'|]. split; [exact Hn|].
        destruct x as [v0|e|p|]; [elim (Hn v0); reflexivity| | |]; subst r1; injection H as <-; reflexivity.
    + destruct (IH _ _ _ H) as (l & A & A' & B). exists (EvWarn (h_objectid h) (h_type h) (h_offset h) :: l). split; [rewrite A; cbn [log_event w_log]; rewrite <- app_assoc; reflexivity|]. split; [exact A'|]. apply unknown_none in Hf.
      destruct B as [(vs & -> & R & S)|(before & c & after & s' & x & -> & R & Hi' & Hk & Hx' & Hn & Hr)].
      * left. exists vs. split; [reflexivity|]. split; [apply (re_unknown (h, b)); assumption|]. apply shown_unknown; assumption.
      * right. exists ((h, b) :: before), c, after, s', x. split; [reflexivity|]. split; [apply (re_unknown (h, b)); assumption|]. repeat (split; [assumption|]). assumption.
Qed.
Lemma reports_in cs l : reports cs l -> forall o t f, In (EvWarn o t f) l -> unknown o t f /\ exists c, In c cs /\ key_of c = (o, t, f).
Proof.
  induction 1 as [|c cs l s Hs Hk _ IH|c cs l Hu _ IH]; intros o t f H.
  - destruct H.
  - destruct (IH _ _ _ H) as (A & d & B & C). split; [exact A|]. exists d. split; [right; exact B|exact C].
  - destruct H as [H|H]; [injection H as <- <- <-; split; [exact Hu|exists c; split; [left; reflexivity|reflexivity]]|]. destruct (IH _ _ _ H) as (A & d & B & C). split; [exact A|]. exists d. split; [right; exact B|exact C].
Qed.
Lemma reports_only cs l : reports cs l -> Forall (fun ev => exists o t f, ev = EvWarn o t f) l.
Proof. induction 1; auto. constructor; eauto. Qed.

(** ** Commands *)
Section Founded.
Context (E : env) (HE : kernel_typed E).
Lemma founded_nil i : warnings_founded E i [].
Proof. intros [|j] o t f H; discriminate. Qed.
Lemma founded_app i a b : warnings_founded E i a -> warnings_founded E (i + length a) b -> warnings_founded E i (a ++ b).
Proof.
  intros HA HB j o t f H. destruct (Nat.lt_ge_cases j (length a)) as [L|L].
  - rewrite nth_error_app1 in H by exact L. destruct (HA _ _ _ _ H) as (U & m & fd & k & nr & buf & c & Hm & Hn & R). split; [exact U|]. exists m, fd, k, nr, buf, c. split; [exact Hm|]. split; [|exact R]. rewrite nth_error_app1 by lia. exact Hn.
  - rewrite nth_error_app2 in H by exact L. destruct (HB _ _ _ _ H) as (U & m & fd & k & nr & buf & c & Hm & Hn & R). split; [exact U|]. exists (length a + m), fd, k, nr, buf, c. split; [lia|]. rewrite Nat.add_assoc. split; [|exact R].
    rewrite nth_error_app2 by lia. replace (length a + m - length a) with m by lia. exact Hn.
Qed.
Lemma founded_quiet i l : (forall o t f, ~ In (EvWarn o t f) l) -> warnings_founded E i l.
Proof. intros H j o t f X. apply nth_error_In in X. elim (H _ _ _ X). Qed.
Lemma asked_quiet l : asked l -> forall o t f, ~ In (EvWarn o t f) l.
Proof. intros H o t f X. unfold asked in H. rewrite Forall_forall in H. destruct (H _ X) as (fd & k & Y). discriminate. Qed.
Lemma founded_search K f tree key w w' r : eval_search K E f tree key w = (w', r) -> seg (warnings_founded E) w w'.
Proof.
  intros H. assert (N : seg (warnings_founded E) w w) by (exists []; split; [symmetry; apply app_nil_r|apply founded_nil]).
  unfold eval_search, mbind at 1, mret in H. destruct (as_struct key) as [[[nm ky] fl]| | |]; try (injection H as <- <-; exact N).
  unfold mbind at 1 in H. destruct (ensure (str_eqb nm (st_name btrfs_ioctl_search_key)) ESearchKeyType) as [[]| | |]; try (injection H as <- <-; exact N).
  destruct f as [f|]; [|injection H as <- <-; exact N]. unfold mbind at 1 in H. destruct (search_args tree fl) as [sk| | |]; try (injection H as <- <-; exact N).
  unfold mbind at 1 in H. destruct (fs_search K E f sk w) as [w1 q] eqn:Hs. apply (fs_search_sourced E HE) in Hs. destruct Hs as (l & A & B & C).
  assert (W : seg (warnings_founded E) w w1) by (exists l; split; [exact A|apply founded_quiet, asked_quiet; exact B]).
  destruct q as [items| | |]; try (injection H as <- <-; exact W).
  unfold mbind in H. destruct (decode_chunks (overflow_checks E) items w1) as [w2 q2] eqn:Hd. assert (w' = w2) by (destruct q2; injection H as <- <-; reflexivity). subst w2. clear H.
  apply decode_reports in Hd. destruct Hd as (m & D & _ & F).
  assert (G : exists done, (forall c, In c done -> In c items) /\ reports done m).
  { destruct F as [(vs & _ & R & _)|(before & c & after & s & x & -> & R & _)]; [exists items; auto|exists before; split; [|exact R]]. intros d X. apply in_or_app. left. exact X. }
  destruct G as (done & G1 & G2). exists (l ++ m). split; [rewrite D, A, app_assoc; reflexivity|]. intros j o t g X.
  destruct (Nat.lt_ge_cases j (length l)) as [L|L].
  - rewrite nth_error_app1 in X by exact L. apply nth_error_In in X. elim (asked_quiet l B _ _ _ X).
  - rewrite nth_error_app2 in X by exact L. apply nth_error_In in X. destruct (reports_in _ _ G2 _ _ _ X) as (U & c & Hc & Hk). split; [exact U|].
    destruct (C items eq_refl c (G1 c Hc)) as (p & fd & k & nr & buf & P1 & P2 & P3). exists p, fd, k, nr, buf, c.
    assert (p < length l) by (apply nth_error_Some; rewrite P1; discriminate). split; [lia|]. split; [rewrite nth_error_app1 by assumption; exact P1|]. split; [exact P2|]. split; assumption.
Qed.
Lemma founded_event i ev : (forall o t f, ev <> EvWarn o t f) -> warnings_founded E i [ev].
Proof. intros H. apply founded_quiet. intros o t f [X|[]]. elim (H _ _ _ X). Qed.
Lemma founded_command n inter r cmd r' q : rt_eval n E inter r cmd = (r', q) -> seg (warnings_founded E) (e_w (r_eval r)) (e_w (r_eval r')).
Proof. apply rt_eval_seg; [exact founded_nil|exact founded_app|intros; apply founded_event; discriminate|intros; apply founded_event; discriminate|exact founded_search]. Qed.
Lemma founded_session h r : session E h r -> warnings_founded E 0 (w_log (e_w (r_eval r))).
Proof.
  induction 1 as [|h r n inter cmd Hs IH].
  - destruct (new_seg E (warnings_founded E) founded_nil (fun i p => founded_event i (EvOpen p) ltac:(discriminate))) as (l & A & B). rewrite A. exact B.
  - destruct (rt_eval n E inter r cmd) as [r' q] eqn:He. cbn [fst]. apply founded_command in He. destruct He as (l & A & B). rewrite A. apply founded_app; assumption.
Qed.
End Founded.
