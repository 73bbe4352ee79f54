(** C82: nothing is left out without a warning, no warning without a cause, no result without a source. *)
From Verif Require Import Base Ast Pom Parse Structs Definitions Value Variables Semantics Fs Eval Runtime Lib Spec_Run Spec_Session Spec_Decode Spec_Search Spec_Warn Demo Demo_Search Proof_Search Proof_Search2 Proof_Segments Proof_Warn.
From Coq Require Import Lia.
Import Spec_Search.
Arguments s_ s%string_scope.

(** every item a successful search received is either an element of the result or reported, with its
    key; both in the order received *)
Theorem C82_shown_or_reported :
  forall K E vs fd e w tree key flds k w2 w' v,
  calls_search K E vs (Some (FsMounted fd)) e w tree key w2 -> is_search_key key flds -> requested tree flds k ->
  eval_expr K E vs (Some (FsMounted fd)) e w = (w', Ok v) ->
  exists items w1 l warnings, fs_search K E (FsMounted fd) k w2 = (w1, Ok items) /\ v = VArr l false /\ shown (overflow_checks E) items l /\
    w_log w' = w_log w1 ++ warnings /\ reports items warnings /\ length l + length warnings = length items.
Proof.
  intros K E vs fd e w tree key flds k w2 w' v Hc Hs Hr H. rewrite (calls_search_eq _ _ _ _ _ _ _ _ _ Hc), (eval_search_ok _ _ _ _ _ flds k) in H by assumption.
  unfold mbind at 1 in H. destruct (fs_search K E (FsMounted fd) k w2) as [w1 [items| | |]] eqn:Hf; try discriminate.
  unfold mbind, mret in H. destruct (decode_chunks (overflow_checks E) items w1) as [w3 q] eqn:Hd.
  destruct (decode_reports _ _ _ _ _ Hd) as (l & A & _ & [(vs' & -> & R & S)|(before & c & after & s & x & _ & _ & _ & _ & _ & Hn & X)]).
  - injection H as <- <-. exists items, w1, vs', l. split; [reflexivity|]. split; [reflexivity|]. split; [exact S|]. split; [exact A|]. split; [exact R|].
    clear -R S. revert vs' S. induction R as [|c cs l s Hi Hk _ IH|c cs l Hu _ IH]; intros vs' S; inversion S; subst; cbn [length fst] in *.
    + reflexivity.
    + match goal with H : forall s, In s STRUCTS -> _ |- _ => rewrite (H _ Hi) in Hk; discriminate Hk end.
    + match goal with H : shown _ cs _ |- _ => rewrite <- (IH _ H) end. reflexivity.
    + match goal with H : shown _ cs _ |- _ => rewrite <- (IH _ H) end. lia.
    + match goal with H : STRUCTS = _ |- _ => pose proof (in_elt s pre post) as Z; rewrite <- H in Z; apply Hu in Z end. cbn [fst] in Z. congruence.
  - destruct x as [v0|e0|p|]; [elim X| | |]; subst q; discriminate.
Qed.
Print Assumptions C82_shown_or_reported.
(** a search fails on an item it cannot decode; what it reported until then are the items before it *)
Theorem C82_undecodable_item :
  forall K E vs fd e w tree key flds k w2 w1 items w' r, kernel_typed E ->
  calls_search K E vs (Some (FsMounted fd)) e w tree key w2 -> is_search_key key flds -> requested tree flds k ->
  fs_search K E (FsMounted fd) k w2 = (w1, Ok items) -> eval_expr K E vs (Some (FsMounted fd)) e w = (w', r) -> (forall v, r <> Ok v) ->
  exists before c after s err warnings, items = before ++ c :: after /\ w_log w' = w_log w1 ++ warnings /\ reports before warnings /\
    In s STRUCTS /\ st_km s (h_objectid (fst c)) (h_type (fst c)) (h_offset (fst c)) = true /\
    from_bytes (overflow_checks E) s (Some (key_of c)) (snd c) = Err err /\ r = Err err.
Proof.
  intros K E vs fd e w tree key flds k w2 w1 items w' r HE Hc Hs Hr Hf H Hn. rewrite (calls_search_eq _ _ _ _ _ _ _ _ _ Hc), (eval_search_ok _ _ _ _ _ flds k) in H by assumption.
  assert (HI : Forall raw_item items). { unfold fs_search in Hf. destruct (search_loop_any E fd _ HE K k k [] 0 w2 w1 _ (Forall_nil _) (follow_up_refl k) Hf) as (_ & _ & X). exact X. }
  unfold mbind at 1 in H. rewrite Hf in H.
  unfold mbind, mret in H. destruct (decode_chunks (overflow_checks E) items w1) as [w3 q] eqn:Hd. pose proof (decode_chunks_any _ _ HI _ _ _ Hd) as (_ & _ & HQ).
  destruct (decode_reports _ _ _ _ _ Hd) as (l & A & _ & [(vs' & -> & R & S)|(before & c & after & s & x & Hi & R & Hin & Hk & Hx & _ & X)]).
  - injection H as <- <-. elim (Hn (VArr vs' false)). reflexivity.
  - destruct x as [v0|e0|p|]; [elim X| | |]; subst q.
    + injection H as <- <-. exists before, c, after, s, e0, l. repeat (split; [assumption|]). reflexivity.
    + destruct HQ as [(? & Y)|(? & Y)]; discriminate.
    + destruct HQ as [(? & Y)|(? & Y)]; discriminate.
Qed.
Print Assumptions C82_undecodable_item.
(** every warning of a session is about an item of unknown kind that the kernel returned before *)
Theorem C82_warnings_have_a_cause :
  forall E h r, kernel_typed E -> session E h r -> warnings_founded E 0 (w_log (e_w (r_eval r))).
Proof. intros E h r HE. apply founded_session. exact HE. Qed.
Print Assumptions C82_warnings_have_a_cause.
(** nothing is invented: every element of a search result is the decoding of an item that stands in
    the kernel's answer to one of the requests of this search *)
Theorem C82_results_have_a_source :
  forall K E vs fd e w tree key flds k w2 w' l v, kernel_typed E ->
  calls_search K E vs (Some (FsMounted fd)) e w tree key w2 -> is_search_key key flds -> requested tree flds k ->
  eval_expr K E vs (Some (FsMounted fd)) e w = (w', Ok (VArr l false)) -> In v l ->
  exists m fd' k' nr buf c s, length (w_log w2) <= m /\ nth_error (w_log w') m = Some (EvIoctl fd' k') /\
    (ioctl E m fd' k' = IoOk nr buf \/ ioctl E m fd' k' = IoOverflow nr buf) /\ holds nr buf c /\
    In s STRUCTS /\ st_km s (h_objectid (fst c)) (h_type (fst c)) (h_offset (fst c)) = true /\
    from_bytes (overflow_checks E) s (Some (key_of c)) (snd c) = Ok v.
Proof.
  intros K E vs fd e w tree key flds k w2 w' l v HE Hc Hs Hr H Hv.
  destruct (C82_shown_or_reported _ _ _ _ _ _ _ _ _ _ _ _ _ Hc Hs Hr H) as (items & w1 & l' & ws & Hf & X & S & A & _). injection X as <-.
  destruct (fs_search_sourced E HE _ _ _ _ _ _ Hf) as (q & B & _ & C).
  assert (G : exists c s, In c items /\ In s STRUCTS /\ st_km s (h_objectid (fst c)) (h_type (fst c)) (h_offset (fst c)) = true /\ from_bytes (overflow_checks E) s (Some (key_of c)) (snd c) = Ok v).
  { clear -S Hv. induction S as [|h b cs vs Hu _ IH|h b cs vs pre s post v0 He Hp Hx Hb _ IH].
    - destruct Hv.
    - destruct (IH Hv) as (c & s & Hi & R). exists c, s. split; [right; exact Hi|exact R].
    - destruct Hv as [<-|Hv].
      + exists (h, b), s. split; [left; reflexivity|]. split; [rewrite He; apply in_elt|]. split; [exact Hx|exact Hb].
      + destruct (IH Hv) as (c & s' & Hi & R). exists c, s'. split; [right; exact Hi|exact R]. }
  destruct G as (c & s & Hi & R). destruct (C items eq_refl c Hi) as (m & fd' & k' & nr & buf & D & F & Hh).
  exists (length (w_log w2) + m), fd', k', nr, buf, c, s. split; [lia|]. split; [|split; [exact F|split; [exact Hh|exact R]]].
  rewrite A, B, <- app_assoc, nth_error_app2 by lia. replace (length (w_log w2) + m - length (w_log w2)) with m by lia.
  rewrite nth_error_app1; [exact D|]. apply nth_error_Some. rewrite D. discriminate.
Qed.
Print Assumptions C82_results_have_a_source.

(** ** Not vacuous: the items of the example tree, of which one is of unknown kind *)
Example C82_example :
  exists l, reports demo_tree l /\ l <> [] /\ length l < length demo_tree /\ unknown 12 253 9.
Proof.
  destruct (decode_chunks true demo_tree w0) as [w' r] eqn:Hd. pose proof Hd as Hc. vm_compute in Hc. injection Hc as <- <-.
  apply decode_reports in Hd. destruct Hd as (l & A & _ & [(vs & _ & R & _)|(before & c & after & s & x & _ & _ & _ & _ & _ & _ & X)]).
  - exists l. split; [exact R|]. cbn [w_log w0 app] in A. subst l. split; [discriminate|]. split; [vm_compute; lia|].
    apply unknown_none. vm_compute. reflexivity.
  - destruct x as [v0|e0|p|]; [elim X| | |]; discriminate.
Qed.
