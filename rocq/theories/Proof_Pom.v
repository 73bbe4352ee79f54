(** Running the combinators on a known text: what each parser returns on  text ++ rest. *)
From Verif Require Import Base Ast Pom Parse Lib Spec_Grammar.
Require Import Lia.

Lemma strip_prefix_app t : forall i r, strip_prefix t i = Some r <-> i = t ++ r.
Proof.
  induction t as [|c t IH]; intros i r; cbn.
  - split; congruence.
  - destruct i as [|d i]; [split; discriminate|]. destruct (N.eqb_spec c d) as [->|Hn].
    + rewrite IH. split; congruence.
    + split; congruence.
Qed.
Lemma mem_char_in set c : mem_char set c = true <-> In c set.
Proof.
  unfold mem_char. rewrite existsb_exists. split.
  - intros (x & H & Hx). apply N.eqb_eq in Hx. congruence.
  - intros H. exists c. split; auto. apply N.eqb_refl.
Qed.
Lemma ident_start_letter c : ident_start c = true <-> letter c.
Proof. unfold ident_start, is_alpha, letter. rewrite !orb_true_iff, !andb_true_iff, !N.leb_le, N.eqb_eq. lia. Qed.
Lemma ident_char_spec c : ident_char c = true <-> letter c \/ decimal c.
Proof. unfold ident_char, is_alpha, is_digit, letter, decimal. rewrite !orb_true_iff, !andb_true_iff, !N.leb_le, N.eqb_eq. lia. Qed.

(** ** Basic combinators *)
Lemma pmap_ok {A B} (f : A -> B) p i a r : p i = POk a r -> pmap f p i = POk (f a) r.
Proof. unfold pmap. intros ->. reflexivity. Qed.
Lemma pmap_fail {A B} (f : A -> B) p i : p i = PFail -> pmap f p i = PFail.
Proof. unfold pmap. intros ->. reflexivity. Qed.
Lemma pseq_ok {A B} (p : parser A) (q : parser B) i a r b r' :
  p i = POk a r -> q r = POk b r' -> pseq p q i = POk (a, b) r'.
Proof. unfold pseq. intros -> ->. reflexivity. Qed.
Lemma pseq_fail1 {A B} (p : parser A) (q : parser B) i : p i = PFail -> pseq p q i = PFail.
Proof. unfold pseq. intros ->. reflexivity. Qed.
Lemma pseq_fail2 {A B} (p : parser A) (q : parser B) i a r : p i = POk a r -> q r = PFail -> pseq p q i = PFail.
Proof. unfold pseq. intros -> ->. reflexivity. Qed.
Lemma pright_ok {A B} (p : parser A) (q : parser B) i a r b r' :
  p i = POk a r -> q r = POk b r' -> pright p q i = POk b r'.
Proof. intros H1 H2. unfold pright, pmap. rewrite (pseq_ok _ _ _ _ _ _ _ H1 H2). reflexivity. Qed.
Lemma pright_fail1 {A B} (p : parser A) (q : parser B) i : p i = PFail -> pright p q i = PFail.
Proof. intros H. unfold pright, pmap. rewrite (pseq_fail1 _ _ _ H). reflexivity. Qed.
Lemma pright_fail2 {A B} (p : parser A) (q : parser B) i a r : p i = POk a r -> q r = PFail -> pright p q i = PFail.
Proof. intros H1 H2. unfold pright, pmap. rewrite (pseq_fail2 _ _ _ _ _ H1 H2). reflexivity. Qed.
Lemma pleft_ok {A B} (p : parser A) (q : parser B) i a r b r' :
  p i = POk a r -> q r = POk b r' -> pleft p q i = POk a r'.
Proof. intros H1 H2. unfold pleft, pmap. rewrite (pseq_ok _ _ _ _ _ _ _ H1 H2). reflexivity. Qed.
Lemma pleft_fail1 {A B} (p : parser A) (q : parser B) i : p i = PFail -> pleft p q i = PFail.
Proof. intros H. unfold pleft, pmap. rewrite (pseq_fail1 _ _ _ H). reflexivity. Qed.
Lemma pleft_fail2 {A B} (p : parser A) (q : parser B) i a r : p i = POk a r -> q r = PFail -> pleft p q i = PFail.
Proof. intros H1 H2. unfold pleft, pmap. rewrite (pseq_fail2 _ _ _ _ _ H1 H2). reflexivity. Qed.
Lemma palt_l {A} (p q : parser A) i a r : p i = POk a r -> palt p q i = POk a r.
Proof. unfold palt. intros ->. reflexivity. Qed.
Lemma palt_r {A} (p q : parser A) i : p i = PFail -> palt p q i = q i.
Proof. unfold palt. intros ->. reflexivity. Qed.
Lemma palt_fail {A} (p q : parser A) i : p i = PFail -> q i = PFail -> palt p q i = PFail.
Proof. unfold palt. intros ->. auto. Qed.
Lemma popt_some {A} (p : parser A) i a r : p i = POk a r -> popt p i = POk (Some a) r.
Proof. unfold popt. intros ->. reflexivity. Qed.
Lemma popt_none {A} (p : parser A) i : p i = PFail -> popt p i = POk None i.
Proof. unfold popt. intros ->. reflexivity. Qed.
Lemma tag_ok t r : tag t (t ++ r) = POk t r.
Proof. unfold tag. rewrite (proj2 (strip_prefix_app t (t ++ r) r) eq_refl). reflexivity. Qed.
Lemma tag_fail t i : ~ begins t i -> tag t i = PFail.
Proof.
  intros H. unfold tag. destruct (strip_prefix t i) as [r|] eqn:E; [|reflexivity].
  apply strip_prefix_app in E. elim H. exists r. exact E.
Qed.
Lemma tag_fail_iff t i : tag t i = PFail <-> ~ begins t i.
Proof.
  split; [|apply tag_fail]. intros H [u ->]. rewrite tag_ok in H. discriminate.
Qed.
Lemma pcollect_ok {A} (p : parser A) s r a : p (s ++ r) = POk a r -> pcollect p (s ++ r) = POk s r.
Proof.
  unfold pcollect. intros ->. rewrite app_length. replace (length s + length r - length r) with (length s) by lia.
  rewrite firstn_app, Nat.sub_diag, firstn_all, app_nil_r. reflexivity.
Qed.

Lemma prep_n_more {A} (p : parser A) n : forall m i l r, prep_n n p i = POk l r -> n <= m -> prep_n m p i = POk l r.
Proof.
  induction n as [|n IH]; intros m i l r H Hm; [discriminate|]. destruct m as [|m]; [lia|]. cbn [prep_n] in *.
  destruct (p i) as [a r1| |]; try assumption. destruct (prep_n n p r1) as [l1 r2| |] eqn:E; try discriminate.
  rewrite (IH m _ _ _ E ltac:(lia)). exact H.
Qed.
Lemma prep_n_stop {A} (p : parser A) n : forall i l r, prep_n n p i = POk l r -> p r = PFail.
Proof.
  induction n as [|n IH]; intros i l r H; [discriminate|]. cbn in H. destruct (p i) as [a r1| |] eqn:Hp; try discriminate.
  - destruct (prep_n n p r1) as [l1 r2| |] eqn:Hr; try discriminate. inversion H; subst. eauto.
  - inversion H; subst. exact Hp.
Qed.
Lemma prep_stop {A} (p : parser A) i l r : prep p i = POk l r -> p r = PFail.
Proof. apply prep_n_stop. Qed.
Lemma prep_nil {A} (p : parser A) i : p i = PFail -> prep p i = POk [] i.
Proof. unfold prep. cbn [prep_n]. intros ->. reflexivity. Qed.
Lemma prep_cons {A} (p : parser A) i a r l r' :
  p i = POk a r -> length r < length i -> prep p r = POk l r' -> prep p i = POk (a :: l) r'.
Proof.
  unfold prep. intros H1 H2 H3. cbn [prep_n]. rewrite H1. rewrite (prep_n_more _ _ (length i) _ _ _ H3 ltac:(lia)). reflexivity.
Qed.

(** the first character of a text *)
Definition heads (P : N -> Prop) (i : str) : Prop := match i with c :: _ => P c | [] => True end.
Lemma is_a_fail f i : heads (fun c => f c = false) i -> is_a f i = PFail.
Proof. destruct i as [|c i]; cbn; [reflexivity|]. intros ->. reflexivity. Qed.
Lemma is_a_fail_inv f i : is_a f i = PFail -> heads (fun c => f c = false) i.
Proof. destruct i as [|c i]; cbn; [auto|]. destruct (f c); [discriminate|reflexivity]. Qed.
Lemma sym_ok c r : sym c (c :: r) = POk c r.
Proof. unfold sym, is_a. rewrite N.eqb_refl. reflexivity. Qed.
Lemma sym_fail c i : heads (fun d => d <> c) i -> sym c i = PFail.
Proof. intros H. apply is_a_fail. destruct i as [|d i]; cbn in *; [auto|]. apply N.eqb_neq. congruence. Qed.
Lemma prep_chars f s rest : Forall (fun c => f c = true) s -> heads (fun c => f c = false) rest ->
  prep (is_a f) (s ++ rest) = POk s rest.
Proof.
  intros Hs Hr. induction Hs as [|c s Hc Hs IH].
  - apply prep_nil, is_a_fail. exact Hr.
  - cbn [app]. eapply prep_cons; [cbn; rewrite Hc; reflexivity|cbn; lia|exact IH].
Qed.

(** ** Spaces *)
Definition spc (c : N) : Prop := c = 32%N \/ c = 9%N \/ c = 13%N \/ c = 10%N.
Definition nows : str -> Prop := heads (fun c => ~ spc c).
Lemma space_char c : mem_char space_chars c = true <-> spc c.
Proof. rewrite mem_char_in. cbn. unfold spc. intuition auto. Qed.
Lemma space_char_not c : mem_char space_chars c = false <-> ~ spc c.
Proof. rewrite <- space_char. destruct (mem_char space_chars c); intuition congruence. Qed.
Lemma nows_head i : nows i <-> heads (fun c => mem_char space_chars c = false) i.
Proof. destruct i as [|c i]; [cbn; tauto|]. change (~ spc c <-> mem_char space_chars c = false). rewrite space_char_not. tauto. Qed.
Lemma space_ok w rest : ws w -> nows rest -> space (w ++ rest) = POk tt rest.
Proof.
  intros Hw Hr. unfold space, pdiscard. apply (pmap_ok (fun _ => tt) _ _ w). apply prep_chars.
  - eapply Forall_impl; [|exact Hw]. intros c Hc. apply space_char. exact Hc.
  - apply nows_head. exact Hr.
Qed.
Lemma space_id r : nows r -> space r = POk tt r.
Proof. intros H. apply (space_ok [] r); [constructor|exact H]. Qed.
Lemma space_split i : exists w r, i = w ++ r /\ ws w /\ nows r.
Proof.
  induction i as [|c i (w & r & -> & Hw & Hr)].
  - exists [], []. repeat split; constructor.
  - destruct (mem_char space_chars c) eqn:E.
    + exists (c :: w), r. repeat split; auto. constructor; [apply space_char; exact E|exact Hw].
    + exists [], (c :: w ++ r). repeat split; [constructor|]. apply nows_head. exact E.
Qed.
Lemma space_inv i : exists w r, i = w ++ r /\ ws w /\ nows r /\ space i = POk tt r.
Proof. destruct (space_split i) as (w & r & -> & H1 & H2). exists w, r. repeat split; auto. apply space_ok; assumption. Qed.
Lemma ws_app a b : ws a -> ws b -> ws (a ++ b).
Proof. intros. apply Forall_app. auto. Qed.

(** ** Identifiers *)
(** rest does not continue an identifier *)
Definition noid : str -> Prop := heads (fun c => ~ letter c /\ ~ decimal c).
Lemma noid_head r : noid r -> heads (fun c => ident_char c = false) r.
Proof.
  destruct r as [|c r]; cbn; [auto|]. intros [H1 H2]. destruct (ident_char c) eqn:E; [|reflexivity].
  apply ident_char_spec in E. tauto.
Qed.
Lemma ident_name_ok s rest : identifier s -> noid rest -> ident_name (s ++ rest) = POk s rest.
Proof.
  intros [c t Hc Ht] Hr. unfold ident_name. eapply pcollect_ok. eapply pseq_ok.
  - cbn. rewrite (proj2 (ident_start_letter c) Hc). reflexivity.
  - apply prep_chars; [|apply noid_head; exact Hr]. eapply Forall_impl; [|exact Ht]. intros d Hd. apply ident_char_spec. exact Hd.
Qed.
Lemma ident_ok s rest : identifier s -> noid rest -> ident (s ++ rest) = POk (EIdent s) rest.
Proof. intros H1 H2. apply pmap_ok, ident_name_ok; assumption. Qed.
Lemma ident_name_fail i : heads (fun c => ~ letter c) i -> ident_name i = PFail.
Proof.
  intros H. unfold ident_name, pcollect. rewrite (pseq_fail1 (is_a ident_start)); [reflexivity|]. apply is_a_fail.
  destruct i as [|c i]; cbn in *; [auto|]. destruct (ident_start c) eqn:E; [|reflexivity]. apply ident_start_letter in E. tauto.
Qed.
Lemma ident_fail i : heads (fun c => ~ letter c) i -> ident i = PFail.
Proof. intros H. apply pmap_fail, ident_name_fail, H. Qed.

Lemma identifier_head s : identifier s -> exists c t, s = c :: t /\ letter c.
Proof. intros [c t H1 H2]. eauto. Qed.
Lemma letter_nows c : letter c -> ~ spc c.
Proof. unfold letter, spc. lia. Qed.
Lemma nows_cons c r : ~ spc c -> nows (c :: r).
Proof. intros H. exact H. Qed.
Lemma ws_head_noid w r : ws w -> noid r -> noid (w ++ r).
Proof. intros Hw Hr. destruct Hw as [|c w Hc Hw]; [exact Hr|]. cbn. unfold letter, decimal. lia. Qed.
Lemma begins_refl t u : begins t (t ++ u).
Proof. exists u. reflexivity. Qed.

(** ** Casts *)
Definition bad_paren (e : expr) : Prop := exists t, e = EIdent (s_ "struct" ++ t) /\ identifier t.
Lemma type_specifier_ok w t rest : ws w -> identifier t -> noid rest ->
  type_specifier (s_ "struct" ++ w ++ t ++ rest) = POk (EIdent t) rest.
Proof.
  intros Hw Ht Hr. unfold type_specifier. change (EIdent t) with (snd (s_ "struct", EIdent t)). apply pmap_ok. eapply pseq_ok.
  - eapply pleft_ok; [apply tag_ok|]. apply space_ok; [exact Hw|].
    destruct (identifier_head t Ht) as (c & u & -> & Hc). apply nows_cons, letter_nows, Hc.
  - apply ident_ok; assumption.
Qed.
Lemma cast_ok w1 w2 t w3 rest : ws w1 -> ws w2 -> identifier t -> ws w3 ->
  cast (s_ "(" ++ w1 ++ s_ "struct" ++ w2 ++ t ++ w3 ++ s_ ")" ++ rest) = POk (UCast (EIdent t)) rest.
Proof.
  intros H1 H2 Ht H3. unfold cast. apply pmap_ok. eapply pleft_ok; [eapply pleft_ok; [eapply pright_ok; [eapply pright_ok|]|]|].
  - apply tag_ok.
  - apply space_ok; [exact H1|]. change (nows (115%N :: (s_ "truct" ++ w2 ++ t ++ w3 ++ s_ ")" ++ rest))). apply nows_cons. unfold spc. lia.
  - apply type_specifier_ok; [exact H2|exact Ht|]. apply ws_head_noid; [exact H3|].
    change (noid (41%N :: rest)). cbn. unfold letter, decimal. lia.
  - apply space_ok; [exact H3|]. change (nows (41%N :: rest)). apply nows_cons. unfold spc. lia.
  - apply tag_ok.
Qed.
