(** The parser is complete for the grammar of expressions: it finds every derivation. *)
From Verif Require Import Base Ast Pom Parse Lib Spec_Grammar Proof_Parse.
Require Import Lia.

Lemma pmap_eq {A B} (f : A -> B) p i a r b : p i = POk a r -> f a = b -> pmap f p i = POk b r.
Proof. unfold pmap. intros -> ->. reflexivity. Qed.
(** ** Levels *)
Definition ops (j : nat) : parser binop :=
  match j with
  | 0 => op_tag (s_ "||") OLogicalOr | 1 => op_tag (s_ "&&") OLogicalAnd
  | 2 => pmap (fun _ => OBitOr) (sym (c_ "|")) | 3 => pmap (fun _ => OBitXor) (sym (c_ "^"))
  | 4 => pmap (fun _ => OBitAnd) (sym (c_ "&")) | 5 => eq_ops | 6 => relation_ops
  | 7 => shift_ops | 8 => add_ops | _ => mult_ops
  end.
Definition lev (pe : parser expr) (k : nat) : parser expr :=
  match k with
  | 0 => or_expr pe | 1 => and_expr pe | 2 => bit_or_expr pe | 3 => bit_xor_expr pe
  | 4 => bit_and_expr pe | 5 => eq_expr pe | 6 => relation_expr pe | 7 => shift_expr pe
  | 8 => add_expr pe | 9 => mult_expr pe | 10 => unary_expr pe | 11 => postfix_expr pe
  | _ => primary_expr pe
  end.
Definition step (pe : parser expr) (j : nat) : parser (binop * expr) :=
  pseq (pleft (pright space (ops j)) space) (lev pe (S j)).
Lemma lev_eq pe k : k < 10 -> k <> 5 ->
  lev pe k = pmap (fun x => left_fold (fst x) (snd x)) (pseq (lev pe (S k)) (prep (step pe k))).
Proof. intros H H5. do 10 (destruct k as [|k]; [try reflexivity; congruence|]). lia. Qed.
Lemma lev_5 pe : lev pe 5 = pmap (fun x => match snd x with Some (o, r) => EBin o (fst x) r | None => fst x end)
  (pseq (lev pe 6) (popt (step pe 5))).
Proof. reflexivity. Qed.
Definition post (pe : parser expr) : parser postfix_op :=
  pright space (palt (function_call pe) (palt (array_index pe) field_access)).
Lemma lev_11 pe : lev pe 11 = pmap (fun x => fold_left apply_postfix (snd x) (fst x)) (pseq (lev pe 12) (prep (post pe))).
Proof. reflexivity. Qed.

(** ** How expressions begin *)
Definition startc (c : N) : Prop := letter c \/ decimal c \/ In c [34; 40; 126; 33; 45]%N.
Definition starts (s : str) : Prop := exists c u, s = c :: u /\ startc c.
Lemma startc_spc c : startc c -> ~ spc c.
Proof. unfold startc, spc, letter, decimal. cbn. lia. Qed.
Lemma starts_app s r : starts s -> starts (s ++ r).
Proof. intros (c & u & -> & H). exists c, (u ++ r). auto. Qed.
Lemma starts_nows s : starts s -> nows s.
Proof. intros (c & u & -> & H). apply nows_cons, startc_spc, H. Qed.
(** no operator continues through the start of an operand *)
Definition opnd : str -> Prop := heads (fun c => c <> 61 /\ c <> 60 /\ c <> 62 /\ c <> 38 /\ c <> 124)%N.
Lemma starts_opnd s : starts s -> opnd s.
Proof. intros (c & u & -> & H). unfold startc, letter, decimal in H. cbn in *. lia. Qed.
Lemma ws_opnd w s : ws w -> opnd s -> opnd (w ++ s).
Proof. intros Hw Hs. destruct Hw as [|c w Hc Hw]; [exact Hs|]. cbn. lia. Qed.

(** characters no expression begins with *)
Definition nonstart (c : N) : Prop := ~ startc c /\ ~ spc c.

Lemma unary_ops_fail i : heads (fun c => c <> 126 /\ c <> 33 /\ c <> 45 /\ c <> 40)%N i -> unary_ops i = PFail.
Proof.
  intros H. assert (Hb : forall c, In c [126; 33; 45; 40]%N -> tag [c] i = PFail).
  { intros c Hc. apply tag_fail. intros [u ->]. cbn in *. lia. }
  unfold unary_ops. rewrite palt_r by (apply pmap_fail, Hb; cbn; tauto). rewrite palt_r by (apply pmap_fail, Hb; cbn; tauto).
  rewrite palt_r by (apply pmap_fail, Hb; cbn; tauto). unfold cast. apply pmap_fail. apply pleft_fail1, pleft_fail1, pright_fail1, pright_fail1.
  apply Hb. cbn. tauto.
Qed.

Lemma one_of_fail set i : heads (fun c => ~ In c set) i -> one_of set i = PFail.
Proof.
  intros H. apply is_a_fail. destruct i as [|c i]; cbn in *; [auto|].
  destruct (mem_char set c) eqn:E; [|reflexivity]. apply mem_char_in in E. tauto.
Qed.
Lemma number_fail i : heads (fun c => ~ decimal c /\ c <> 45%N) i -> number i = PFail.
Proof.
  intros H. unfold number, pconvert, pcollect. assert (Hs : pseq (popt (sym (c_ "-"))) integer i = PFail).
  { eapply pseq_fail2.
    - apply popt_none, sym_fail. destruct i as [|c i]; cbn in *; [auto|]. tauto.
    - apply palt_fail.
      + apply pleft_fail1, one_of_fail. destruct i as [|c i]; cbn [heads] in *; [auto|]. intros Hc. apply digits19_decimal in Hc. tauto.
      + apply sym_fail. destruct i as [|c i]; cbn in *; [auto|]. unfold decimal in H. lia. }
  rewrite Hs. reflexivity.
Qed.

Section Pe.
Variable pe : parser expr.

Lemma primary_fail i : heads (fun c => ~ startc c) i -> primary_expr pe i = PFail.
Proof.
  intros H. unfold primary_expr.
  assert (Hk : forall c, startc c -> heads (fun d => d <> c) i).
  { intros c Hc. destruct i as [|d i]; cbn in *; [auto|]. intros ->. tauto. }
  assert (Ht : forall t, (exists c u, t = c :: u /\ letter c) -> tag t i = PFail).
  { intros t (c & u & -> & Hc). apply tag_fail. intros [v ->]. cbn in H. apply H. left. exact Hc. }
  rewrite palt_r.
  2:{ unfold constant. apply palt_fail; [apply pmap_fail, number_fail|apply palt_fail; apply pmap_fail, Ht].
      - destruct i as [|c i]; cbn in *; [auto|]. split; [intros Hc; apply H; right; left; exact Hc|]. intros ->. apply H. right. right. cbn. tauto.
      - exists (c_ "t"), (s_ "rue"). split; [reflexivity|]. change (c_ "t") with 116%N. unfold letter. lia.
      - exists (c_ "f"), (s_ "alse"). split; [reflexivity|]. change (c_ "f") with 102%N. unfold letter. lia. }
  rewrite palt_r. 2:{ apply ident_fail. destruct i as [|c i]; cbn in *; [auto|]. intros Hc. apply H. left. exact Hc. }
  apply palt_fail.
  - apply pmap_fail, pleft_fail1, pright_fail1, sym_fail. apply Hk. right. right. cbn. tauto.
  - apply pmap_fail, pleft_fail1, pleft_fail1, pright_fail1, sym_fail. apply Hk. right. right. cbn. tauto.
Qed.

Lemma unary_fail i : heads nonstart i -> unary_expr pe i = PFail.
Proof.
  intros H. unfold unary_expr. apply pmap_fail. eapply pseq_fail2.
  - eapply pleft_ok; [apply prep_nil, pleft_fail1, unary_ops_fail|apply space_id].
    + destruct i as [|c i]; cbn in *; [auto|]. unfold nonstart, startc in H. cbn in H. lia.
    + destruct i as [|c i]; cbn in *; [exact I|]. apply H.
  - unfold postfix_expr. apply pmap_fail, pseq_fail1, primary_fail. destruct i as [|c i]; cbn in *; [auto|apply H].
Qed.

Lemma lev_fail i k : k <= 10 -> heads nonstart i -> lev pe k i = PFail.
Proof.
  intros Hk H. assert (G : forall n, n <= 10 -> lev pe (10 - n) i = PFail).
  { induction n as [|n IH]; intros Hn; [apply unary_fail; exact H|]. specialize (IH ltac:(lia)).
    destruct (Nat.eq_dec (10 - S n) 5) as [E|E].
    - rewrite E, lev_5. replace (10 - n) with 6 in IH by lia. apply pmap_fail, pseq_fail1. exact IH.
    - rewrite lev_eq by lia. replace (S (10 - S n)) with (10 - n) by lia. apply pmap_fail, pseq_fail1. exact IH. }
  replace k with (10 - (10 - k)) by lia. apply G. lia.
Qed.
End Pe.

Lemma p_expr_fail f w i : ws w -> heads nonstart i -> p_expr_f (S f) (w ++ i) = PFail.
Proof.
  intros Hw H. cbn [p_expr_f]. eapply pright_fail2.
  - apply space_ok; [exact Hw|]. destruct i as [|c i]; cbn in *; [exact I|apply H].
  - change (lev (p_expr_f f) 0 i = PFail). apply lev_fail; [lia|exact H].
Qed.

(** ** How expressions end *)
Inductive delim (k : nat) : str -> Prop :=
| d_end : delim k []
| d_punct c u : In c [41; 93; 44; 59; 123; 125; 34]%N -> delim k (c :: u)
| d_word c u : letter c -> delim k (c :: u)
| d_assign u : opnd u -> delim k (61 :: u)%N
| d_plus u : delim k (43 :: 61 :: u)%N
| d_minus u : delim k (45 :: 61 :: u)%N
| d_op o u : op_level o < k -> opnd u -> delim k (op_text o ++ u).
Definition bnd (k : nat) (rest : str) : Prop := noid rest /\ exists w t, rest = w ++ t /\ ws w /\ delim k t.

Lemma delim_nows k t : delim k t -> nows t.
Proof.
  intros [|c u H|c u H|u H|u|u|o u H H']; cbn; auto; unfold spc; cbn in *; unfold letter in *; try lia.
  destruct o; cbn; unfold spc; lia.
Qed.
Lemma delim_le k k' t : k <= k' -> delim k t -> delim k' t.
Proof. intros Hk [|c u H|c u H|u H|u|u|o u H H']; try (constructor; auto; lia). Qed.
Lemma bnd_le k k' r : k <= k' -> bnd k r -> bnd k' r.
Proof. intros Hk (H & w & t & -> & Hw & Hd). split; [exact H|]. exists w, t. eauto using delim_le. Qed.
Lemma bnd_noid k r : bnd k r -> noid r.
Proof. intros [H _]. exact H. Qed.

Lemma heads2 (P : N -> Prop) u c v : heads P u -> u = c :: v -> P c.
Proof. intros H ->. exact H. Qed.
Ltac opfail := unfold ops, op_tag, eq_ops, relation_ops, shift_ops, add_ops, mult_ops; repeat apply palt_fail; apply pmap_fail;
  first [ apply sym_fail; cbn in *; unfold letter in *; lia
        | apply tag_fail; let v := fresh in let E := fresh in intros [v E]; vm_compute in E;
          first [discriminate E | injection E; clear E; intros; subst; cbn in *; unfold letter in *; lia]].
Ltac nonst := unfold nonstart, startc, letter, decimal, spc; cbn; lia.

Lemma ops_delim j k t : j <= 9 -> k <= j -> delim k t ->
  ops j t = PFail \/ exists o c u, ops j t = POk o (c :: u) /\ nonstart c.
Proof.
  intros Hj Hk H. destruct H as [|c u H|c u H|u H|u|u|o u H H'].
  - left. do 10 (destruct j as [|j]; [reflexivity|]). lia.
  - left. clear Hk. do 10 (destruct j as [|j]; [opfail|]). lia.
  - left. clear Hk. do 10 (destruct j as [|j]; [opfail|]). lia.
  - left. clear Hk. do 10 (destruct j as [|j]; [opfail|]). lia.
  - clear Hk. do 10 (destruct j as [|j]; [first [left; opfail | right; do 3 eexists; split; [reflexivity|nonst]]|]). lia.
  - clear Hk. do 10 (destruct j as [|j]; [first [left; opfail | right; do 3 eexists; split; [reflexivity|nonst]]|]). lia.
  - assert (Hl : op_level o < j) by lia. clear H Hk. unfold opnd in H'.
    destruct o; cbn [op_level] in Hl;
    do 10 (destruct j as [|j]; [try (exfalso; lia); first [left; opfail | right; do 3 eexists; split; [reflexivity|nonst]]|]); lia.
Qed.

Section Climb.
Variable pe : parser expr.

Lemma step_fail j k rest : j <= 9 -> k <= j -> bnd k rest -> step pe j rest = PFail.
Proof.
  intros Hj Hk (_ & w & t & -> & Hw & Hd). unfold step.
  assert (Hs : space (w ++ t) = POk tt t) by (apply space_ok; [exact Hw|eapply delim_nows; exact Hd]).
  destruct (ops_delim j k t Hj Hk Hd) as [H|(o & c & u & H & Hc)].
  - apply pseq_fail1, pleft_fail1. eapply pright_fail2; [exact Hs|exact H].
  - eapply pseq_fail2.
    + eapply pleft_ok; [eapply pright_ok; [exact Hs|exact H]|]. apply space_id. apply nows_cons. apply Hc.
    + apply lev_fail; [lia|exact Hc].
Qed.

Lemma post_fail k rest : bnd k rest -> post pe rest = PFail.
Proof.
  intros (_ & w & t & -> & Hw & Hd). unfold post. eapply pright_fail2.
  - apply space_ok; [exact Hw|eapply delim_nows; exact Hd].
  - assert (H : heads (fun c => c <> 40 /\ c <> 91 /\ c <> 46)%N t).
    { destruct Hd as [|c u H|c u H|u H|u|u|o u H H']; cbn in *; unfold letter in *; try lia. destruct o; cbn; lia. }
    apply palt_fail; [|apply palt_fail].
    + apply pmap_fail, pleft_fail1, pleft_fail1, pright_fail1, sym_fail. destruct t; cbn in *; tauto.
    + apply pmap_fail, pleft_fail1, pleft_fail1, pright_fail1, sym_fail. destruct t; cbn in *; tauto.
    + apply pmap_fail, pright_fail1, sym_fail. destruct t; cbn in *; tauto.
Qed.

Lemma climb_binary k i e rest : k < 10 -> bnd k rest -> lev pe (S k) i = POk e rest -> lev pe k i = POk e rest.
Proof.
  intros Hk Hb H. destruct (Nat.eq_dec k 5) as [->|Hn].
  - rewrite lev_5. apply (pmap_eq _ _ _ (e, None)); [|reflexivity]. eapply pseq_ok; [exact H|]. apply popt_none.
    apply (step_fail 5 5); [lia|lia|exact Hb].
  - rewrite lev_eq by assumption. apply (pmap_eq _ _ _ (e, [])); [|reflexivity]. eapply pseq_ok; [exact H|]. apply prep_nil.
    apply (step_fail k k); [lia|lia|exact Hb].
Qed.
Lemma climb_postfix i e rest k : bnd k rest -> lev pe 12 i = POk e rest -> lev pe 11 i = POk e rest.
Proof.
  intros Hb H. rewrite lev_11. apply (pmap_eq _ _ _ (e, [])); [|reflexivity]. eapply pseq_ok; [exact H|]. apply prep_nil.
  eapply post_fail; exact Hb.
Qed.
Lemma climb_unary i e rest : nows i -> unary_ops i = PFail -> lev pe 11 i = POk e rest -> lev pe 10 i = POk e rest.
Proof.
  intros Hn Hu H. change (lev pe 10) with (unary_expr pe). unfold unary_expr. apply (pmap_eq _ _ _ ([], e)); [|reflexivity]. eapply pseq_ok; [|exact H].
  eapply pleft_ok; [apply prep_nil, pleft_fail1, Hu|apply space_id, Hn].
Qed.
Lemma climb_to_0 i e rest k : k <= 10 -> bnd 0 rest -> lev pe k i = POk e rest -> lev pe 0 i = POk e rest.
Proof.
  intros Hk Hb. revert Hk. induction k as [|k IH]; intros Hk H; [exact H|]. apply IH; [lia|].
  apply climb_binary; [lia|eapply bnd_le; [|exact Hb]; lia|exact H].
Qed.
End Climb.

(** an atom is a whole expression if nothing continues it *)
Lemma atom_expr f w i e rest : ws w -> nows i -> unary_ops i = PFail -> lev (p_expr_f f) 12 i = POk e rest -> bnd 0 rest ->
  p_expr_f (S f) (w ++ i) = POk e rest.
Proof.
  intros Hw Hn Hu H Hb. cbn [p_expr_f]. eapply pright_ok; [apply space_ok; [exact Hw|exact Hn]|].
  apply (climb_to_0 (p_expr_f f) i e rest 10); [lia|exact Hb|]. apply climb_unary; [exact Hn|exact Hu|].
  eapply climb_postfix; [exact Hb|exact H].
Qed.

(** ** Tokens *)
Lemma heads_app_cons (P : N -> Prop) c s : P c -> heads P (c :: s).
Proof. auto. Qed.
Lemma numeral_fun s z : numeral s z -> forall z', numeral s z' -> z = z'.
Proof.
  induction 1 as [|s z c Hn IH Hc]; intros z' H'.
  - inversion H' as [|s1 z1 c1 H1 H2 E]; [reflexivity|]. destruct s1; discriminate.
  - inversion H' as [E|s1 z1 c1 H1 H2 E]; [destruct s; discriminate|]. apply app_inj_tail in E. destruct E as [-> ->].
    rewrite (IH _ H1). reflexivity.
Qed.
Lemma numeral_decimal s z : numeral s z -> Forall decimal s.
Proof. induction 1; [constructor|]. apply Forall_app. auto. Qed.
Lemma decimal_in c : decimal c <-> In c digits.
Proof. split; [|apply digits_decimal]. unfold decimal. intros H. cbn. lia. Qed.
Lemma decimal_in19 c : decimal c -> c <> 48%N -> In c digits19.
Proof. unfold decimal. intros H1 H2. cbn. lia. Qed.

Lemma i128_from_digits c t : c <> 45%N ->
  i128_from_str (c :: t) = if in_i128 (dec_val (c :: t)) then Some (dec_val (c :: t)) else None.
Proof.
  intros H. destruct c as [|p]; [reflexivity|]. do 6 (destruct p as [p|p|]; try reflexivity); congruence.
Qed.
Lemma number_ok s z rest : number_text s z -> heads (fun c => ~ decimal c) rest -> number (s ++ rest) = POk z rest.
Proof.
  intros H Hr. destruct H as [s z Hn Hne Hz Hm]. pose proof (numeral_decimal _ _ Hn) as Hd.
  destruct s as [|c t]; [congruence|]. inversion Hd as [|? ? Hc Ht]; subst.
  assert (Hi : integer ((c :: t) ++ rest) = POk c rest).
  { unfold integer. destruct (N.eq_dec c 48) as [->|Hc0].
    - rewrite (Hz t eq_refl). cbn [app]. rewrite palt_r; [apply (sym_ok 48%N)|]. apply pleft_fail1, one_of_fail. cbn. lia.
    - apply palt_l. eapply pleft_ok.
      + cbn [app]. unfold one_of, is_a. rewrite (proj2 (mem_char_in _ _) (decimal_in19 c Hc Hc0)). reflexivity.
      + apply prep_chars.
        * eapply Forall_impl; [|exact Ht]. intros d Hdd. apply mem_char_in, decimal_in, Hdd.
        * destruct rest as [|d rest]; cbn [heads] in *; [exact I|]. destruct (mem_char digits d) eqn:E; [|reflexivity].
          apply mem_char_in, decimal_in in E. tauto. }
  unfold number, pconvert. erewrite pcollect_ok.
  2:{ eapply pseq_ok; [|exact Hi]. apply popt_none, sym_fail. change (c <> 45%N). unfold decimal in Hc. lia. }
  rewrite i128_from_digits by (unfold decimal in Hc; lia).
  assert (E2 : dec_val (c :: t) = z) by (eapply numeral_fun; [apply numeral_dec_val, Hd|exact Hn]).
  rewrite E2. pose proof (Proof_Parse.numeral_nonneg _ _ Hn). rewrite (proj2 (Proof_Parse.in_i128_iff z)); [reflexivity|].
  unfold I128_MIN. split; [|exact Hm]. assert (0 < 2 ^ 127)%Z by reflexivity. lia.
Qed.

(** ** String literals *)
Lemma hexdigit_val c v : hexdigit c v -> hex_val c = Some v.
Proof.
  intros H. unfold hex_val. destruct H as [v H|v H|v H].
  - rewrite (proj2 (N.leb_le 48 _)), (proj2 (N.leb_le _ 57)) by lia. cbn [andb]. f_equal. lia.
  - rewrite (proj2 (N.leb_le 48 (87 + v))), (proj2 (N.leb_gt (87 + v) 57)) by lia. cbn [andb].
    rewrite (proj2 (N.leb_le 97 (87 + v))), (proj2 (N.leb_le (87 + v) 102)) by lia. cbn [andb]. f_equal. lia.
  - rewrite (proj2 (N.leb_le 48 (55 + v))), (proj2 (N.leb_gt (55 + v) 57)) by lia. cbn [andb].
    rewrite (proj2 (N.leb_gt 97 (55 + v))) by lia. cbn [andb].
    rewrite (proj2 (N.leb_le 65 (55 + v))), (proj2 (N.leb_le (55 + v) 70)) by lia. cbn [andb]. f_equal. lia.
Qed.
Lemma hexdigit_fun c v v' : hexdigit c v -> hexdigit c v' -> v = v'.
Proof. intros H H'. apply hexdigit_val in H, H'. congruence. Qed.

Lemma str_char_ok t u z : str_char t u -> palt (none_of [92; 34]%N) escape_sequence (t ++ z) = POk u z.
Proof.
  intros H. destruct H as [c H1 H2| | | | | | | |]; try reflexivity. apply palt_l. unfold none_of, is_a. cbn [app].
  destruct (mem_char [92; 34]%N c) eqn:E; [|reflexivity]. apply mem_char_in in E. cbn in E. lia.
Qed.
Lemma utf16_char_ok t u z : utf16_unit t u -> exists u', utf16_char (t ++ z) = POk u' z.
Proof.
  intros [a b c d x y v w Ha Hb Hc Hd]. eexists. unfold utf16_char. eapply pright_ok.
  - apply (tag_ok [92; 117]%N).
  - assert (Hh : forall c v r, hexdigit c v -> is_a is_hex (c :: r) = POk c r).
    { intros c0 v0 r0 H0. unfold is_a, is_hex. rewrite (hexdigit_val _ _ H0). reflexivity. }
    eapply pmap_ok. cbn [ptimes app]. eapply pmap_ok. eapply pseq_ok; [eapply Hh; exact Ha|].
    eapply pmap_ok. eapply pseq_ok; [eapply Hh; exact Hb|]. eapply pmap_ok. eapply pseq_ok; [eapply Hh; exact Hc|].
    eapply pmap_ok. eapply pseq_ok; [eapply Hh; exact Hd|]. reflexivity.
Qed.

Lemma prep_n_notfail {A} (p : parser A) n i : prep_n n p i <> PFail.
Proof.
  revert i. induction n as [|n IH]; intros i; cbn; [discriminate|]. destruct (p i) as [a r| |]; try discriminate.
  specialize (IH r). destruct (prep_n n p r); congruence.
Qed.
Lemma prep1_notfail {A} (p : parser A) i a r : p i = POk a r -> prep1 p i <> PFail.
Proof.
  intros H. unfold prep1, pconvert, prep. cbn [prep_n]. rewrite H. pose proof (prep_n_notfail p (length i) r) as Hn.
  destruct (prep_n _ p r); congruence.
Qed.
Lemma token_notfail t k z : str_token t k -> palt char_string utf16_string (t ++ z) <> PFail.
Proof.
  intros [s c H|s u H] E; apply palt_fail_inv in E; destruct E as [E1 E2].
  - revert E1. eapply prep1_notfail. apply str_char_ok. exact H.
  - destruct (utf16_char_ok _ _ z H) as [u' Hu]. unfold utf16_string, pmap in E2.
    destruct (prep1 utf16_char (s ++ z)) eqn:E; try discriminate. revert E. eapply prep1_notfail. exact Hu.
Qed.

Lemma str_token_head t k : str_token t k -> exists c u, t = c :: u /\ c <> 34%N.
Proof.
  intros [s c H|s u H].
  - destruct H; try (do 2 eexists; split; [reflexivity|first [assumption|discriminate]]).
  - destruct H. do 2 eexists; split; [reflexivity|discriminate].
Qed.
Lemma str_token_unique t k z t' k' z' : str_token t k -> str_token t' k' -> t ++ z = t' ++ z' -> t = t' /\ k = k' /\ z = z'.
Proof.
  intros H H' E. destruct H as [s c H|s u H], H' as [s' c' H'|s' u' H'].
  - destruct H, H'; cbn in E; injection E; intros; subst; try congruence; auto.
  - destruct H, H'; cbn in E; injection E; intros; subst; try congruence; auto.
  - destruct H, H'; cbn in E; injection E; intros; subst; try congruence; auto.
  - destruct H as [a b c d x y v w Ha Hb Hc Hd], H' as [a' b' c' d' x' y' v' w' Ha' Hb' Hc' Hd']. cbn in E. injection E as -> -> -> -> ->.
    rewrite (hexdigit_fun _ _ _ Ha Ha'), (hexdigit_fun _ _ _ Hb Hb'), (hexdigit_fun _ _ _ Hc Hc'), (hexdigit_fun _ _ _ Hd Hd'). auto.
Qed.
Lemma tok_split b l' : many str_token b l' -> forall a l x y, many str_token a l -> a ++ 34%N :: x = b ++ y ->
  exists c l'', a = b ++ c /\ l = l' ++ l'' /\ many str_token c l'' /\ y = c ++ 34%N :: x.
Proof.
  induction 1 as [|t k b l' Ht Hb IH]; intros a l x y Ha E.
  - exists a, l. auto.
  - destruct Ha as [|t1 k1 a l Ht1 Ha].
    + destruct (str_token_head _ _ Ht) as (c & u & -> & Hc). cbn in E. congruence.
    + rewrite <- !app_assoc in E. destruct (str_token_unique _ _ _ _ _ _ Ht1 Ht E) as (-> & -> & E').
      destruct (IH _ _ _ _ Ha E') as (c & l'' & -> & -> & Hc & Hy). exists c, l''. rewrite app_assoc. auto.
Qed.
Lemma denotes_fun l s : denotes l s -> forall s', denotes l s' -> s = s'.
Proof.
  induction 1 as [|c l s H IH|u l s H1 H2 H IH|h lo us s H1 H2 H IH|u l s H1 H IH|u l s H1 H2 H IH]; intros s' H'; inversion H'; subst;
    unfold high_surrogate, low_surrogate in *; try (exfalso; lia); try (f_equal; auto; fail); try reflexivity.
  - exfalso. match goal with H : forall v l', _ -> _ |- _ => apply (H _ _ eq_refl) end. lia.
  - exfalso. match goal with H : forall v l', _ -> _ |- _ => apply (H _ _ eq_refl) end. lia.
Qed.

Lemma p_string_ok s v rest : string_lit s v -> p_string (s ++ rest) = POk (EStr v) rest.
Proof.
  intros [body toks v' Hm Hd]. unfold p_string.
  assert (Hb : exists ss, prep (palt char_string utf16_string) (body ++ 34%N :: rest) = POk ss (34%N :: rest) /\ concat ss = v').
  { set (i := body ++ 34%N :: rest). pose proof (string_body (S (length i)) i ltac:(lia)) as H.
    pose proof (prep_n_notfail (palt char_string utf16_string) (S (length i)) i) as Hnf. unfold prep.
    destruct (prep_n _ _ i) as [ss r| |] eqn:E; [|congruence|contradiction].
    destruct H as (pre & toks' & Hi & Hm' & Hd' & _). pose proof (prep_n_stop _ _ _ _ _ E) as Hst.
    destruct (tok_split _ _ Hm' _ _ _ _ Hm Hi) as (c & l'' & -> & -> & Hc & Hr).
    destruct Hc as [|t k c l Ht Hc].
    - cbn in Hr. rewrite app_nil_r in *. exists ss. subst r. split; [reflexivity|]. eapply denotes_fun; eassumption.
    - exfalso. subst r. rewrite <- app_assoc in Hst. exact (token_notfail _ _ _ Ht Hst). }
  destruct Hb as (ss & Hb & Hs). rewrite <- Hs.
  replace ((34%N :: body ++ [34%N]) ++ rest) with (34%N :: (body ++ 34%N :: rest)) by (cbn [app]; rewrite <- app_assoc; reflexivity). apply (pmap_ok (fun ss => EStr (concat ss))). eapply pleft_ok.
  - eapply pright_ok; [apply sym_ok|]. exact Hb.
  - apply sym_ok.
Qed.

(** ** Primary expressions *)
Lemma begins_noid t : Forall letter t -> forall s rest, noid rest -> begins t (s ++ rest) -> begins t s.
Proof.
  induction 1 as [|c t Hc Ht IH]; intros s rest Hr [u E].
  - exists s. reflexivity.
  - destruct s as [|d s].
    + cbn in E. subst rest. cbn in Hr. tauto.
    + cbn in E. injection E as -> E. destruct (IH s rest Hr (ex_intro _ u E)) as [v ->]. exists v. reflexivity.
Qed.
Lemma letters_true : Forall letter (s_ "true").
Proof. repeat constructor; cbv [letter]; cbn; lia. Qed.
Lemma letters_false : Forall letter (s_ "false").
Proof. repeat constructor; cbv [letter]; cbn; lia. Qed.
Lemma noid_nodigit r : noid r -> heads (fun c => ~ decimal c) r.
Proof. destruct r; cbn; tauto. Qed.

Section Primary.
Variable pe : parser expr.
Lemma primary_int s z rest : number_text s z -> noid rest -> primary_expr pe (s ++ rest) = POk (EInt z) rest.
Proof.
  intros H Hr. unfold primary_expr, constant. apply palt_l, palt_l. apply pmap_ok, number_ok; [exact H|apply noid_nodigit, Hr].
Qed.
Lemma number_head s z : number_text s z -> exists c t, s = c :: t /\ decimal c.
Proof.
  intros [s' z' H Hne _ _]. apply numeral_decimal in H. destruct s' as [|c t]; [congruence|]. inversion H; subst. eauto.
Qed.
Lemma primary_bool b rest : primary_expr pe ((if b : bool then s_ "true" else s_ "false") ++ rest) = POk (EBool b) rest.
Proof.
  unfold primary_expr, constant. apply palt_l. rewrite palt_r.
  2:{ apply pmap_fail, number_fail. destruct b; cbv [heads app s_]; cbn; unfold decimal; lia. }
  destruct b.
  - apply palt_l. eapply pmap_eq; [apply tag_ok|reflexivity].
  - rewrite palt_r by (apply pmap_fail, tag_fail; intros [u E]; vm_compute in E; discriminate).
    eapply pmap_eq; [apply tag_ok|reflexivity].
Qed.
Lemma primary_ident s rest : identifier s -> ~ begins (s_ "true") s -> ~ begins (s_ "false") s -> noid rest ->
  primary_expr pe (s ++ rest) = POk (EIdent s) rest.
Proof.
  intros H Ht Hf Hr. unfold primary_expr. rewrite palt_r; [apply palt_l, ident_ok; assumption|].
  unfold constant. apply palt_fail; [|apply palt_fail].
  - apply pmap_fail, number_fail. destruct (identifier_head _ H) as (c & t & -> & Hc). cbn. unfold letter, decimal in *. lia.
  - apply pmap_fail, tag_fail. intros Hb. apply Ht. exact (begins_noid _ letters_true _ _ Hr Hb).
  - apply pmap_fail, tag_fail. intros Hb. apply Hf. exact (begins_noid _ letters_false _ _ Hr Hb).
Qed.
Lemma string_head s v : string_lit s v -> exists t, s = 34%N :: t.
Proof. intros [s' toks v' _ _]. eauto. Qed.
Lemma constant_fail i : heads (fun c => ~ letter c /\ ~ decimal c /\ c <> 45%N) i -> constant i = PFail.
Proof.
  intros H. unfold constant. apply palt_fail; [|apply palt_fail].
  - apply pmap_fail, number_fail. destruct i; cbn in *; tauto.
  - apply pmap_fail, tag_fail. intros [u ->]. vm_compute in H. destruct H as [H _]. apply H. right. left. split; discriminate.
  - apply pmap_fail, tag_fail. intros [u ->]. vm_compute in H. destruct H as [H _]. apply H. right. left. split; discriminate.
Qed.
Lemma primary_str s v rest : string_lit s v -> primary_expr pe (s ++ rest) = POk (EStr v) rest.
Proof.
  intros H. unfold primary_expr. rewrite palt_r.
  - rewrite palt_r; [apply palt_l, p_string_ok, H|]. apply ident_fail. destruct (string_head _ _ H) as [t ->]. cbn. unfold letter. lia.
  - apply constant_fail. destruct (string_head _ _ H) as [t ->]. cbn. unfold letter, decimal. lia.
Qed.
Lemma primary_paren s e w rest : pe (s ++ w ++ s_ ")" ++ rest) = POk e (w ++ s_ ")" ++ rest) -> ws w ->
  primary_expr pe (s_ "(" ++ s ++ w ++ s_ ")" ++ rest) = POk (EParen e) rest.
Proof.
  intros H Hw. unfold primary_expr. rewrite palt_r; [rewrite palt_r; [rewrite palt_r|]|].
  - unfold paren. apply pmap_ok. eapply pleft_ok; [eapply pleft_ok; [eapply pright_ok; [apply (sym_ok 40%N)|exact H]|]|].
    + apply space_ok; [exact Hw|]. change (nows (41%N :: rest)). apply nows_cons. unfold spc. lia.
    + apply (sym_ok 41%N).
  - apply pmap_fail, pleft_fail1, pright_fail1, sym_fail. change (40%N <> 34%N). discriminate.
  - apply ident_fail. change (~ letter 40%N). unfold letter. lia.
  - apply constant_fail. change (~ letter 40%N /\ ~ decimal 40%N /\ 40%N <> 45%N). unfold letter, decimal. lia.
Qed.
End Primary.

(** what a cast looks like *)
Lemma cast_inv i ty r : cast i = POk ty r -> exists w1 w2 t w3,
  i = s_ "(" ++ w1 ++ s_ "struct" ++ w2 ++ t ++ w3 ++ s_ ")" ++ r /\ ws w1 /\ ws w2 /\ identifier t /\ ws w3.
Proof.
  intros H. assert (Hs : sat (S (length i)) 1 (fun s _ => exists w1 w2 t w3,
    s = s_ "(" ++ w1 ++ s_ "struct" ++ w2 ++ t ++ w3 ++ s_ ")" /\ ws w1 /\ ws w2 /\ identifier t /\ ws w3) cast).
  { eapply sat_weaken.
    - apply sat_map. eapply sat_left; [eapply sat_left; [eapply sat_right; [eapply sat_right; [apply sat_tag|apply sat_space]|]|apply sat_space]|apply sat_tag].
      apply sat_map. eapply sat_seq; [eapply sat_left; [apply sat_tag|apply sat_space]|apply sat_ident].
    - cbn; lia.
    - cbv beta. intros. dx. norm. eauto 12. }
  specialize (Hs i ltac:(lia)). rewrite H in Hs. destruct Hs as (pre & -> & _ & w1 & w2 & t & w3 & -> & Hs).
  exists w1, w2, t, w3. norm. auto.
Qed.

Lemma bnd_punct k w c u : ws w -> In c [41; 93; 44; 59; 123; 125; 34]%N -> bnd k (w ++ c :: u).
Proof.
  intros Hw Hc. split.
  - apply ws_head_noid; [exact Hw|]. cbn in *. unfold letter, decimal. lia.
  - exists w, (c :: u). split; [reflexivity|]. split; [exact Hw|]. constructor. exact Hc.
Qed.
Lemma bnd_end k w : ws w -> bnd k w.
Proof.
  intros Hw. split.
  - rewrite <- (app_nil_r w). apply ws_head_noid; [exact Hw|exact I].
  - exists w, []. rewrite app_nil_r. split; [reflexivity|]. split; [exact Hw|]. constructor.
Qed.
Lemma bnd_op k o w u : ws w -> op_level o < k -> opnd u -> bnd k (w ++ op_text o ++ u).
Proof.
  intros Hw Ho Hu. split.
  - apply ws_head_noid; [exact Hw|]. destruct o; cbn; unfold letter, decimal; lia.
  - exists w, (op_text o ++ u). split; [reflexivity|]. split; [exact Hw|]. constructor; assumption.
Qed.
Lemma bnd_assign k w u : ws w -> opnd u -> bnd k (w ++ s_ "=" ++ u).
Proof.
  intros Hw Hu. split.
  - apply ws_head_noid; [exact Hw|]. cbn. unfold letter, decimal. lia.
  - exists w, (s_ "=" ++ u). split; [reflexivity|]. split; [exact Hw|]. constructor; assumption.
Qed.
Lemma bnd_plus k w u : ws w -> bnd k (w ++ s_ "+=" ++ u).
Proof.
  intros Hw. split.
  - apply ws_head_noid; [exact Hw|]. cbn. unfold letter, decimal. lia.
  - exists w, (s_ "+=" ++ u). split; [reflexivity|]. split; [exact Hw|]. constructor; assumption.
Qed.
Lemma bnd_minus k w u : ws w -> bnd k (w ++ s_ "-=" ++ u).
Proof.
  intros Hw. split.
  - apply ws_head_noid; [exact Hw|]. cbn. unfold letter, decimal. lia.
  - exists w, (s_ "-=" ++ u). split; [reflexivity|]. split; [exact Hw|]. constructor; assumption.
Qed.
Lemma bnd_word k w c u : ws w -> w <> [] -> letter c -> bnd k (w ++ c :: u).
Proof.
  intros Hw Hn Hc. split.
  - destruct Hw as [|d w Hd Hw]; [congruence|]. cbn. unfold letter, decimal. lia.
  - exists w, (c :: u). split; [reflexivity|]. split; [exact Hw|]. constructor 3. exact Hc.
Qed.

Lemma unary_ident_fail s rest : identifier s -> unary_ops (s ++ rest) = PFail.
Proof.
  intros H. apply unary_ops_fail. destruct (identifier_head _ H) as (c & t & -> & Hc). cbn. unfold letter in Hc. lia.
Qed.
Lemma nows_ident s rest : identifier s -> nows (s ++ rest).
Proof. intros H. destruct (identifier_head _ H) as (c & t & -> & Hc). apply nows_cons, letter_nows, Hc. Qed.
Lemma struct_not_bool t : ~ begins (s_ "true") (s_ "struct" ++ t) /\ ~ begins (s_ "false") (s_ "struct" ++ t).
Proof. split; intros [u E]; vm_compute in E; discriminate. Qed.
Lemma ident_struct t : identifier t -> identifier (s_ "struct" ++ t).
Proof.
  intros [c s Hc Hs]. change (identifier (115%N :: (s_ "truct" ++ c :: s))). constructor; [unfold letter; lia|].
  apply Forall_app. split; [repeat constructor; cbv [letter]; cbn; lia|]. constructor; auto.
Qed.

Lemma ident_struct0 : identifier (s_ "struct").
Proof. change (identifier (115%N :: s_ "truct")). constructor; [unfold letter; lia|]. repeat constructor; cbv [letter]; cbn; lia. Qed.

(** an opening parenthesis is a cast only around struct and an identifier *)
Lemma paren_not_cast f s e w rest : p_expr_f (S f) (s ++ w ++ s_ ")" ++ rest) = POk e (w ++ s_ ")" ++ rest) -> ws w ->
  (forall t, e = EIdent (s_ "struct" ++ t) -> ~ identifier t) -> unary_ops (s_ "(" ++ s ++ w ++ s_ ")" ++ rest) = PFail.
Proof.
  intros H Hw Hs. unfold unary_ops. rewrite palt_r by reflexivity. rewrite palt_r by reflexivity. rewrite palt_r by reflexivity.
  set (i := s ++ w ++ s_ ")" ++ rest) in *.
  destruct (cast (s_ "(" ++ i)) as [ty r| |] eqn:E; [|reflexivity|].
  - exfalso. apply cast_inv in E. destruct E as (w1 & w2 & t & w3 & E & H1 & H2 & Ht & H3).
    apply app_inv_head in E. rewrite E in H.
    destruct (list_eq_dec N.eq_dec w2 []) as [->|Hn].
    + cbn [app] in H. rewrite app_assoc in H. rewrite app_assoc in H. rewrite <- (app_assoc w1) in H. rewrite <- app_assoc in H.
      rewrite (atom_expr f w1 ((s_ "struct" ++ t) ++ w3 ++ s_ ")" ++ r) (EIdent (s_ "struct" ++ t)) (w3 ++ s_ ")" ++ r)) in H.
      * injection H as He _. exact (Hs t (eq_sym He) Ht).
      * exact H1.
      * apply nows_ident, ident_struct, Ht.
      * apply unary_ident_fail, ident_struct, Ht.
      * apply primary_ident; [apply ident_struct, Ht|apply struct_not_bool|apply struct_not_bool|].
        apply (bnd_noid 0). apply bnd_punct; [exact H3|cbn; tauto].
      * apply bnd_punct; [exact H3|cbn; tauto].
    + destruct (identifier_head _ Ht) as (c & u & -> & Hc).
      rewrite (atom_expr f w1 (s_ "struct" ++ w2 ++ (c :: u) ++ w3 ++ s_ ")" ++ r) (EIdent (s_ "struct")) (w2 ++ (c :: u) ++ w3 ++ s_ ")" ++ r)) in H.
      * injection H as _ Hr. revert Hr Hw Hc H2. clear. revert w. induction w2 as [|d w2 IH]; intros w Hr Hw Hc H2.
        -- destruct w as [|d w]; cbn in Hr; injection Hr as -> _; [unfold letter in Hc; lia|]. inversion Hw; subst. unfold letter in Hc. lia.
        -- inversion H2; subst. destruct w as [|d' w]; cbn in Hr; injection Hr as -> Hr; [lia|]. inversion Hw; subst. apply (IH w); assumption.
      * exact H1.
      * apply nows_ident, ident_struct0.
      * apply unary_ident_fail, ident_struct0.
      * apply primary_ident; [apply ident_struct0|exact (proj1 (struct_not_bool []))|exact (proj2 (struct_not_bool []))|].
        apply (bnd_noid 0). apply bnd_word; assumption.
      * apply bnd_word; assumption.
  - exfalso. unfold cast, pmap in E. pose proof (sat_un (S (length (s_ "(" ++ i))) (s_ "(" ++ i) ltac:(lia)) as Hu.
    unfold pleft at 1, pmap at 1, pseq at 1 in Hu. unfold unary_ops in Hu. rewrite palt_r in Hu by reflexivity. rewrite palt_r in Hu by reflexivity. rewrite palt_r in Hu by reflexivity.
    unfold cast, pmap at 1 in Hu. destruct (pleft (pleft (pright (pright (tag (s_ "(")) space) type_specifier) space) (tag (s_ ")")) (s_ "(" ++ i)); try discriminate. exact Hu.
Qed.

(** ** All expressions *)
Definition PE (k : nat) (s : str) (e : expr) : Prop := k <= 12 /\ starts s /\ forall f, length s <= f ->
  (k = 12 -> forall rest, noid rest -> lev (p_expr_f f) 12 (s ++ rest) = POk e rest /\ unary_ops (s ++ rest) = PFail) /\
  (k = 11 -> forall rest l r', noid rest -> prep (post (p_expr_f f)) rest = POk l r' ->
     lev (p_expr_f f) 11 (s ++ rest) = POk (fold_left apply_postfix l e) r' /\ unary_ops (s ++ rest) = PFail) /\
  (k = 10 -> forall rest, bnd 10 rest -> exists l r1 e0, prep (pleft unary_ops space) (s ++ rest) = POk l r1 /\ nows r1 /\
     lev (p_expr_f f) 11 r1 = POk e0 rest /\ e = fold_right apply_unary e0 l) /\
  (k = 5 -> forall rest, bnd 5 rest -> lev (p_expr_f f) 5 (s ++ rest) = POk e rest) /\
  (k < 10 -> k <> 5 -> forall rest l r', bnd (S k) rest -> prep (step (p_expr_f f) k) rest = POk l r' ->
     lev (p_expr_f f) k (s ++ rest) = POk (left_fold e l) r').
Definition PF (s : str) (e : expr) : Prop := (exists w s', s = w ++ s' /\ ws w /\ starts s') /\
  forall f rest, length s < f -> bnd 0 rest -> p_expr_f f (s ++ rest) = POk e rest.
Definition PA (s : str) (args : list expr) : Prop :=
  forall f w rest, length s < f -> ws w -> arg_list (p_expr_f f) (s ++ w ++ s_ ")" ++ rest) = POk args (w ++ s_ ")" ++ rest).
Definition PM (s : str) (args : list expr) : Prop :=
  forall f w rest, length s < f -> ws w ->
  prep (pright (pright space (sym (c_ ","))) (p_expr_f f)) (s ++ w ++ s_ ")" ++ rest) = POk args (w ++ s_ ")" ++ rest) /\
  bnd 0 (s ++ w ++ s_ ")" ++ rest).

Lemma PE_use k s e f rest : PE k s e -> k <= 10 -> length s <= f -> bnd k rest -> lev (p_expr_f f) k (s ++ rest) = POk e rest.
Proof.
  intros (_ & _ & H) Hk Hl Hb. destruct (H f Hl) as (_ & _ & H10 & H5 & Hn).
  destruct (Nat.eq_dec k 10) as [->|E10].
  - destruct (H10 eq_refl rest Hb) as (l & r1 & e0 & Hp & Hr & He & ->). change (lev (p_expr_f f) 10) with (unary_expr (p_expr_f f)).
    unfold unary_expr. apply (pmap_eq _ _ _ (l, e0)); [|reflexivity]. eapply pseq_ok; [eapply pleft_ok; [exact Hp|apply space_id, Hr]|exact He].
  - destruct (Nat.eq_dec k 5) as [->|E5]; [apply H5; auto|].
    apply (Hn ltac:(lia) E5 rest [] rest); [eapply bnd_le; [|exact Hb]; lia|].
    apply prep_nil, (step_fail _ k k); [lia|lia|exact Hb].
Qed.

Ltac lv := first [discriminate | lia].
Lemma PE_12 s e : starts s ->
  (forall f rest, length s <= f -> noid rest -> primary_expr (p_expr_f f) (s ++ rest) = POk e rest /\ unary_ops (s ++ rest) = PFail) ->
  PE 12 s e.
Proof.
  intros Hs H. split; [lia|]. split; [exact Hs|]. intros f Hf. split; [intros _ rest Hr; apply H; assumption|].
  split; [lv|]. split; [lv|]. split; [lv|]. lia.
Qed.
Lemma PE_11 s e : starts s ->
  (forall f rest l r', length s <= f -> noid rest -> prep (post (p_expr_f f)) rest = POk l r' ->
     lev (p_expr_f f) 11 (s ++ rest) = POk (fold_left apply_postfix l e) r' /\ unary_ops (s ++ rest) = PFail) ->
  PE 11 s e.
Proof.
  intros Hs H. split; [lia|]. split; [exact Hs|]. intros f Hf. split; [lv|]. split; [intros _ rest l r' H1 H2; apply H; assumption|].
  split; [lv|]. split; [lv|]. lia.
Qed.
Lemma PE_10 s e : starts s ->
  (forall f rest, length s <= f -> bnd 10 rest -> exists l r1 e0, prep (pleft unary_ops space) (s ++ rest) = POk l r1 /\ nows r1 /\
     lev (p_expr_f f) 11 r1 = POk e0 rest /\ e = fold_right apply_unary e0 l) ->
  PE 10 s e.
Proof.
  intros Hs H. split; [lia|]. split; [exact Hs|]. intros f Hf. split; [lv|]. split; [lv|].
  split; [intros _ rest Hr; apply H; assumption|]. split; [lv|]. lia.
Qed.
Lemma PE_5 s e : starts s ->
  (forall f rest, length s <= f -> bnd 5 rest -> lev (p_expr_f f) 5 (s ++ rest) = POk e rest) -> PE 5 s e.
Proof.
  intros Hs H. split; [lia|]. split; [exact Hs|]. intros f Hf. split; [lv|]. split; [lv|]. split; [lv|].
  split; [intros _ rest Hr; apply H; assumption|]. lia.
Qed.
Lemma PE_bin k s e : k < 10 -> k <> 5 -> starts s ->
  (forall f rest l r', length s <= f -> bnd (S k) rest -> prep (step (p_expr_f f) k) rest = POk l r' ->
     lev (p_expr_f f) k (s ++ rest) = POk (left_fold e l) r') -> PE k s e.
Proof.
  intros Hk H5 Hs H. split; [lia|]. split; [exact Hs|]. intros f Hf. split; [lia|]. split; [lia|]. split; [lia|]. split; [lia|].
  intros _ _ rest l r' H1 H2. apply H; assumption.
Qed.

Lemma PE_weaken k s e : PE (S k) s e -> PE k s e.
Proof.
  intros HP. pose proof HP as (Hk & Hs & H).
  destruct (Nat.eq_dec k 11) as [->|E11].
  { apply PE_11; [exact Hs|]. intros f rest l r' Hf Hr Hl. destruct (H f Hf) as (H12 & _). destruct (H12 eq_refl rest Hr) as [H1 H2].
    split; [|exact H2]. rewrite lev_11. apply (pmap_eq _ _ _ (e, l)); [|reflexivity]. eapply pseq_ok; [exact H1|exact Hl]. }
  destruct (Nat.eq_dec k 10) as [->|E10].
  { apply PE_10; [exact Hs|]. intros f rest Hf Hr. destruct (H f Hf) as (_ & H11 & _).
    destruct (H11 eq_refl rest [] rest (bnd_noid _ _ Hr) (prep_nil _ _ (post_fail _ _ _ Hr))) as [H1 H2].
    exists [], (s ++ rest), e. split; [apply prep_nil, pleft_fail1, H2|]. split; [apply starts_nows, starts_app, Hs|]. split; [exact H1|reflexivity]. }
  destruct (Nat.eq_dec k 5) as [->|E5].
  { apply PE_5; [exact Hs|]. intros f rest Hf Hr. apply climb_binary; [lia|exact Hr|]. apply PE_use; [exact HP|lia|exact Hf|]. eapply bnd_le; [|exact Hr]; lia. }
  apply PE_bin; [lia|exact E5|exact Hs|]. intros f rest l r' Hf Hr Hl. rewrite lev_eq by lia.
  apply (pmap_eq _ _ _ (e, l)); [|reflexivity]. eapply pseq_ok; [|exact Hl]. apply PE_use; [exact HP|lia|exact Hf|exact Hr].
Qed.

Lemma ops_ok o u : opnd u -> ops (op_level o) (op_text o ++ u) = POk o u.
Proof.
  intros Hu. destruct o; try reflexivity; cbn [op_level op_text]; unfold ops, relation_ops, op_tag.
  - rewrite palt_r by (apply pmap_fail, tag_fail; intros [v E]; vm_compute in E; injection E; intros; subst; cbn in Hu; lia). reflexivity.
  - rewrite palt_r by reflexivity. rewrite palt_r by reflexivity.
    rewrite palt_r by (apply pmap_fail, tag_fail; intros [v E]; vm_compute in E; injection E; intros; subst; cbn in Hu; lia). reflexivity.
Qed.
Lemma op_level_lt o : op_level o < 10.
Proof. destruct o; cbn; lia. Qed.
Lemma op_text_len o : 1 <= length (op_text o).
Proof. destruct o; cbn; lia. Qed.

Lemma step_ok f o w1 w2 s2 e2 rest : ws w1 -> ws w2 -> PE (S (op_level o)) s2 e2 -> length s2 <= f -> bnd (S (op_level o)) rest ->
  step (p_expr_f f) (op_level o) (w1 ++ op_text o ++ w2 ++ s2 ++ rest) = POk (o, e2) rest.
Proof.
  intros H1 H2 HP Hl Hb. pose proof HP as (_ & Hs & _). pose proof (op_level_lt o).
  assert (Ho : opnd (w2 ++ s2 ++ rest)) by (apply ws_opnd; [exact H2|apply starts_opnd, starts_app, Hs]).
  unfold step. eapply pseq_ok; [eapply pleft_ok; [eapply pright_ok|]|].
  - apply space_ok; [exact H1|]. destruct o; cbn; unfold spc; lia.
  - apply ops_ok. exact Ho.
  - apply space_ok; [exact H2|]. apply starts_nows, starts_app, Hs.
  - apply PE_use; [exact HP|lia|exact Hl|exact Hb].
Qed.

Lemma unop_ok o r : unary_ops (unop_text o ++ r) = POk (UOp o) r.
Proof. destruct o; reflexivity. Qed.
Lemma unary_cast_ok w1 w2 t w3 rest : ws w1 -> ws w2 -> identifier t -> ws w3 ->
  unary_ops (s_ "(" ++ w1 ++ s_ "struct" ++ w2 ++ t ++ w3 ++ s_ ")" ++ rest) = POk (UCast (EIdent t)) rest.
Proof.
  intros. unfold unary_ops. rewrite palt_r by reflexivity. rewrite palt_r by reflexivity. rewrite palt_r by reflexivity. apply cast_ok; assumption.
Qed.

Lemma starts_c c u : startc c -> starts (c :: u).
Proof. intros H. exists c, u. auto. Qed.
Lemma opnd_full s e r : PF s e -> opnd (s ++ r).
Proof. intros ((w & s' & -> & Hw & Hs) & _). rewrite <- app_assoc. apply ws_opnd; [exact Hw|]. apply starts_opnd, starts_app, Hs. Qed.

Lemma noid_c w c u : ws w -> ~ letter c -> ~ decimal c -> noid (w ++ c :: u).
Proof. intros Hw H1 H2. apply ws_head_noid; [exact Hw|]. cbn. auto. Qed.

Lemma call_ok f w sa args w' rest : ws w -> ws w' -> PA sa args -> length sa < f ->
  post (p_expr_f f) (w ++ s_ "(" ++ sa ++ w' ++ s_ ")" ++ rest) = POk (PFCall args) rest.
Proof.
  intros Hw Hw' HA Hl. unfold post. eapply pright_ok; [apply space_ok; [exact Hw|change (~ spc 40%N); unfold spc; lia]|].
  apply palt_l. unfold function_call. apply pmap_ok. eapply pleft_ok; [eapply pleft_ok; [eapply pright_ok; [apply (sym_ok 40%N)|]|]|].
  - apply HA; assumption.
  - apply space_ok; [exact Hw'|change (~ spc 41%N); unfold spc; lia].
  - apply (sym_ok 41%N).
Qed.
Lemma index_ok f w si i w' rest : ws w -> ws w' -> PF si i -> length si < f ->
  post (p_expr_f f) (w ++ s_ "[" ++ si ++ w' ++ s_ "]" ++ rest) = POk (PFIndex i) rest.
Proof.
  intros Hw Hw' HF Hl. unfold post. eapply pright_ok; [apply space_ok; [exact Hw|change (~ spc 91%N); unfold spc; lia]|].
  rewrite palt_r. 2:{ apply pmap_fail, pleft_fail1, pleft_fail1, pright_fail1, sym_fail. change (91 <> 40)%N. lia. }
  apply palt_l. unfold array_index. apply pmap_ok. eapply pleft_ok; [eapply pleft_ok; [eapply pright_ok; [apply (sym_ok 91%N)|]|]|].
  - apply HF; [exact Hl|]. apply bnd_punct; [exact Hw'|cbn; tauto].
  - apply space_ok; [exact Hw'|change (~ spc 93%N); unfold spc; lia].
  - apply (sym_ok 93%N).
Qed.
Lemma field_ok f w x rest : ws w -> identifier x -> noid rest ->
  post (p_expr_f f) (w ++ s_ "." ++ x ++ rest) = POk (PFField (EIdent x)) rest.
Proof.
  intros Hw Hx Hr. unfold post. eapply pright_ok; [apply space_ok; [exact Hw|change (~ spc 46%N); unfold spc; lia]|].
  rewrite palt_r. 2:{ apply pmap_fail, pleft_fail1, pleft_fail1, pright_fail1, sym_fail. change (46 <> 40)%N. lia. }
  rewrite palt_r. 2:{ apply pmap_fail, pleft_fail1, pleft_fail1, pright_fail1, sym_fail. change (46 <> 91)%N. lia. }
  apply pmap_ok. eapply pright_ok; [apply (sym_ok 46%N)|apply ident_ok; assumption].
Qed.

(** one more postfix operator *)
Lemma PE_post s e t op : PE 11 s e ->
  (forall f rest, length t <= f -> noid rest -> noid (t ++ rest) /\ post (p_expr_f f) (t ++ rest) = POk op rest) -> t <> [] ->
  PE 11 (s ++ t) (apply_postfix e op).
Proof.
  intros (_ & Hs & H) Ht Hn. apply PE_11; [apply starts_app, Hs|]. intros f rest l r' Hl Hr Hp. rewrite app_length in Hl.
  destruct (H f ltac:(lia)) as (_ & H11 & _). destruct (Ht f rest ltac:(lia) Hr) as [Hno Hpo].
  rewrite <- app_assoc.
  apply (H11 eq_refl (t ++ rest) (op :: l) r'); [exact Hno|].
  eapply prep_cons; [exact Hpo| |exact Hp]. rewrite app_length. destruct t; [congruence|cbn; lia].
Qed.

Lemma g_complete : (forall k s e, g_expr k s e -> PE k s e) /\ (forall s e, g_full s e -> PF s e) /\
  (forall s l, g_args s l -> PA s l) /\ (forall s l, g_more s l -> PM s l).
Proof.
  apply g_all_mi.
  - intros s z H. apply PE_12.
    + destruct (number_head _ _ H) as (c & t & -> & Hc). apply starts_c. right. left. exact Hc.
    + intros f rest _ Hr. split; [apply primary_int; assumption|]. apply unary_ops_fail.
      destruct (number_head _ _ H) as (c & t & -> & Hc). cbn. unfold decimal in Hc. lia.
  - apply PE_12; [exists 116%N, (s_ "rue"); split; [reflexivity|left; unfold letter; lia]|].
    intros f rest _ Hr. split; [apply (primary_bool _ true)|reflexivity].
  - apply PE_12; [exists 102%N, (s_ "alse"); split; [reflexivity|left; unfold letter; lia]|].
    intros f rest _ Hr. split; [apply (primary_bool _ false)|reflexivity].
  - intros s H Ht Hf. apply PE_12.
    + destruct (identifier_head _ H) as (c & t & -> & Hc). apply starts_c. left. exact Hc.
    + intros f rest _ Hr. split; [apply primary_ident; assumption|apply unary_ident_fail; exact H].
  - intros s v H. apply PE_12.
    + destruct (string_head _ _ H) as [t ->]. apply starts_c. right. right. cbn. tauto.
    + intros f rest _ Hr. split; [apply primary_str; assumption|]. destruct (string_head _ _ H) as [t ->].
      apply unary_ops_fail. cbn. lia.
  - intros s e w _ HF Hw Hs. apply PE_12; [apply starts_c; right; right; cbn; tauto|].
    intros f rest Hl Hr. norm. rewrite !app_length in Hl. cbn [s_] in Hl.
    change (length (s_ "(")) with 1 in Hl. change (length (s_ ")")) with 1 in Hl.
    assert (Hp : p_expr_f f (s ++ w ++ s_ ")" ++ rest) = POk e (w ++ s_ ")" ++ rest)).
    { apply HF; [lia|]. apply bnd_punct; [exact Hw|cbn; tauto]. }
    split; [apply primary_paren; assumption|]. destruct f as [|f]; [lia|]. eapply paren_not_cast; eassumption.
  - intros s e w sa args w' _ HP Hw _ HA Hw'. apply (PE_post s e _ (PFCall args)); [exact HP| |intros E; apply app_eq_nil in E; destruct E; discriminate].
    intros f rest Hl Hr. norm. rewrite !app_length in Hl. change (length (s_ "(")) with 1 in Hl.
    split; [apply ws_head_noid; [exact Hw|cbn; unfold letter, decimal; lia]|]. apply call_ok; auto. lia.
  - intros s e w si i w' _ HP Hw _ HF Hw'. apply (PE_post s e _ (PFIndex i)); [exact HP| |intros E; apply app_eq_nil in E; destruct E; discriminate].
    intros f rest Hl Hr. norm. rewrite !app_length in Hl. change (length (s_ "[")) with 1 in Hl.
    split; [apply ws_head_noid; [exact Hw|cbn; unfold letter, decimal; lia]|]. apply index_ok; auto. lia.
  - intros s e w x _ HP Hw Hx. apply (PE_post s e _ (PFField (EIdent x))); [exact HP| |intros E; apply app_eq_nil in E; destruct E; discriminate].
    intros f rest Hl Hr. norm. split; [apply ws_head_noid; [exact Hw|cbn; unfold letter, decimal; lia]|]. apply field_ok; auto.
  - intros o w s e Hw _ (_ & Hs & H). apply PE_10.
    + destruct o; apply starts_c; right; right; cbn; tauto.
    + intros f rest Hl Hr. rewrite !app_length in Hl. destruct (H f ltac:(lia)) as (_ & _ & H10 & _).
      destruct (H10 eq_refl rest Hr) as (l & r1 & e0 & Hp & Hn & He & ->). exists (UOp o :: l), r1, e0.
      norm. split; [|auto]. eapply prep_cons; [| |exact Hp].
      * eapply pleft_ok; [apply unop_ok|]. apply space_ok; [exact Hw|apply starts_nows, starts_app, Hs].
      * rewrite !app_length. destruct o; cbn; lia.
  - intros w1 w2 t w3 w4 s e H1 H2 Ht H3 H4 _ (_ & Hs & H). apply PE_10.
    + apply starts_c; right; right; cbn; tauto.
    + intros f rest Hl Hr. rewrite !app_length in Hl. destruct (H f ltac:(lia)) as (_ & _ & H10 & _).
      destruct (H10 eq_refl rest Hr) as (l & r1 & e0 & Hp & Hn & He & ->). exists (UCast (EIdent t) :: l), r1, e0.
      norm. split; [|auto]. eapply prep_cons; [| |exact Hp].
      * eapply pleft_ok; [apply unary_cast_ok; assumption|]. apply space_ok; [exact H4|apply starts_nows, starts_app, Hs].
      * rewrite !app_length. cbn. lia.
  - intros o s1 e1 w1 w2 s2 e2 H5 _ (_ & Hs1 & H1) Hw1 Hw2 _ HP2. pose proof (op_level_lt o) as Ho.
    apply PE_bin; [exact Ho|exact H5|apply starts_app, Hs1|].
    intros f rest l r' Hl Hr Hp. rewrite !app_length in Hl. norm. destruct (H1 f ltac:(lia)) as (_ & _ & _ & _ & Hn).
    pose proof HP2 as (_ & Hs2 & _).
    apply (Hn Ho H5 (w1 ++ op_text o ++ w2 ++ s2 ++ rest) ((o, e2) :: l) r').
    + apply bnd_op; [exact Hw1|lia|]. apply ws_opnd; [exact Hw2|]. apply starts_opnd, starts_app, Hs2.
    + eapply prep_cons; [apply step_ok; auto; lia| |exact Hp]. rewrite !app_length. pose proof (op_text_len o). lia.
  - intros o s1 e1 w1 w2 s2 e2 H5 _ HP1 Hw1 Hw2 _ HP2.
    pose proof HP1 as (_ & Hs1 & _). apply PE_5; [apply starts_app, Hs1|].
    intros f rest Hl Hr. rewrite !app_length in Hl. norm. pose proof HP2 as (_ & Hs2 & _). rewrite lev_5.
    apply (pmap_eq _ _ _ (e1, Some (o, e2))); [|reflexivity]. eapply pseq_ok.
    + apply PE_use; [exact HP1|lia|lia|]. apply bnd_op; [exact Hw1|lia|]. apply ws_opnd; [exact Hw2|]. apply starts_opnd, starts_app, Hs2.
    + apply popt_some. rewrite <- H5. apply step_ok; auto; [rewrite H5; exact HP2|lia|]. eapply bnd_le; [|exact Hr]. lia.
  - intros k s e _ HP. apply PE_weaken, HP.
  - intros w s e Hw _ HP. pose proof HP as (_ & Hs & _). split; [eauto 8|].
    intros f rest Hl Hr. rewrite app_length in Hl. destruct f as [|f]; [lia|]. cbn [p_expr_f]. norm. eapply pright_ok.
    + apply space_ok; [exact Hw|apply starts_nows, starts_app, Hs].
    + apply (PE_use 0); [exact HP|lia|lia|exact Hr].
  - intros f w rest Hl Hw. unfold arg_list, plist. destruct f as [|f]; [lia|]. cbn [app].
    rewrite p_expr_fail; [reflexivity|exact Hw|]. change (nonstart 41%N). nonst.
  - intros s e sr args _ HF _ HM f w rest Hl Hw. rewrite app_length in Hl. norm.
    destruct (HM f w rest ltac:(lia) Hw) as [Hm Hb]. destruct HF as [_ HF]. unfold arg_list, plist.
    rewrite (HF f _ ltac:(lia) Hb). rewrite Hm. reflexivity.
  - intros f w rest Hl Hw. cbn [app]. split; [|apply bnd_punct; [exact Hw|cbn; tauto]].
    apply prep_nil, pright_fail1. eapply pright_fail2; [apply space_ok; [exact Hw|change (~ spc 41%N); unfold spc; lia]|].
    apply sym_fail. change (41 <> 44)%N. lia.
  - intros w s e sr args Hw _ HF _ HM f w' rest Hl Hw'. rewrite !app_length in Hl. norm.
    change (length (s_ ",")) with 1 in Hl. destruct (HM f w' rest ltac:(lia) Hw') as [Hm Hb]. destruct HF as [_ HF]. split; [|apply bnd_punct; [exact Hw|cbn; tauto]].
    eapply prep_cons; [| |exact Hm].
    + eapply pright_ok; [|apply HF; [lia|exact Hb]]. eapply pright_ok; [apply space_ok; [exact Hw|change (~ spc 44%N); unfold spc; lia]|].
      apply (sym_ok 44%N).
    + rewrite !app_length. change (length (s_ ",")) with 1. lia.
Qed.

Lemma full_complete s e rest : g_full s e -> bnd 0 rest -> p_expr (s ++ rest) = POk e rest.
Proof.
  intros H Hb. destruct (proj1 (proj2 g_complete) s e H) as [_ HF]. apply HF; [rewrite app_length; lia|exact Hb].
Qed.
Lemma expr_complete s e rest : g_expr 0 s e -> bnd 0 rest -> p_expr (s ++ rest) = POk e rest.
Proof. intros H. apply full_complete. change s with ([] ++ s). constructor; [constructor|exact H]. Qed.
