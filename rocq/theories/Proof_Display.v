(** Proofs about displayed text. *)
From Verif Require Import Base Ast Value Variables Fs Eval Lib Spec_Grammar Spec_Decode Spec_Fs Spec_Text Proof_Text Proof_Fs Spec_Run Proof_Run.
From Coq Require Import Lia.
Arguments s_ s%string_scope.

(** ** Strings *)
Definition esc1 (ws : bool) (b : N) : str := if negb ws && is_ascii_ws b then [b] else escape_byte b.
Lemma escape_map ws s : escape ws s = concat (map (esc1 ws) s).
Proof. unfold escape. rewrite flat_map_concat_map. reflexivity. Qed.
Lemma is_ascii_ws_iff b : is_ascii_ws b = true <-> blank b.
Proof.
  unfold is_ascii_ws, blank. rewrite existsb_exists. split; [intros (x & H & E); apply N.eqb_eq in E; subst; exact H|intros H; exists b; split; [exact H|apply N.eqb_refl]].
Qed.
Lemma hex_ok d : (d < 16)%N -> hex d (hex_digit d).
Proof.
  intros H. assert (In d [0;1;2;3;4;5;6;7;8;9;10;11;12;13;14;15]%N) as Hi by (cbn; lia). unfold hex.
  cbn in Hi. intuition (subst; reflexivity).
Qed.
Lemma hex_fun d c c' : hex d c -> hex d c' -> c = c'.
Proof. unfold hex. congruence. Qed.
Ltac byte_cases b := 
  destruct (N.eqb_spec b 9); [|destruct (N.eqb_spec b 13); [|destruct (N.eqb_spec b 10); [|destruct (N.eqb_spec b 39); [|destruct (N.eqb_spec b 34); [|destruct (N.eqb_spec b 92)]]]]].
Lemma esc1_shown ws b : (b < 256)%N -> shown_byte (negb ws) b (esc1 ws b).
Proof.
  intros Hb. unfold esc1. destruct (is_ascii_ws b) eqn:Hw; [apply is_ascii_ws_iff in Hw|assert (Hn : ~ blank b) by (rewrite <- is_ascii_ws_iff; congruence)].
  - destruct ws; cbn [negb andb].
    + destruct Hw as [<-|[<-|[<-|[<-|[<-|[]]]]]]; cbn.
      * apply sb_tab; reflexivity.
      * apply sb_lf; reflexivity.
      * apply (sb_hex _ 12 48 99)%N; [unfold printable; lia|cbn; lia|discriminate|reflexivity|reflexivity].
      * apply sb_cr; reflexivity.
      * apply sb_plain. unfold plain; lia.
    + apply sb_raw; [reflexivity|exact Hw].
  - rewrite andb_false_r. unfold blank in Hn. cbn [In] in Hn. unfold escape_byte.
    destruct (N.eqb_spec b 9); [lia|]. destruct (N.eqb_spec b 13); [lia|]. destruct (N.eqb_spec b 10); [lia|].
    destruct (N.eqb_spec b 39); [subst; apply (sb_quote _ 39%N); auto|]. destruct (N.eqb_spec b 34); [subst; apply (sb_quote _ 34%N); auto|].
    destruct (N.eqb_spec b 92); [subst; apply (sb_quote _ 92%N); auto|].
    destruct (N.leb_spec 32 b), (N.leb_spec b 126); cbn [andb]; try (apply sb_plain; unfold plain; lia).
    all: apply (sb_hex _ b); [unfold printable; lia|cbn; lia|intros _; unfold blank; cbn; lia|apply hex_ok; apply N.div_lt_upper_bound; lia|apply hex_ok; apply N.mod_lt; lia].
Qed.
Lemma bytes_shown ws s : Forall (fun b => (b < 256)%N) s -> shown (negb ws) s (escape ws s).
Proof.
  intros H. exists (map (esc1 ws) s). split; [|apply escape_map]. induction H as [|b s Hb _ IH]; cbn; constructor; [apply esc1_shown; exact Hb|exact IH].
Qed.

(** the first character tells a raw byte from an escape, the second which escape *)
Lemma hex_printable d c : hex d c -> (48 <= c <= 57 \/ 97 <= c <= 102)%N.
Proof. unfold hex. intros H. apply nth_error_In in H. cbn in H. intuition (subst; lia). Qed.
Lemma hex_inj d d' c : hex d c -> hex d' c -> d = d'.
Proof.
  unfold hex. intros H H'. apply N2Nat.inj. eapply (proj1 (NoDup_nth_error (s_ "0123456789abcdef"))).
  - repeat constructor; cbn; lia.
  - apply nth_error_Some. congruence.
  - congruence.
Qed.
Lemma shown_byte_printable raw b t : shown_byte raw b t -> Forall (fun c => printable c \/ raw = true /\ blank c) t.
Proof.
  unfold printable.
  intros H; destruct H as [b Hp|b Hr Hb|b Hb|Hr|Hr|Hr|b x y H1 H2 H3 Hx Hy].
  - constructor; [left; unfold plain in Hp; lia|constructor].
  - constructor; [right; auto|constructor].
  - constructor; [left; lia|]. constructor; [left; lia|constructor].
  - repeat (constructor; [left; cbn; lia|]); constructor.
  - repeat (constructor; [left; cbn; lia|]); constructor.
  - repeat (constructor; [left; cbn; lia|]); constructor.
  - apply hex_printable in Hx, Hy. cbn. constructor; [left; lia|]. constructor; [left; lia|]. constructor; [left; lia|]. constructor; [left; lia|constructor].
Qed.
Lemma shown_byte_fun raw b t t' : shown_byte raw b t -> shown_byte raw b t' -> t = t'.
Proof.
  unfold plain, printable, blank, hex. intros H H'.
  destruct H; inversion H'; subst; cbn [In] in *; unfold plain, printable, blank, hex in *; cbn [In] in *; try reflexivity; try congruence; try lia;
  try (exfalso; intuition (subst; try discriminate; lia)).
Qed.
Lemma shown_byte_prefix raw b b' t t' u u' : shown_byte raw b t -> shown_byte raw b' t' -> t ++ u = t' ++ u' -> b = b' /\ u = u'.
Proof.
  intros H H' E.
  destruct H as [b Hp|b Hr Hb|b Hb|Hr|Hr|Hr|b x y H1 H2 H3 Hx Hy]; destruct H' as [b' Hp'|b' Hr' Hb'|b' Hb'|Hr'|Hr'|Hr'|b' x' y' H1' H2' H3' Hx' Hy']; cbn in E;
  repeat match goal with H : _ :: _ = _ :: _ |- _ => injection H; clear H; intros end; subst; unfold plain, blank in *; cbn [In] in *; try (split; reflexivity); try congruence; try lia;
  try (exfalso; intuition (subst; try discriminate; lia)).
  pose proof (hex_inj _ _ _ Hx Hx') as Q. pose proof (hex_inj _ _ _ Hy Hy') as R.
  split; [|reflexivity]. rewrite (N.div_mod' b 16), (N.div_mod' b' 16). congruence.
Qed.
Lemma shown_byte_nonnil raw b t : shown_byte raw b t -> t <> [].
Proof. intros H; destruct H; discriminate. Qed.
Lemma shown_inj raw s : forall s' t, shown raw s t -> shown raw s' t -> s = s'.
Proof.
  induction s as [|b s IH]; intros s' t (ps & H & E) (ps' & H' & E').
  - inversion H; subst. inversion H' as [|b' p' l l' Hb]; subst; [reflexivity|]. apply shown_byte_nonnil in Hb. cbn in E'. destruct p'; [congruence|discriminate].
  - inversion H as [|? p ? l Hb Hl]; subst. inversion H' as [|b' p' s2 l' Hb' Hl']; subst.
    + apply shown_byte_nonnil in Hb. cbn in E'. destruct p; [congruence|discriminate].
    + cbn in E'. destruct (shown_byte_prefix _ _ _ _ _ _ _ Hb Hb' E') as [-> Q]. f_equal. apply (IH s2 (concat l)); [exists l; auto|exists l'; auto].
Qed.
Lemma shown_fun raw s t t' : shown raw s t -> shown raw s t' -> t = t'.
Proof.
  intros (ps & H & ->) (ps' & H' & ->). f_equal. revert ps' H'. induction H as [|b p s ps Hb _ IH]; intros ps' H'; inversion H'; subst; [reflexivity|].
  f_equal; [eapply shown_byte_fun; eassumption|auto].
Qed.
Lemma shown_printable raw s t : shown raw s t -> Forall (fun c => printable c \/ raw = true /\ blank c) t.
Proof.
  intros (ps & H & ->). induction H as [|b p s ps Hb _ IH]; [constructor|]. cbn. apply Forall_app. split; [eapply shown_byte_printable; exact Hb|exact IH].
Qed.

(** escape is the identity exactly on plain characters and blanks *)
Lemma esc1_length ws b : (length (esc1 ws b) = 1 <-> plain b \/ ws = false /\ blank b) /\ 1 <= length (esc1 ws b).
Proof.
  unfold esc1. destruct (escape_byte_length b) as [H1 H2]. destruct ws; cbn [negb andb].
  - split; [|exact H2]. rewrite H1. intuition congruence.
  - destruct (is_ascii_ws b) eqn:Hw.
    + apply is_ascii_ws_iff in Hw. cbn [length]. split; [split; [intros _; right; auto|reflexivity]|lia].
    + assert (~ blank b) by (rewrite <- is_ascii_ws_iff; congruence). split; [|exact H2]. rewrite H1. split; [auto|intros [?|[_ ?]]; [assumption|contradiction]].
Qed.
Lemma esc1_id ws b : plain b \/ ws = false /\ blank b -> esc1 ws b = [b].
Proof.
  intros [H|[-> H]]; unfold esc1.
  - pose proof (escape_plain true [b] ltac:(constructor; [exact H|constructor])) as E. cbn in E. rewrite app_nil_r in E. rewrite E. destruct (_ && _); reflexivity.
  - apply is_ascii_ws_iff in H. rewrite H. reflexivity.
Qed.
Lemma escape_id_iff ws s : escape ws s = s <-> Forall (fun b => plain b \/ ws = false /\ blank b) s.
Proof.
  rewrite escape_map. split.
  - intros H. apply (f_equal (@length N)) in H. induction s as [|c s IH]; [constructor|]. cbn [map concat] in H. rewrite app_length in H. cbn [length] in H.
    destruct (esc1_length ws c) as [H1 H2].
    assert (H3 : length s <= length (concat (map (esc1 ws) s))).
    { clear. induction s as [|c s IH]; [cbn; lia|]. cbn [map concat]. rewrite app_length. cbn [length]. destruct (esc1_length ws c). lia. }
    constructor; [apply H1; lia|apply IH; lia].
  - induction 1 as [|c s Hc _ IH]; [reflexivity|]. cbn [map concat]. rewrite IH, esc1_id by exact Hc. reflexivity.
Qed.
(** [print] of a value that is not a histogram *)
Lemma runs_print_plain E inter s e w v s' r : evals E s e w (Ok v) -> (forall vec, v <> VArr vec true) ->
  (runs E inter s (SPrint e) s' r <-> exists t, print_text 0 (overflow_checks E) v = Ok t /\ do_write E (with_w s w) (t ++ nl) = (s', r)).
Proof.
  intros He Hv. assert (Ht : exists t, forall k, print_text k (overflow_checks E) v = Ok t).
  { destruct v as [| | |vec [|]| |]; try (eexists; intros k; reflexivity). elim (Hv vec eq_refl). }
  destruct Ht as [t Ht]. pose proof He as He0. destruct He as (_ & k0 & He). unfold runs. split.
  - intros (Hr & n & Hn). destruct n as [|n]; [cbn in Hn; congruence|]. cbn [eval_stmt] in Hn. unfold with_expr in Hn.
    destruct (eval_expr n E (e_vars s) (e_fs s) e (e_w s)) as [w1 r1] eqn:H1.
    destruct (Nat.le_ge_cases n k0) as [Hk|Hk].
    + assert (Hx : r1 <> Fuel -> w1 = w /\ r1 = Ok v) by (intros Q; apply (evals_fun E s e); [split; [exact Q|exists n; exact H1]|exact He0]).
      destruct r1 as [v1|e1|p1|]; try (destruct Hx as [Hx1 Hx2]; [discriminate|]; try discriminate Hx2).
      * injection Hx2 as ->. subst w1. rewrite Ht in Hn. exists t. rewrite Ht. auto.
      * cbn in Hn. injection Hn as <- <-. congruence.
    + apply (expr_up _ _ _ _ _ _ n) in He; [|discriminate|exact Hk]. rewrite He in H1. injection H1 as <- <-. rewrite Ht in Hn. exists t. rewrite Ht. auto.
  - intros (t' & H1 & H2). rewrite Ht in H1. injection H1 as ->. split.
    + unfold do_write in H2. destruct (sink _ _ _); injection H2 as <- <-; discriminate.
    + exists (S k0). cbn [eval_stmt]. unfold with_expr. rewrite He. rewrite Ht. exact H2.
Qed.

(** ** Lines *)
Lemma shown_bytes raw s t : shown raw s t -> Forall (fun b => (b < 256)%N) s.
Proof.
  intros (ps & H & _). induction H as [|b p s ps Hb _ IH]; [constructor|]. constructor; [|exact IH].
  destruct Hb as [b Hp|b Hr Hb|b Hb|Hr|Hr|Hr|b x y H1 H2 H3 Hx Hy]; try lia.
  - unfold plain in Hp. lia.
  - unfold blank in Hb. cbn in Hb. lia.
  - unfold hex in Hx. assert (N.to_nat (b / 16) < length (s_ "0123456789abcdef")) as Hl by (apply nth_error_Some; congruence). change (length (s_ "0123456789abcdef")) with 16 in Hl. pose proof (N.div_mod' b 16). pose proof (N.mod_lt b 16 ltac:(lia)). lia.
Qed.
Lemma shown_escape ws s t : shown (negb ws) s t -> t = escape ws s.
Proof. intros H. eapply shown_fun; [exact H|]. apply bytes_shown. eapply shown_bytes; exact H. Qed.

Definition ends_cr (l : str) : Prop := exists l', l = l' ++ [13%N].
Definition line_ok (l : str) : Prop := ~ In 10%N l /\ ~ ends_cr l.
Definition no_cr (cur : str) : str := match cur with 13%N :: c => rev c | _ => rev cur end.
Lemma no_cr_other cur : (forall c, cur <> 13%N :: c) -> no_cr cur = rev cur.
Proof.
  intros H. destruct cur as [|c t]; [reflexivity|]. specialize (H t). unfold no_cr. destruct c as [|[p|p|]]; try reflexivity. destruct p as [p|p|]; try reflexivity. destruct p as [p|p|]; try reflexivity. destruct p as [p|p|]; try reflexivity. congruence.
Qed.
Lemma lines_from_nl l r : forall cur, ~ In 10%N l -> lines_from cur (l ++ 10%N :: r) = no_cr (rev l ++ cur) :: lines_from [] r.
Proof.
  induction l as [|c l IH]; intros cur H; cbn [app rev].
  - reflexivity.
  - cbn [lines_from]. destruct (N.eqb_spec c 10) as [->|Hc]; [elim H; left; reflexivity|].
    rewrite IH by (intros Hi; apply H; right; exact Hi). rewrite <- app_assoc. reflexivity.
Qed.
Lemma lines_from_end l : forall cur, ~ In 10%N l -> l ++ cur <> [] -> lines_from cur l = [rev cur ++ l].
Proof.
  induction l as [|c l IH]; intros cur H N; cbn [lines_from].
  - destruct cur; [elim N; reflexivity|]. rewrite app_nil_r. reflexivity.
  - destruct (N.eqb_spec c 10) as [->|Hc]; [elim H; left; reflexivity|]. rewrite IH.
    + cbn [rev]. rewrite <- app_assoc. reflexivity.
    + intros Hi; apply H; right; exact Hi.
    + intros Q. apply app_eq_nil in Q. destruct Q as [_ Q]. discriminate.
Qed.
Lemma lines_line l r : line_ok l -> lines (l ++ 10%N :: r) = l :: lines r.
Proof.
  intros [H1 H2]. unfold lines. rewrite lines_from_nl by exact H1. rewrite app_nil_r. f_equal.
  rewrite no_cr_other, rev_involutive; [reflexivity|]. intros c Q. apply H2. exists (rev c). rewrite <- (rev_involutive l), Q. reflexivity.
Qed.
Lemma lines_comma ls : ls <> [] -> Forall line_ok ls -> lines (join ls ++ s_ ",") = with_comma ls.
Proof.
  intros N H. induction H as [|l ls Hl Hs IH]; [congruence|]. destruct ls as [|l2 ls].
  - cbn [join with_comma]. unfold lines. rewrite lines_from_end; [reflexivity| |].
    + rewrite in_app_iff. cbn. intros [Q|[Q|[]]]; [apply (proj1 Hl Q)|discriminate].
    + rewrite app_nil_r. intros Q. apply app_eq_nil in Q. destruct Q as [_ Q]. discriminate.
  - change (join (l :: l2 :: ls)) with (l ++ [10%N] ++ join (l2 :: ls)). change (with_comma (l :: l2 :: ls)) with (l :: with_comma (l2 :: ls)).
    rewrite <- !app_assoc. cbn [app]. rewrite lines_line by exact Hl. rewrite IH by discriminate. reflexivity.
Qed.
Lemma with_comma_nonnil ls : ls <> [] -> with_comma ls <> [].
Proof. destruct ls as [|l [|]]; cbn; congruence. Qed.
Lemma line_ok_app p l : ~ In 10%N p -> l <> [] -> line_ok l -> line_ok (p ++ l).
Proof.
  intros Hp Hl [H1 H2]. split; [rewrite in_app_iff; tauto|]. intros (l' & E). apply H2.
  destruct l as [|c l _] using rev_ind; [congruence|]. rewrite app_assoc in E. apply app_inj_tail in E. destruct E as [_ ->]. exists l. reflexivity.
Qed.
Definition good_lines (ls : list str) : Prop := Forall (fun l => line_ok l /\ l <> []) ls.
Lemma line_ok_snoc l c : ~ In 10%N l -> c <> 10%N -> c <> 13%N -> line_ok (l ++ [c]).
Proof.
  intros H1 H2 H3. split; [rewrite in_app_iff; cbn; intros [Q|[Q|[]]]; [apply H1, Q|congruence]|].
  intros (l' & E). apply app_inj_tail in E. destruct E as [_ E]. congruence.
Qed.
Lemma with_comma_good ls : Forall line_ok ls -> Forall (fun l => l <> []) (removelast ls) -> good_lines (with_comma ls).
Proof.
  unfold good_lines. intros H. induction H as [|l ls Hl Hs IH]; intros H2; [constructor|]. destruct ls as [|l2 ls].
  - cbn. constructor; [|constructor]. split; [apply line_ok_snoc; [apply Hl|discriminate|discriminate]|]. intros Q. apply app_eq_nil in Q. destruct Q as [_ Q]. discriminate.
  - change (with_comma (l :: l2 :: ls)) with (l :: with_comma (l2 :: ls)). change (removelast (l :: l2 :: ls)) with (l :: removelast (l2 :: ls)) in H2. inversion_clear H2. constructor; auto.
Qed.
Lemma join_mid a mid z : join ([a] ++ mid ++ [z]) = a ++ nl ++ flat_map (fun l => l ++ nl) mid ++ z.
Proof.
  cbn [app]. revert a. induction mid as [|m mid IH]; intros a; cbn [app flat_map].
  - reflexivity.
  - change (join (a :: m :: mid ++ [z])) with (a ++ nl ++ join (m :: mid ++ [z])). rewrite IH. rewrite <- !app_assoc. reflexivity.
Qed.
Lemma flat_map_lines ls : flat_map (fun l => indent ++ l ++ nl) ls = flat_map (fun l => l ++ nl) (map (app tab4) ls).
Proof. induction ls as [|l ls IH]; [reflexivity|]. cbn [flat_map map]. rewrite IH, <- !app_assoc. reflexivity. Qed.
Lemma flat_map_concat {A B} (f : A -> list B) ls : flat_map f (concat ls) = flat_map (flat_map f) ls.
Proof. induction ls as [|l ls IH]; [reflexivity|]. cbn. rewrite flat_map_app, IH. reflexivity. Qed.
Lemma indent_good ls : good_lines ls -> good_lines (map (app tab4) ls).
Proof.
  intros H. induction H as [|l ls [H1 H2] _ IH]; [constructor|]. cbn [map]. constructor; [|exact IH]. split; [|discriminate].
  apply line_ok_app; [|exact H2|exact H1]. cbn. intros Q. intuition discriminate.
Qed.
Lemma good_concat lss : Forall good_lines lss -> good_lines (concat lss).
Proof. induction 1 as [|l ls H _ IH]; [constructor|]. cbn. apply Forall_app. split; assumption. Qed.
Lemma not_in_10 l : existsb (N.eqb 10) l = false -> ~ In 10%N l.
Proof. intros H Q. assert (existsb (N.eqb 10) l = true) by (apply existsb_exists; exists 10%N; split; [exact Q|reflexivity]). congruence. Qed.
Lemma digits_ok l : Forall decimal l -> l <> [] -> line_ok l.
Proof.
  intros H N. destruct l as [|c l _] using rev_ind; [congruence|]. apply Forall_app in H. destruct H as [H1 H2]. inversion_clear H2. unfold decimal in *.
  apply line_ok_snoc; [|intros ->; lia|intros ->; lia]. intros Q. rewrite Forall_forall in H1. specialize (H1 _ Q). lia.
Qed.
Lemma names_arr vs h : names_ok (VArr vs h) <-> Forall names_ok vs.
Proof. cbn. induction vs as [|v vs IH]; [split; [constructor|exact (fun _ => I)]|]. rewrite IH. split; [intros [H1 H2]; constructor; assumption|intros H; inversion_clear H; auto]. Qed.
Lemma names_struct n k fs : names_ok (VStruct n k fs) <-> ~ In 10%N n /\ Forall (fun f => ~ In 10%N (fst f) /\ names_ok (snd f)) fs.
Proof.
  cbn. assert (H : forall fs, (fix all (l : list (str * value)) := match l with [] => True | x :: l' => (~ In 10%N (fst x) /\ names_ok (snd x)) /\ all l' end) fs <-> Forall (fun f => ~ In 10%N (fst f) /\ names_ok (snd f)) fs).
  { clear. induction fs as [|f fs IH]; [split; [constructor|exact (fun _ => I)]|]. rewrite IH. split; [intros [H1 H2]; constructor; assumption|intros H; inversion_clear H; auto]. }
  rewrite H. reflexivity.
Qed.

(** lines of a displayed value: at least one; only the last may be empty *)
Definition block (ls : list str) : Prop := ls <> [] /\ Forall line_ok ls /\ Forall (fun l => l <> []) (removelast ls).
Lemma block_of a mid z : line_ok a -> a <> [] -> good_lines mid -> line_ok z -> block ([a] ++ mid ++ [z]).
Proof.
  intros H1 H2 H3 H4. split; [discriminate|]. split.
  - constructor; [exact H1|]. apply Forall_app. split; [eapply Forall_impl; [|exact H3]; cbn; tauto|constructor; [exact H4|constructor]].
  - rewrite app_assoc, removelast_last. constructor; [exact H2|]. eapply Forall_impl; [|exact H3]. cbn. tauto.
Qed.
Lemma block_one t : line_ok t -> block [t].
Proof. intros H. split; [discriminate|]. split; [constructor; [exact H|constructor]|constructor]. Qed.
Lemma numeral_dec t z : numeral t z -> t <> [] -> (forall u, t = 48%N :: u -> u = []) -> t = dec_Z z.
Proof.
  intros H N C. unfold dec_Z. pose proof (numeral_nonneg _ _ H) as P. rewrite (proj2 (Z.ltb_ge z 0)) by exact P.
  apply (numeral_unique t _ z H); [|split; assumption|split; [apply dec_N_nonempty|apply dec_N_canonical]].
  pose proof (dec_N_numeral (Z.to_N z)) as Q. rewrite Z2N.id in Q by exact P. exact Q.
Qed.
Lemma numeral_nonnil t z : numeral t z -> (0 < z)%Z -> t <> [].
Proof. intros H P ->. pose proof (numeral_fun _ _ _ H num_nil). lia. Qed.
Lemma dec_Z_neg z : (z < 0)%Z -> dec_Z z = s_ "-" ++ dec_N (Z.to_N (- z)).
Proof. intros H. unfold dec_Z. rewrite (proj2 (Z.ltb_lt z 0)) by exact H. reflexivity. Qed.
Lemma printable_line t : Forall (fun c => printable c \/ false = true /\ blank c) t -> line_ok t.
Proof.
  unfold printable. intros H. split.
  - intros Q. rewrite Forall_forall in H. destruct (H _ Q) as [P|[P _]]; [lia|discriminate].
  - intros (t' & ->). apply Forall_app in H. destruct H as [_ H]. inversion_clear H. destruct H0 as [P|[P _]]; [lia|discriminate].
Qed.

Lemma shown_lines_display v : forall ls, shown_lines v ls -> names_ok v -> display v = join ls /\ block ls.
Proof.
  induction v as [z|s|b|vs h IH|f|n k fs IH] using value_ind'; intros ls H Hn.
  - inversion H as [z' t H1 H2 H3 H4|z' t H1 H2 H3| | | | |]; subst.
    + split; [cbn; symmetry; apply numeral_dec; assumption|]. apply block_one. apply digits_ok; [eapply numeral_digits; exact H2|exact H3].
    + assert (N : t <> []) by (eapply numeral_nonnil; [exact H2|lia]). split.
      * cbn [display join]. rewrite dec_Z_neg by exact H1. f_equal. rewrite (numeral_dec _ _ H2 N) by (intros u E; elim (H3 u E)). unfold dec_Z. rewrite (proj2 (Z.ltb_ge (- z) 0)) by lia. reflexivity.
      * apply block_one. apply line_ok_app; [apply not_in_10; reflexivity|exact N|]. apply digits_ok; [eapply numeral_digits; exact H2|exact N].
  - inversion H as [| |s' t H1| | | |]; subst. split; [cbn; symmetry; apply (shown_escape true); exact H1|]. apply block_one, printable_line. eapply shown_printable; exact H1.
  - inversion H; subst. split; [destruct b; reflexivity|]. apply block_one. destruct b; [apply (line_ok_snoc (s_ "tru"))|apply (line_ok_snoc (s_ "fals"))]; (apply not_in_10; reflexivity) || discriminate.
  - inversion H as [| | | | |vs' h' ls' H1|]; subst. apply names_arr in Hn.
    set (tx := map (fun l => map (app tab4) (with_comma l)) ls').
    assert (Q : flat_map (fun x => flat_map (fun l => indent ++ l ++ nl) (lines (display x ++ s_ ","))) vs = flat_map (flat_map (fun l => l ++ nl)) tx /\ Forall good_lines tx).
    { subst tx. clear H. revert vs IH Hn H1. induction ls' as [|l ls' IHl]; intros vs IH Hn H1; inversion H1 as [|v ? vs2 ? Hv Hvs]; subst; [split; [reflexivity|constructor]|].
      inversion_clear IH as [|? ? Iv Ivs]. inversion_clear Hn as [|? ? Nv Nvs]. destruct (IHl _ Ivs Nvs Hvs) as [E1 E2]. destruct (Iv _ Hv Nv) as [D (B1 & B2 & B3)].
      cbn [flat_map map]. rewrite E1, D, lines_comma by assumption. rewrite flat_map_lines. split; [reflexivity|]. constructor; [|exact E2]. apply indent_good, with_comma_good; assumption. }
    destruct Q as [Q1 Q2]. split.
    + rewrite join_mid, flat_map_concat. cbn [display]. rewrite Q1, <- ?app_assoc. reflexivity.
    + apply block_of; [apply (line_ok_snoc []); [exact (fun x => x)|discriminate|discriminate]|discriminate|apply good_concat; exact Q2|apply (line_ok_snoc []); [exact (fun x => x)|discriminate|discriminate]].
  - inversion H; subst. split; [reflexivity|]. apply block_one. apply line_ok_app; [destruct f; apply not_in_10; reflexivity|discriminate|]. apply (line_ok_snoc (s_ "(")); [apply not_in_10; reflexivity|discriminate|discriminate].
  - inversion H as [| | | | | |n' k' fs' ls' H1]; subst. apply names_struct in Hn. destruct Hn as [Nn Hn].
    set (tx := map (map (app tab4)) ls').
    assert (Q : flat_map (fun f =>
         match lines (display (snd f) ++ s_ ",") with
         | [] => []
         | l :: ls => indent ++ s_ "." ++ fst f ++ s_ " = " ++ l ++ nl
                      ++ flat_map (fun l => indent ++ l ++ nl) ls
         end) fs = flat_map (flat_map (fun l => l ++ nl)) tx /\ Forall good_lines tx).
    { subst tx. clear H. revert fs IH Hn H1. induction ls' as [|l ls' IHl]; intros fs IH Hn H1; inversion H1 as [|f ? fs2 ? Hf Hfs]; subst; [split; [reflexivity|constructor]|].
      inversion_clear IH as [|? ? Iv Ivs]. inversion_clear Hn as [|? ? Nv Nvs]. destruct (IHl _ Ivs Nvs Hfs) as [E1 E2]. destruct Hf as (l' & Hl & ->). destruct Nv as [Nf Nv]. destruct (Iv _ Hl Nv) as [D (B1 & B2 & B3)].
      pose proof (with_comma_good _ B2 B3) as G. pose proof (with_comma_nonnil _ B1) as NN.
      cbn [flat_map map]. rewrite E1. assert (D2 : display (@snd (list N) value f) = join l') by exact D. rewrite D2, lines_comma by assumption. destruct (with_comma l') as [|c cs]; [congruence|]. cbn [with_prefix map flat_map]. rewrite flat_map_lines, <- !app_assoc. split; [reflexivity|].
      constructor; [|exact E2]. inversion_clear G as [|? ? [G1 G2] G3]. apply (indent_good (_ :: cs)). constructor; [|exact G3]. split; [|discriminate].
      rewrite !app_assoc. apply line_ok_app; [|exact G2|exact G1]. rewrite !in_app_iff. intros [[Q|Q]|Q]; [|exact (Nf Q)|]; cbn in Q; intuition discriminate. }
    destruct Q as [Q1 Q2]. split.
    + rewrite join_mid, flat_map_concat. cbn [display]. rewrite Q1, <- ?app_assoc. reflexivity.
    + apply block_of; [|discriminate|apply good_concat; exact Q2|apply (line_ok_snoc []); [exact (fun x => x)|discriminate|discriminate]].
      change (s_ " {") with (s_ " " ++ [123%N]). rewrite !app_assoc. apply line_ok_snoc; [|discriminate|discriminate]. rewrite !in_app_iff. intros [[Q|Q]|Q]; [|exact (Nn Q)|]; cbn in Q; intuition discriminate.
Qed.
Lemma shown_lines_total v : str_bytes v -> exists ls, shown_lines v ls.
Proof.
  induction v as [z|s|b|vs h IH|f|n k fs IH] using value_ind'; intros H.
  - destruct (Z.lt_ge_cases z 0) as [Hz|Hz].
    + eexists. apply (sl_neg _ (dec_N (Z.to_N (- z)))); [exact Hz| |].
      * pose proof (dec_N_numeral (Z.to_N (- z))) as Q. rewrite Z2N.id in Q by lia. exact Q.
      * intros u E. pose proof (dec_N_numeral (Z.to_N (- z))) as Q. rewrite E in Q. rewrite (dec_N_canonical _ _ E) in Q. rewrite Z2N.id in Q by lia. pose proof (numeral_fun _ _ _ Q (num_snoc [] 0 48%N num_nil ltac:(unfold decimal; lia))). cbn in *. lia.
    + eexists. apply (sl_int _ (dec_N (Z.to_N z))); [lia| |apply dec_N_nonempty|apply dec_N_canonical].
      pose proof (dec_N_numeral (Z.to_N z)) as Q. rewrite Z2N.id in Q by lia. exact Q.
  - eexists. apply sl_str. apply (bytes_shown true). exact H.
  - eexists. apply sl_bool.
  - cbn in H. assert (exists ls, Forall2 shown_lines vs ls) as [ls Hl].
    { revert H. induction IH as [|v vs Hv _ IHs]; intros H; [exists []; constructor|]. destruct H as [H1 H2]. destruct (Hv H1) as [l ?], (IHs H2) as [ls ?]. exists (l :: ls). constructor; assumption. }
    eexists. apply sl_arr. exact Hl.
  - eexists. apply sl_fun.
  - cbn in H. assert (exists ls, Forall2 (fun f l => exists l', shown_lines (snd f) l' /\ l = with_prefix (s_ "." ++ fst f ++ s_ " = ") (with_comma l')) fs ls) as [ls Hl].
    { revert H. induction IH as [|v vs Hv _ IHs]; intros H; [exists []; constructor|]. destruct H as [H1 H2]. destruct (Hv H1) as [l ?], (IHs H2) as [ls ?]. eexists (_ :: ls). constructor; [eexists; split; [eassumption|reflexivity]|assumption]. }
    eexists. apply sl_struct. exact Hl.
Qed.
