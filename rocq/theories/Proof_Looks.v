(** Proofs for C88. *)
From Verif Require Import Base Ast Value Spec_Grammar Spec_Fs Spec_Text Spec_Output Spec_Looks Lib Proof_Text Proof_Fs Proof_Display Proof_Output.
Require Import Lia.
Arguments s_ s%string_scope.

(** ** Joining lines is injective *)
Lemma nl_split (a b u v : str) : ~ In 10%N a -> ~ In 10%N b -> a ++ 10%N :: u = b ++ 10%N :: v -> a = b /\ u = v.
Proof.
  revert b. induction a as [|x a IH]; intros [|y b] Ha Hb E; cbn in E.
  - injection E as ->. auto.
  - injection E as <- _. exfalso. apply Hb. left. reflexivity.
  - injection E as -> _. exfalso. apply Ha. left. reflexivity.
  - injection E as -> E. destruct (IH b) as [-> ->]; auto; intro Q; [apply Ha|apply Hb]; right; exact Q.
Qed.
Lemma join_inj ls : forall ls', ls <> [] -> ls' <> [] -> Forall (fun l => ~ In 10%N l) ls -> Forall (fun l => ~ In 10%N l) ls' -> join ls = join ls' -> ls = ls'.
Proof.
  induction ls as [|a ls IH]; intros [|b ls'] N N' H H' E; try (exfalso; apply N; reflexivity); try (exfalso; apply N'; reflexivity). clear N N'. inversion H; inversion H'; subst.
  destruct ls as [|a' ls]; destruct ls' as [|b' ls'].
  - cbn in E. congruence.
  - change (a = b ++ 10%N :: join (b' :: ls')) in E. exfalso. subst a. apply H2. apply in_or_app. right. left. reflexivity.
  - change (a ++ 10%N :: join (a' :: ls) = b) in E. exfalso. subst b. apply H6. apply in_or_app. right. left. reflexivity.
  - change (a ++ 10%N :: join (a' :: ls) = b ++ 10%N :: join (b' :: ls')) in E. apply nl_split in E; auto. destruct E as [-> E]. f_equal. apply IH; auto; discriminate.
Qed.

(** ** Splitting a list of lines into the elements it shows *)
Definition chunk (L : list str) : Prop :=
  (exists x, L = [x ++ s_ ","]) \/
  exists o m c, L = o :: map (app tab4) m ++ [c] /\ (forall x, o <> x ++ s_ ",") /\ (forall x, c <> tab4 ++ x).
Lemma inner_split m : forall m' (c c' : str) R R', (forall x, c <> tab4 ++ x) -> (forall x, c' <> tab4 ++ x) ->
  map (app tab4) m ++ c :: R = map (app tab4) m' ++ c' :: R' -> m = m' /\ c = c' /\ R = R'.
Proof.
  induction m as [|a m IH]; intros [|b m'] c c' R R' H H' E; cbn [map] in E; rewrite <- ?app_comm_cons in E; cbn [Datatypes.app] in E.
  - injection E as -> ->. auto.
  - exfalso. injection E as E _. apply (H b). rewrite E. reflexivity.
  - exfalso. injection E as E _. apply (H' a). rewrite <- E. reflexivity.
  - injection E as E1 E. subst b. destruct (IH m' c c' R R' H H' E) as (-> & -> & ->). auto.
Qed.
Lemma chunk_split L L' R R' : chunk L -> chunk L' -> L ++ R = L' ++ R' -> L = L' /\ R = R'.
Proof.
  intros [(x & ->)|(o & m & c & -> & Ho & Hc)] [(x' & ->)|(o' & m' & c' & -> & Ho' & Hc')] E; cbn [Datatypes.app] in E; injection E as E1 E.
  - rewrite E1, E. auto.
  - exfalso. apply (Ho' x). congruence.
  - exfalso. apply (Ho x'). congruence.
  - rewrite <- !app_assoc in E. cbn [Datatypes.app] in E. apply inner_split in E; auto. destruct E as (-> & -> & ->). rewrite E1. auto.
Qed.
Lemma chunk_nonnil L : chunk L -> L <> [].
Proof. intros [(x & ->)|(o & m & c & -> & _)]; discriminate. Qed.
Lemma chunks_inj Ls : forall Ls', Forall chunk Ls -> Forall chunk Ls' -> concat Ls = concat Ls' -> Ls = Ls'.
Proof.
  induction Ls as [|L Ls IH]; intros [|L' Ls'] H H' E; auto; inversion H; inversion H'; subst; cbn in E.
  - symmetry in E. apply app_eq_nil in E. destruct E as [E _]. subst. match goal with Q : chunk [] |- _ => apply chunk_nonnil in Q; contradiction end.
  - apply app_eq_nil in E. destruct E as [E _]. subst. match goal with Q : chunk [] |- _ => apply chunk_nonnil in Q; contradiction end.
  - apply chunk_split in E; auto. destruct E as [-> E]. f_equal. auto.
Qed.
Lemma map_inj {A B} (f : A -> B) l : (forall a b, f a = f b -> a = b) -> forall l', map f l = map f l' -> l = l'.
Proof. intros H. induction l as [|a l IH]; intros [|b l'] E; cbn in E; try discriminate; auto. injection E as E1 E. f_equal; auto. Qed.
Lemma with_comma_snoc m (c : str) : with_comma (m ++ [c]) = m ++ [c ++ s_ ","].
Proof. induction m as [|a m IH]; [reflexivity|]. cbn [Datatypes.app]. rewrite <- IH. destruct m; reflexivity. Qed.
Lemma with_comma_inj ls : forall ls', with_comma ls = with_comma ls' -> ls = ls'.
Proof.
  intros ls'. destruct ls as [|a ls _] using rev_ind; destruct ls' as [|b ls' _] using rev_ind; auto; rewrite ?with_comma_snoc; cbn [with_comma]; intros E.
  - symmetry in E. apply app_eq_nil in E. destruct E; discriminate.
  - apply app_eq_nil in E. destruct E; discriminate.
  - apply app_inj_tail in E. destruct E as [-> E]. apply app_inv_tail in E. subst. reflexivity.
Qed.

(** the last character *)
Lemma last_ne (o : str) (a : N) x : a <> 44%N -> o ++ [a] <> x ++ s_ ",".
Proof. intros H E. change (s_ ",") with [44%N] in E. apply app_inj_tail in E. destruct E. auto. Qed.
(** ** Lines of a value *)
Lemma lines_shape v ls : shown_lines v ls ->
  (exists x, ls = [x]) \/
  exists o a m c, ls = (o ++ [a]) :: map (app tab4) m ++ [[c]] /\ a <> 44%N /\ c <> 32%N.
Proof.
  intros H. destruct H; try (left; eexists; reflexivity).
  - right. exists [], 91%N, (concat (map with_comma ls)), 93%N. split; [|split; discriminate].
    rewrite concat_map, map_map. reflexivity.
  - right. exists (s_ "struct " ++ n ++ s_ " "), 123%N, (concat ls), 125%N. split; [|split; discriminate].
    rewrite concat_map. rewrite <- !app_assoc. reflexivity.
Qed.
Lemma comma_chunk v ls : shown_lines v ls -> chunk (with_comma ls).
Proof.
  intros H. destruct (lines_shape _ _ H) as [(x & ->)|(o & a & m & c & -> & Ha & Hc)]; [left; eexists; reflexivity|right].
  exists (o ++ [a]), m, ([c] ++ s_ ","). split; [|split].
  - rewrite app_comm_cons, with_comma_snoc. reflexivity.
  - intros x. apply last_ne. exact Ha.
  - intros x E. injection E as E _. auto.
Qed.
Lemma prefix_chunk p v ls : shown_lines v ls -> chunk (with_prefix p (with_comma ls)).
Proof.
  intros H. destruct (lines_shape _ _ H) as [(x & ->)|(o & a & m & c & -> & Ha & Hc)]; [left; exists (p ++ x); cbn; rewrite app_assoc; reflexivity|right].
  exists (p ++ o ++ [a]), m, ([c] ++ s_ ","). split; [|split].
  - rewrite app_comm_cons, with_comma_snoc. reflexivity.
  - intros x. rewrite app_assoc. apply last_ne. exact Ha.
  - intros x E. injection E as E _. auto.
Qed.

(** ** Names *)
Lemma name_split (n n' u v : str) : Forall visible n -> Forall visible n' -> n ++ 32%N :: u = n' ++ 32%N :: v -> n = n' /\ u = v.
Proof.
  revert n'. induction n as [|a n IH]; intros [|b n'] H H' E; cbn in E.
  - injection E as ->. auto.
  - injection E as <- _. inversion H'; subst. unfold visible in *. lia.
  - injection E as -> _. inversion H; subst. unfold visible in *. lia.
  - injection E as -> E. inversion H; inversion H'; subst. destruct (IH n') as [-> ->]; auto.
Qed.
Lemma prefix_inj n n' (l l' : list str) : l <> [] -> l' <> [] -> Forall visible n -> Forall visible n' ->
  with_prefix (s_ "." ++ n ++ s_ " = ") l = with_prefix (s_ "." ++ n' ++ s_ " = ") l' -> n = n' /\ l = l'.
Proof.
  intros N N' H H' E. destruct l as [|a l]; [congruence|]. destruct l' as [|a' l']; [congruence|]. cbn [with_prefix] in E. injection E as E1 E2. subst l'.
  rewrite <- !app_assoc in E1. change (s_ " = " ++ a) with (32%N :: 61%N :: 32%N :: a) in E1. change (s_ " = " ++ a') with (32%N :: 61%N :: 32%N :: a') in E1.
  apply name_split in E1; auto. destruct E1 as [-> E1]. injection E1 as ->. auto.
Qed.

(** ** Leaves *)
Definition plainb (t : str) : bool := forallb (fun c => (32 <=? c)%N && (c <=? 126)%N && negb (c =? 34)%N && negb (c =? 39)%N && negb (c =? 92)%N) t.
Lemma plainb_ok t : plainb t = true -> Forall plain t.
Proof.
  unfold plainb. rewrite forallb_forall. intros H. apply Forall_forall. intros c Hc. specialize (H c Hc). unfold plain.
  repeat (apply andb_prop in H; destruct H as [H ?]). rewrite negb_true_iff in *. rewrite N.leb_le in *. rewrite N.eqb_neq in *. auto.
Qed.
Lemma digits_plain t : Forall decimal t -> Forall plain t.
Proof. apply Forall_impl. unfold decimal, plain. intros. lia. Qed.
Lemma dec_Z_plain z : Forall plain (dec_Z z).
Proof.
  destruct (Z.neg_nonneg_cases z) as [H|H].
  - rewrite dec_Z_neg by exact H. change (Forall plain (45%N :: dec_N (Z.to_N (- z)))). constructor; [unfold plain; lia|]. apply digits_plain, dec_N_digits.
  - assert (dec_Z z = dec_N (Z.to_N z)) as -> by (destruct z; try reflexivity; lia). apply digits_plain, dec_N_digits.
Qed.
Lemma dec_Z_head z : exists c t, dec_Z z = c :: t /\ (c < 58)%N.
Proof.
  destruct (Z.neg_nonneg_cases z) as [H|H].
  - rewrite dec_Z_neg by exact H. exists 45%N. eexists. split; [reflexivity|lia].
  - assert (dec_Z z = dec_N (Z.to_N z)) as -> by (destruct z; try reflexivity; lia).
    pose proof (dec_N_digits (Z.to_N z)) as D. pose proof (dec_N_nonempty (Z.to_N z)) as N. destruct (dec_N _) as [|c t]; [congruence|]. exists c, t. split; [reflexivity|]. inversion D; subst. unfold decimal in *. lia.
Qed.
(** the text of a leaf that is no string *)
Lemma leaf_display v x : shown_lines v [x] -> textual v -> display v = x.
Proof. intros H T. destruct (shown_lines_display v [x] H (proj1 (textual_names v T))) as [E _]. exact E. Qed.
Lemma shown_self t : Forall plain t -> shown false t t.
Proof.
  intros H. exists (map (fun b => [b]) t). split.
  - induction H; cbn; constructor; auto. constructor; assumption.
  - clear H. induction t; cbn; congruence.
Qed.
Lemma func_eqb f g : func_name f ++ s_ "()" = func_name g ++ s_ "()" -> f = g.
Proof. destruct f, g; cbv; intros; congruence. Qed.
Inductive leaf : value -> Prop := lf_int z : leaf (VInt z) | lf_bool b : leaf (VBool b) | lf_fun f : leaf (VFun f) | lf_str s : leaf (VStr s).
Lemma one_line_leaf v x : shown_lines v [x] -> leaf v.
Proof. intros H. inversion H; subst; try constructor; destruct (concat _); discriminate. Qed.
Lemma nonstr_plain v x : (forall s, v <> VStr s) -> shown_lines v [x] -> Forall plain x.
Proof.
  intros N H. pose proof (one_line_leaf _ _ H) as L. assert (T : textual v) by (destruct L; try constructor; exfalso; eapply N; reflexivity).
  rewrite <- (leaf_display _ _ H T). destruct L as [z|b|f|s]; cbn [display].
  - apply dec_Z_plain.
  - destruct b; apply plainb_ok; reflexivity.
  - destruct f; apply plainb_ok; reflexivity.
  - exfalso. eapply N. reflexivity.
Qed.
Lemma leaf_one_line v ls : leaf v -> shown_lines v ls -> exists x, ls = [x].
Proof. intros L H. destruct L; inversion H; subst; eexists; reflexivity. Qed.
Lemma str_eq v : {s | v = VStr s} + {forall s, v <> VStr s}.
Proof. destruct v; try (right; intros; discriminate). left. eexists. reflexivity. Qed.
Lemma str_line s x : shown_lines (VStr s) [x] -> shown false s x.
Proof. intros H. inversion H. subst. assumption. Qed.
Lemma leaves_alike v v' x : shown_lines v [x] -> shown_lines v' [x] -> textual v -> textual v' -> looks_alike v v'.
Proof.
  intros H H' T T'. destruct (str_eq v) as [[s ->]|N], (str_eq v') as [[s' ->]|N'].
  - rewrite (shown_inj _ _ _ _ (str_line _ _ H) (str_line _ _ H')). constructor.
  - pose proof (nonstr_plain _ _ N' H') as P. rewrite (shown_inj _ _ _ _ (str_line _ _ H) (shown_self _ P)). apply la_spells; assumption.
  - pose proof (nonstr_plain _ _ N H) as P. rewrite (shown_inj _ _ _ _ (str_line _ _ H') (shown_self _ P)). apply la_spelt; assumption.
  - pose proof (leaf_display _ _ H T) as D. pose proof (leaf_display _ _ H' T') as D'. rewrite <- D' in D. clear D'.
    pose proof (one_line_leaf _ _ H) as L. pose proof (one_line_leaf _ _ H') as L'.
    destruct L as [z|b|f|s], L' as [z'|b'|f'|s']; try (exfalso; eapply N; reflexivity); try (exfalso; eapply N'; reflexivity); cbn [display] in D.
    + rewrite (dec_Z_inj _ _ D). constructor.
    + destruct (dec_Z_head z) as (c & t & E & Hc). rewrite E in D. destruct b'; injection D as -> _; lia.
    + destruct (dec_Z_head z) as (c & t & E & Hc). rewrite E in D. destruct f'; injection D as -> _; lia.
    + destruct (dec_Z_head z') as (c & t & E & Hc). rewrite E in D. destruct b; injection D as <- _; lia.
    + destruct b, b'; try discriminate D; constructor.
    + destruct b, f'; discriminate D.
    + destruct (dec_Z_head z') as (c & t & E & Hc). rewrite E in D. destruct f; injection D as <- _; lia.
    + destruct b', f; discriminate D.
    + rewrite (func_eqb _ _ D). constructor.
Qed.

(** ** All values *)
Lemma container_two v ls : ~ leaf v -> shown_lines v ls -> forall x, ls <> [x].
Proof. intros N H x ->. apply N. eapply one_line_leaf; eauto. Qed.
Lemma F2_forall_r {A B} (R : A -> B -> Prop) (Q : B -> Prop) l l' : Forall2 R l l' -> (forall a b, In a l -> R a b -> Q b) -> Forall Q l'.
Proof. induction 1; intros K; constructor; [eapply K; [left; reflexivity|eassumption]|apply IHForall2; intros; eapply K; [right|]; eassumption]. Qed.
Lemma arr_lines vs h ls : shown_lines (VArr vs h) ls -> exists L, Forall2 shown_lines vs L /\ ls = s_ "[" :: map (app tab4) (concat (map with_comma L)) ++ [s_ "]"].
Proof. intros H. inversion H as [| | | | |? ? L F|]. subst. exists L. split; [exact F|]. rewrite concat_map, map_map. reflexivity. Qed.
Lemma struct_lines n k fs ls : shown_lines (VStruct n k fs) ls ->
  exists L, Forall2 (fun f l => shown_lines (snd f) l) fs L /\
    ls = (s_ "struct " ++ n ++ s_ " {") :: map (app tab4) (concat (map (fun p => with_prefix (s_ "." ++ fst (fst p) ++ s_ " = ") (with_comma (snd p))) (combine fs L))) ++ [s_ "}"].
Proof.
  intros H. inversion H as [| | | | | |? ? ? L F]. subst. clear H.
  assert (exists L', Forall2 (fun f l => shown_lines (snd f) l) fs L' /\ L = map (fun p => with_prefix (s_ "." ++ fst (fst p) ++ s_ " = ") (with_comma (snd p))) (combine fs L')) as (L' & F' & ->).
  { induction F as [|f l fs L (l' & Hl & ->) F (L' & F' & ->)]; [exists []; split; constructor|].
    exists (l' :: L'). split; [constructor; assumption|reflexivity]. }
  exists L'. split; [exact F'|]. rewrite concat_map. reflexivity.
Qed.
Lemma struct_field_chunks fs L : Forall2 (fun (f : str * value) l => shown_lines (snd f) l) fs L ->
  Forall chunk (map (fun p => with_prefix (s_ "." ++ fst (fst p) ++ s_ " = ") (with_comma (snd p))) (combine fs L)).
Proof. induction 1; cbn; constructor; auto. eapply prefix_chunk. eassumption. Qed.
Lemma arr_not_leaf vs h ls : shown_lines (VArr vs h) ls -> forall v', shown_lines v' ls -> exists vs' h', v' = VArr vs' h'.
Proof.
  intros H v' H'. destruct (arr_lines _ _ _ H) as (L & _ & ->). destruct v' as [z|s|b|vs' h'|f|n k fs]; eauto; exfalso.
  1,2,3,4: (match type of H' with shown_lines ?a _ => assert (LF : leaf a) by constructor end); destruct (leaf_one_line _ _ LF H') as [x E]; injection E as _ E; apply app_eq_nil in E; destruct E; discriminate.
  destruct (struct_lines _ _ _ _ H') as (L' & _ & E). discriminate E.
Qed.
Lemma struct_not_leaf n k fs ls : shown_lines (VStruct n k fs) ls -> forall v', shown_lines v' ls -> exists n' k' fs', v' = VStruct n' k' fs'.
Proof.
  intros H v' H'. destruct (struct_lines _ _ _ _ H) as (L & _ & ->). destruct v' as [z|s|b|vs' h'|f|n' k' fs']; eauto; exfalso.
  1,2,3,5: (match type of H' with shown_lines ?a _ => assert (LF : leaf a) by constructor end); destruct (leaf_one_line _ _ LF H') as [x E]; injection E as _ E; apply app_eq_nil in E; destruct E; discriminate.
  destruct (arr_lines _ _ _ H') as (L' & _ & E). discriminate E.
Qed.
Lemma same_lines v : forall ls v', shown_lines v ls -> shown_lines v' ls -> textual v -> textual v' -> looks_alike v v'.
Proof.
  induction v as [z|s|b|vs h IH|f|n k fs IH] using value_ind'; intros ls v' H H' T T'.
  1,2,3,5: match type of H with shown_lines ?a _ => destruct (leaf_one_line a ls ltac:(constructor) H) as [x ->] end; eapply leaves_alike; eassumption.
  - destruct (arr_not_leaf _ _ _ H _ H') as (vs' & h' & ->). destruct (arr_lines _ _ _ H) as (L & F & ->). destruct (arr_lines _ _ _ H') as (L' & F' & E).
    clear H H'. injection E as E. apply app_inj_tail in E. destruct E as [E _]. apply map_inj in E; [|intros a b; apply (app_inv_head tab4)].
    apply chunks_inj in E.
    2, 3: apply Forall_map; eapply F2_forall_r; [eassumption|]; intros a b _ Q; eapply comma_chunk; exact Q.
    apply map_inj in E; [|intros a b; apply with_comma_inj]. subst L'. constructor.
    assert (Q : Forall textual vs) by (inversion T; assumption). assert (Q' : Forall textual vs') by (inversion T'; assumption). clear T T' h h'.
    revert vs' F' Q'. induction F as [|v l vs ls Hv F IHF]; intros vs' F' Q'; inversion F'; subst; constructor; inversion IH; inversion Q; inversion Q'; subst; eauto.
  - destruct (struct_not_leaf _ _ _ _ H _ H') as (n' & k' & fs' & ->). destruct (struct_lines _ _ _ _ H) as (L & F & ->). destruct (struct_lines _ _ _ _ H') as (L' & F' & E).
    clear H H'.
    assert (En : n = n') by (apply (app_inv_tail (s_ " {")), (app_inv_head (s_ "struct ")); congruence). subst n'.
    match type of E with _ :: ?a = _ :: ?b => assert (E2 : a = b) by congruence end. clear E.
    apply app_inj_tail in E2. destruct E2 as [E _]. apply map_inj in E; [|intros a b; apply (app_inv_head tab4)].
    apply chunks_inj in E; try (apply struct_field_chunks; assumption).
    constructor.
    assert (Q : Forall (fun f => Forall visible (fst f) /\ textual (snd f)) fs) by (inversion T; assumption).
    assert (Q' : Forall (fun f => Forall visible (fst f) /\ textual (snd f)) fs') by (inversion T'; assumption). clear T T' n k k'.
    revert L' fs' F' Q' E. induction F as [|f l fs L Hf F IHF]; intros L' fs' F' Q' E; destruct F' as [|f' l' fs' L' Hf' F']; try discriminate E; constructor.
    + cbn [combine map fst snd] in E. injection E as E _. pose proof (Forall_inv IH) as I1; pose proof (Forall_inv Q) as [V1 T1]; pose proof (Forall_inv Q') as [V2 T2].
      assert (NN : forall u m, shown_lines u m -> with_comma m <> []) by (intros u m K; eapply chunk_nonnil, comma_chunk; exact K).
      apply prefix_inj in E; eauto. destruct E as [En E]. apply with_comma_inj in E. subst l'. split; [exact En|]. eauto.
    + eapply IHF; eauto using Forall_inv_tail. cbn [combine map] in E. congruence.
Qed.

(** ** Conversely *)
Lemma alike_display : forall v v', looks_alike v v' -> display v = display v'.
Proof.
  assert (SP : forall v s, (forall s', v <> VStr s') -> shown_lines v [s] -> display v = escape true s).
  { intros v s N H. pose proof (nonstr_plain _ _ N H) as P. rewrite (escape_plain true s P). apply leaf_display; [exact H|].
    apply one_line_leaf in H. destruct H; try constructor. exfalso. eapply N. reflexivity. }
  intros v. induction v as [z|s|b|vs h IH|f|n k fs IH] using value_ind'; intros v' H; inversion H; subst; try reflexivity;
    try (symmetry; apply SP; assumption); try (rewrite SP with (s := s); [reflexivity|assumption|assumption]);
    try (match goal with Q : shown_lines ?a [?s] |- display ?a = _ => rewrite (SP a s); [reflexivity|assumption|assumption] end).
  - cbn [display]. do 2 f_equal. f_equal. match goal with Q : Forall2 _ vs _ |- _ => rename Q into F end. clear H.
    induction F; [reflexivity|]. inversion IH; subst. cbn [flat_map]. rewrite IHF by assumption. f_equal. match goal with I : forall _, looks_alike _ _ -> _ |- _ => rewrite (I _ ltac:(eassumption)) end. reflexivity.
  - cbn [display]. match goal with Q : Forall2 _ fs _ |- _ => rename Q into F end. clear H. do 4 f_equal. f_equal.
    induction F as [|f f' fs fs' [En Ea] F IHF]; [reflexivity|]. cbn [flat_map]. rewrite IHF by (exact (Forall_inv_tail IH)). pose proof (Forall_inv IH _ Ea) as Q. destruct f as [a x], f' as [a' x']. cbn [fst snd] in *. rewrite Q, En. reflexivity.
Qed.
Lemma display_alike v v' : textual v -> textual v' -> display v = display v' -> looks_alike v v'.
Proof.
  intros T T' E. destruct (textual_names v T) as [N B], (textual_names v' T') as [N' B'].
  destruct (shown_lines_total v B) as [ls H], (shown_lines_total v' B') as [ls' H'].
  destruct (shown_lines_display v ls H N) as [D (K1 & K2 & _)], (shown_lines_display v' ls' H' N') as [D' (K1' & K2' & _)].
  rewrite D, D' in E. apply join_inj in E; auto.
  - subst ls'. eapply same_lines; eassumption.
  - eapply Forall_impl; [|exact K2]. intros a [Q _]. exact Q.
  - eapply Forall_impl; [|exact K2']. intros a [Q _]. exact Q.
Qed.
Lemma bare_equal v : forall v', looks_alike v v' -> bare v -> bare v' -> v = v'.
Proof.
  induction v as [z|s|b|vs h IH|f|n k fs IH] using value_ind'; intros v' H B B'; inversion H; subst; try reflexivity; try (inversion B; fail); try (inversion B'; fail).
  - assert (Q : Forall bare vs /\ h = false) by (inversion B; auto). assert (Q' : Forall bare vs' /\ h' = false) by (inversion B'; auto).
    destruct Q as [Q ->], Q' as [Q' ->]. f_equal. match goal with R : Forall2 _ vs _ |- _ => rename R into F end. clear H B B'.
    induction F as [|x y l l' R F IHF]; [reflexivity|].
    f_equal; [apply (Forall_inv IH); [exact R|exact (Forall_inv Q)|exact (Forall_inv Q')]|apply IHF; [exact (Forall_inv_tail IH)|exact (Forall_inv_tail Q)|exact (Forall_inv_tail Q')]].
  - assert (Q : Forall (fun f => bare (snd f)) fs /\ k = None) by (inversion B; auto). assert (Q' : Forall (fun f => bare (snd f)) fs' /\ k' = None) by (inversion B'; auto).
    destruct Q as [Q ->], Q' as [Q' ->]. f_equal. match goal with R : Forall2 _ fs _ |- _ => rename R into F end. clear H B B'.
    induction F as [|x y l l' [R1 R2] F IHF]; [reflexivity|].
    f_equal; [|apply IHF; [exact (Forall_inv_tail IH)|exact (Forall_inv_tail Q)|exact (Forall_inv_tail Q')]].
    pose proof (Forall_inv IH _ R2 (Forall_inv Q) (Forall_inv Q')) as E. destruct x, y; cbn in *; congruence.
Qed.
