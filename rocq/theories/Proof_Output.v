(** Proofs for C71: values are textual, output is safe for a terminal. *)
From Verif Require Import Base Ast Pom Parse Structs Definitions Value Variables Semantics Fs Eval Runtime Lib Spec_Decode Proof_Decode Proof_Decode2
  Spec_Search Proof_Search2 Spec_Safe Spec_Run Spec_Text Spec_Session Spec_Fs Spec_Grammar Spec_Utf8 Spec_Output
  Proof_Arith Proof_Text Proof_Vars Proof_Run Proof_Session Proof_Fs Proof_Driver Proof_Access Proof_Display Proof_Utf8 Proof_Parse Proof_Safe.
Require Import Lia.
Arguments s_ s%string_scope.

(** ** Text *)
Definition prn (t : str) : Prop := Forall printable t.
Definition prnb (t : str) : bool := forallb (fun c => (32 <=? c)%N && (c <=? 126)%N) t.
Lemma prnb_ok t : prnb t = true -> prn t.
Proof. unfold prnb. rewrite forallb_forall. intros H. apply Forall_forall. intros c Hc. specialize (H c Hc). apply andb_true_iff in H. destruct H as [H1 H2]. apply N.leb_le in H1, H2. split; assumption. Qed.
Definition vis (t : str) : Prop := Forall visible t.
Definition visb (t : str) : bool := forallb (fun c => (33 <=? c)%N && (c <=? 126)%N) t.
Lemma visb_ok t : visb t = true -> vis t.
Proof. unfold visb. rewrite forallb_forall. intros H. apply Forall_forall. intros c Hc. specialize (H c Hc). apply andb_true_iff in H. destruct H as [H1 H2]. apply N.leb_le in H1, H2. split; assumption. Qed.
Lemma vis_prn t : vis t -> prn t.
Proof. apply Forall_impl. unfold visible, printable. intros c. lia. Qed.
Lemma prn_safe t : prn t -> terminal_safe t.
Proof. apply Forall_impl. auto. Qed.
Lemma safe_app a b : terminal_safe a -> terminal_safe b -> terminal_safe (a ++ b).
Proof. intros H1 H2. apply Forall_app; auto. Qed.
Lemma prn_app a b : prn a -> prn b -> prn (a ++ b).
Proof. intros H1 H2. apply Forall_app; auto. Qed.
Lemma nl_safe : terminal_safe nl.
Proof. constructor; [right; cbn; auto|constructor]. Qed.
Lemma safe_flat {A} (g : A -> str) l : Forall (fun a => terminal_safe (g a)) l -> terminal_safe (flat_map g l).
Proof. induction 1; cbn [flat_map]; [constructor|apply safe_app; assumption]. Qed.
Lemma safe_repeat c n : printable c -> prn (repeat_char c n).
Proof. intros H. induction n; cbn; [constructor|constructor; auto]. Qed.
Lemma safe_dec_N n : prn (dec_N n).
Proof.
  pose proof (dec_N_numeral n) as H. revert H. generalize (dec_N n) as t. generalize (Z.of_N n). intros z t H. induction H; [constructor|].
  apply Forall_app; split; [assumption|constructor; [|constructor]]. unfold decimal, printable in *. lia.
Qed.
Lemma safe_dec_Z z : prn (dec_Z z).
Proof. unfold dec_Z. destruct (z <? 0)%Z; [|apply safe_dec_N]. constructor; [unfold printable; lia|apply safe_dec_N]. Qed.
Lemma safe_escape ws s : Forall (fun b => (b < 256)%N) s -> terminal_safe (escape ws s).
Proof. intros H. apply (bytes_shown ws) in H. apply shown_printable in H. eapply Forall_impl; [|exact H]. cbn. tauto. Qed.
Lemma safe_rev t : terminal_safe t -> terminal_safe (rev t).
Proof. unfold terminal_safe. rewrite !Forall_forall. intros H c Hc. apply H. apply in_rev. exact Hc. Qed.
Lemma safe_lines_from s : forall cur, terminal_safe cur -> terminal_safe s -> Forall terminal_safe (lines_from cur s).
Proof.
  induction s as [|c s IH]; intros cur Hc Hs; cbn [lines_from].
  - destruct cur; [constructor|]. constructor; [apply safe_rev; exact Hc|constructor].
  - inversion Hs as [|? ? S1 S2]; subst. destruct (c =? 10)%N; [|apply IH; [constructor; assumption|assumption]]. constructor; [|apply IH; [constructor|assumption]].
    assert (G : terminal_safe (rev cur)) by (apply safe_rev; exact Hc). destruct cur as [|d cur']; [exact G|]. assert (G' : terminal_safe (rev cur')) by (apply safe_rev; inversion Hc; assumption).
    destruct (N.eq_dec d 13) as [->|Hd]; [exact G'|]. repeat (destruct d as [|d]; try exact G; try congruence); repeat (destruct d as [d|d|]; try exact G; try congruence).
Qed.
Lemma safe_lines s : terminal_safe s -> Forall terminal_safe (lines s).
Proof. apply safe_lines_from. constructor. Qed.
Lemma safe_display v : textual v -> terminal_safe (display v).
Proof.
  assert (Hi : terminal_safe indent) by (apply prn_safe, prnb_ok; reflexivity).
  assert (Hl : forall t, terminal_safe t -> Forall (fun l => terminal_safe (indent ++ l ++ nl)) (lines (t ++ s_ ","))).
  { intros t Ht. eapply Forall_impl; [|apply safe_lines, (safe_app t); [exact Ht|apply prn_safe, prnb_ok; reflexivity]]. cbn beta. intros l Hl. repeat apply safe_app; auto using nl_safe. }
  induction v as [z|s|b|vs h IH|f|n k fs IH] using value_ind'; intros H; inversion H; subst; cbn [display].
  - apply prn_safe, safe_dec_Z.
  - apply safe_escape; assumption.
  - destruct b; apply prn_safe, prnb_ok; reflexivity.
  - repeat apply safe_app; try apply nl_safe; try (apply prn_safe, prnb_ok; reflexivity). apply safe_flat. rewrite Forall_forall in *. intros v Hv. apply safe_flat. apply Hl. auto.
  - destruct f; apply prn_safe, prnb_ok; reflexivity.
  - repeat apply safe_app; try apply nl_safe; try (apply prn_safe, prnb_ok; reflexivity); [apply prn_safe, vis_prn; assumption|].
    apply safe_flat. rewrite Forall_forall in *. intros f Hf. match goal with H : forall x, In x fs -> _ /\ _ |- _ => destruct (H f Hf) as [N1 N2] end.
    pose proof (safe_lines (display (snd f) ++ s_ ",") ltac:(apply safe_app; [apply IH; assumption|apply prn_safe, prnb_ok; reflexivity])) as G.
    destruct (lines _) as [|l ls]; [constructor|]. inversion G as [|? ? G1 G2]; subst. repeat apply safe_app; try apply nl_safe; try assumption; try (apply prn_safe, prnb_ok; reflexivity); [apply prn_safe, vis_prn; exact N1|].
    apply safe_flat. eapply Forall_impl; [|exact G2]. cbn beta. intros l' Hl'. repeat apply safe_app; auto using nl_safe.
Qed.

(** results *)
Definition rok {A} (P : A -> Prop) (r : res A) : Prop := match r with Ok a => P a | _ => True end.
Lemma rok_bind {A B} (P : A -> Prop) (Q : B -> Prop) (m : res A) (g : A -> res B) : rok P m -> (forall a, P a -> rok Q (g a)) -> rok Q (bind m g).
Proof. destruct m; cbn; auto. Qed.
Lemma rok_any {A} (r : res A) : rok (fun _ => True) r.
Proof. destruct r; exact I. Qed.
Ltac any := eapply rok_bind; [apply rok_any|]; intros ? _.

Lemma safe_pretty k oc z : rok prn (num_bytes_to_pretty k oc z).
Proof.
  unfold num_bytes_to_pretty. any. any. destruct (negb _); [exact I|]. destruct (z =? 0)%Z; [apply prnb_ok; reflexivity|]. any.
  assert (G : prn (if negb (Z.shiftr a1 40 =? 0)%Z then dec_Z (Z.shiftr a1 40) ++ s_ "T"
      else if negb (Z.shiftr a1 30 =? 0)%Z then dec_Z (Z.shiftr a1 30) ++ s_ "G"
      else if negb (Z.shiftr a1 20 =? 0)%Z then dec_Z (Z.shiftr a1 20) ++ s_ "M"
      else if negb (Z.shiftr a1 10 =? 0)%Z then dec_Z (Z.shiftr a1 10) ++ s_ "K" else dec_Z a1)).
  { repeat match goal with |- context [if ?c then _ else _] => destruct c end; try (apply prn_app; [apply safe_dec_Z|apply prnb_ok; reflexivity]). apply safe_dec_Z. }
  cbn [rok]. destruct (z <? 0)%Z; [constructor; [unfold printable; lia|exact G]|exact G].
Qed.
Lemma safe_hist k oc vs : rok terminal_safe (as_hist k oc vs).
Proof.
  unfold as_hist. any. destruct a as [|v vals]; [constructor|]. any. any. any. clear. generalize (zlen (v :: vals)) as n. intros n. induction a1 as [|[[x y] z] bs IH]; cbn [hist_lines]; [constructor|].
  eapply (rok_bind terminal_safe).
  - unfold hist_line. eapply rok_bind; [apply safe_pretty|]. intros s Hs. eapply rok_bind; [apply safe_pretty|]. intros e He. cbn [rok]. unfold pad_right, pad_left.
    assert (S : forall n, prn (repeat_char 32 n)) by (intros; apply safe_repeat; unfold printable; lia).
    assert (B : forall n, prn (repeat_char 64 n)) by (intros; apply safe_repeat; unfold printable; lia).
    repeat apply safe_app; try apply nl_safe; apply prn_safe; auto; try apply safe_dec_Z; apply prnb_ok; reflexivity.
  - intros l Hl. eapply rok_bind; [exact IH|]. intros r Hr. apply safe_app; assumption.
Qed.
Lemma safe_print k oc v : textual v -> rok terminal_safe (print_text k oc v).
Proof.
  intros H. destruct v as [| | |l [|]| |]; cbn [print_text]; try (apply safe_display; exact H); [|apply safe_hist]. inversion H; subst. apply safe_escape; assumption.
Qed.
Lemma safe_help : terminal_safe help_text.
Proof.
  unfold help_text. apply safe_flat. apply Forall_forall. intros p Hp.
  assert (G : forallb (fun p => prnb (pad_right help_width (fst p) ++ snd p)) help_table = true) by (vm_compute; reflexivity).
  rewrite forallb_forall in G. specialize (G p Hp). rewrite app_assoc. apply safe_app; [apply prn_safe, prnb_ok; exact G|apply nl_safe].
Qed.

(** ** Decoding *)
Local Notation byte_list b := (Forall (fun b => (b < 256)%N) b).
Definition named (m : list (str * value)) : Prop := Forall (fun f => Forall visible (fst f) /\ textual (snd f)) m.
Lemma named_app a b : named a -> named b -> named (a ++ b).
Proof. intros; apply Forall_app; auto. Qed.
Definition name_ok (n : option str) : Prop := match n with Some n => vis n | None => True end.
(** the names in a type are printable; its callbacks satisfy Q *)
Fixpoint tnames (Q : (str -> res (list field)) -> Prop) (t : ty) : Prop :=
  match t with
  | TU8 | TU16 | TU32 | TU64 | TTrailStr _ => True
  | TArray t _ => tnames Q t
  | TTrailTypes t _ => tnames Q t
  | TStruct nm _ fs => vis nm /\ (fix go l := match l with [] => True | f :: l' => (name_ok (fst f) /\ tnames Q (snd f)) /\ go l' end) fs
  | TUnion nm fs => vis nm /\ (fix go l := match l with [] => True | f :: l' => (name_ok (fst f) /\ tnames Q (snd f)) /\ go l' end) fs
  | TDyn cb => Q cb
  end.
Definition fnames Q (f : field) : Prop := name_ok (fst f) /\ tnames Q (snd f).
Lemma fnames_list Q fs : (fix go (l : list field) := match l with [] => True | f :: l' => (name_ok (fst f) /\ tnames Q (snd f)) /\ go l' end) fs <-> Forall (fnames Q) fs.
Proof. induction fs as [|f fs IH]; [split; [constructor|trivial]|]. split; [intros [H1 H2]; constructor; [exact H1|tauto]|intros H; inversion H; unfold fnames in *; tauto]. Qed.

Lemma slice_byte (b : str) x y : byte_list b -> rok (fun s => byte_list s) (slice b x y).
Proof. intros H. unfold slice. destruct (_ && _); [|exact I]. apply Forall_firstn, Forall_skipn; exact H. Qed.
Lemma slice_from_byte (b : str) x : byte_list b -> rok (fun s => byte_list s) (slice_from b x).
Proof. intros H. unfold slice_from. destruct (_ <=? _)%Z; [apply Forall_skipn; exact H|exact I]. Qed.

Section Decode.
Variable oc : bool.
Variable dyn : str -> (Z -> Z -> Z -> bool) -> (str -> res (list field)) -> str -> res (list (str * value) * Z).
Variable Q : (str -> res (list field)) -> Prop.
Hypothesis Hdyn : forall nm km cb b, vis nm -> Q cb -> byte_list b -> rok (fun p => named (fst p)) (dyn nm km cb b).

Lemma le_int_text n b : rok textual (le_int n b).
Proof. unfold le_int. any. constructor. Qed.
Lemma array_text ev sz n : (forall b, byte_list b -> rok textual (ev b)) -> forall i b, byte_list b -> rok (Forall textual) (array_loop ev sz n i b).
Proof.
  intros Hev. induction n as [|n IH]; intros i b Hb; cbn [array_loop]; [constructor|].
  eapply rok_bind; [apply slice_from_byte; exact Hb|]. intros s Hs. eapply rok_bind; [apply Hev; exact Hs|]. intros v Hv.
  eapply rok_bind; [apply IH; exact Hb|]. intros r Hr. constructor; assumption.
Qed.
Lemma trail_text ev sz n : (forall b, byte_list b -> rok textual (ev b)) -> forall b off, byte_list b -> rok (fun p => Forall textual (fst p)) (trail_loop oc ev sz n b off).
Proof.
  intros Hev. induction n as [|n IH]; intros b off Hb; cbn [trail_loop]; [constructor|]. any.
  eapply rok_bind; [apply slice_byte; exact Hb|]. intros s Hs. eapply rok_bind; [apply Hev; exact Hs|]. intros v Hv.
  eapply rok_bind; [apply IH; exact Hb|]. intros r Hr. constructor; assumption.
Qed.
Section Tv.
Variable tv : ty -> str -> res value.
Lemma field_text f b : name_ok (fst f) -> (forall b, byte_list b -> rok textual (tv (snd f) b)) -> byte_list b -> rok named (field_from_bytes tv f b).
Proof.
  intros Hn Htv Hb. unfold field_from_bytes. any. eapply rok_bind; [apply Htv; exact Hb|]. intros v Hv. destruct (fst f) as [n|].
  - constructor; [split; [exact Hn|exact Hv]|constructor].
  - destruct v; try exact I. cbn [rok]. inversion Hv; assumption.
Qed.
Lemma struct_text nm km fs b : byte_list b -> vis nm -> Forall (fnames Q) fs ->
  Forall (fun f => tnames Q (snd f) -> forall b, byte_list b -> rok textual (tv (snd f) b)) fs ->
  (forall t n, In (TTrailTypes t n) (map snd fs) -> forall b, byte_list b -> rok textual (tv t b)) ->
  forall off acc, named acc -> rok named (struct_loop oc dyn tv nm km fs b off acc).
Proof.
  intros Hb Hnm. induction fs as [|f fs IH]; intros HQ Htv Htt off acc Hacc; cbn [struct_loop]; [exact Hacc|].
  inversion HQ as [|? ? [Q0 Q1] Q2]; subst. inversion Htv as [|? ? T1 T2]; subst.
  assert (IH' : forall off acc, named acc -> rok named (struct_loop oc dyn tv nm km fs b off acc)).
  { apply IH; auto. intros t n Hin. apply (Htt t n). right. exact Hin. }
  assert (D : rok named (let* rest := slice_from b off in let* r := field_from_bytes tv f rest in
      let* offset' := usize_add oc off (ty_size (snd f)) in struct_loop oc dyn tv nm km fs b offset' (acc ++ r))).
  { eapply rok_bind; [apply slice_from_byte; exact Hb|]. intros rest Hr. eapply rok_bind; [apply field_text; [exact Q0|apply T1; exact Q1|exact Hr]|]. intros r Hv.
    any. apply IH'. apply named_app; assumption. }
  assert (F : forall er v, textual v -> rok (fun n => named (acc ++ [(n, v)])) (ok_or (fst f) er)).
  { intros er v Hv. destruct (fst f) as [n|]; [|exact I]. apply named_app; [exact Hacc|]. constructor; [split; assumption|constructor]. }
  destruct (snd f) as [| | | |t n|nm' km' fs'|nm' fs'|n|t n|cb] eqn:Ef; try exact D.
  - any. any. any. destruct (fst f) as [x|] eqn:Ex; cbn [ok_or bind]; [|exact I]. eapply rok_bind; [apply slice_byte; exact Hb|]. intros s Hs. any. apply IH'. apply (F EUtf8 (VStr s)). constructor. exact Hs.
  - any. any. any. any. eapply rok_bind; [apply trail_text; [|exact Hb]; apply (Htt t n); left; exact Ef|]. intros r Hr.
    eapply rok_bind; [apply (F _ (VArr (fst r) false)); constructor; exact Hr|]. intros x Hx. apply IH'. exact Hx.
  - eapply rok_bind; [apply slice_from_byte; exact Hb|]. intros rest Hr. cbn [tnames] in Q1. eapply rok_bind; [apply Hdyn; assumption|]. intros r Hv. any. apply IH'. apply named_app; assumption.
Qed.
Lemma union_text fs b : byte_list b -> Forall (fun f => name_ok (fst f) /\ forall b, byte_list b -> rok textual (tv (snd f) b)) fs ->
  forall acc, named acc -> rok named (union_loop tv fs b acc).
Proof.
  intros Hb. induction 1 as [|f fs [Hn Hf] Hfs IH]; intros acc Hacc; cbn [union_loop]; [exact Hacc|].
  eapply rok_bind; [apply field_text; assumption|]. intros r Hr. apply IH. apply named_app; assumption.
Qed.
End Tv.
Lemma to_value_text t : tnames Q t ->
  (forall b, byte_list b -> rok textual (to_value oc dyn t b)) /\
  (forall t' n, t = TTrailTypes t' n -> forall b, byte_list b -> rok textual (to_value oc dyn t' b)).
Proof.
  induction t as [| | | |t n IH|nm km fs IH|nm fs IH|n|t n IH|cb] using ty_ind'; intros HQ; (split; [|try discriminate]); try (intros b Hb; cbn [to_value]); try exact I.
  - any. constructor.
  - apply le_int_text.
  - apply le_int_text.
  - apply le_int_text.
  - eapply rok_bind; [apply array_text; [apply IH; exact HQ|exact Hb]|]. intros l Hl. constructor. exact Hl.
  - any. cbn [tnames] in HQ. rewrite fnames_list in HQ. destruct HQ as [Hn HQ].
    eapply rok_bind; [apply struct_text; [exact Hb|exact Hn|exact HQ| | |constructor]|].
    + rewrite Forall_forall in *. intros f Hf Hc. apply IH; assumption.
    + intros t n Hin. apply in_map_iff in Hin. destruct Hin as (f & Ef & Hf). rewrite Forall_forall in *. eapply (proj2 (IH f Hf (proj2 (HQ f Hf)))). exact Ef.
    + intros r Hr. constructor; assumption.
  - cbn [tnames] in HQ. rewrite fnames_list in HQ. destruct HQ as [Hn HQ]. eapply rok_bind; [apply union_text; [exact Hb| |constructor]|].
    + rewrite Forall_forall in *. intros f Hf. destruct (HQ f Hf) as [H1 H2]. split; [exact H1|]. apply IH; auto.
    + intros r Hr. constructor; assumption.
  - intros E. injection E as <- <-. apply IH. exact HQ.
Qed.
Lemma from_bytes_gen_text s key b : vis (st_name s) -> Forall (fnames Q) (st_fields s) -> byte_list b -> rok textual (from_bytes_gen oc dyn s key b).
Proof.
  intros Hn HQ Hb. unfold from_bytes_gen. any. eapply rok_bind; [apply struct_text; [exact Hb|exact Hn|exact HQ| | |constructor]|].
  - rewrite Forall_forall in *. intros f Hf Hc. apply to_value_text; assumption.
  - intros t n Hin. apply in_map_iff in Hin. destruct Hin as (f & Ef & Hf). rewrite Forall_forall in *. eapply (proj2 (to_value_text (snd f) (proj2 (HQ f Hf)))). exact Ef.
  - intros r Hr. constructor; assumption.
Qed.
End Decode.
Definition cb_names (cb : str -> res (list field)) : Prop := forall b, rok (Forall (fnames (fun _ => True))) (cb b).
Lemma dyn_struct_text oc nm km cb b : vis nm -> cb_names cb -> byte_list b -> rok (fun p => named (fst p)) (dyn_struct oc nm km cb b).
Proof.
  intros Hn Hcb Hb. unfold dyn_struct. eapply rok_bind; [apply Hcb|]. intros fs Hfs. any.
  eapply rok_bind; [apply (from_bytes_gen_text oc dyn_none (fun _ => True)); [intros; exact I|exact Hn|exact Hfs|exact Hb]|].
  intros v Hv. destruct v; try exact I. cbn. inversion Hv; assumption.
Qed.
(** decidable check, trusting callbacks *)
Fixpoint tnb (t : ty) : bool :=
  match t with
  | TU8 | TU16 | TU32 | TU64 | TTrailStr _ | TDyn _ => true
  | TArray t _ => tnb t
  | TTrailTypes t _ => tnb t
  | TStruct nm _ fs => visb nm && forallb (fun f => match fst f with Some n => visb n | None => true end && tnb (snd f)) fs
  | TUnion nm fs => visb nm && forallb (fun f => match fst f with Some n => visb n | None => true end && tnb (snd f)) fs
  end.
Definition fnb (f : field) : bool := match fst f with Some n => visb n | None => true end && tnb (snd f).
Lemma fnb_ok (Q : (str -> res (list field)) -> Prop) (HQ : forall t, tnb t = true -> cbs Q t -> tnames Q t) f : fnb f = true -> cbs Q (snd f) -> fnames Q f.
Proof.
  unfold fnb, fnames, name_ok. intros H Hc. apply andb_true_iff in H. destruct H as [H1 H2]. split; [destruct (fst f); [apply visb_ok; exact H1|exact I]|auto].
Qed.
Lemma tnb_ok Q t : tnb t = true -> cbs Q t -> tnames Q t.
Proof.
  induction t as [| | | |t n IH|nm km fs IH|nm fs IH|n|t n IH|cb] using ty_ind'; cbn [tnb tnames cbs]; intros H Hc; auto;
    apply andb_true_iff in H; destruct H as [H1 H2]; rewrite fnames_list; rewrite cbs_list in Hc; split; try (apply visb_ok; exact H1);
    rewrite forallb_forall in H2; rewrite Forall_forall in *; intros f Hf; specialize (H2 f Hf); apply andb_true_iff in H2; destruct H2 as [H2 H3];
    (split; [unfold name_ok; destruct (fst f); [apply visb_ok; exact H2|exact I]|apply IH; auto]).
Qed.
Lemma fields_ok fs : forallb fnb fs = true -> Forall (fnames (fun _ => True)) fs.
Proof. rewrite forallb_forall. intros H. apply Forall_forall. intros f Hf. apply fnb_ok; [apply tnb_ok|apply H; exact Hf|apply cbs_true]. Qed.

Lemma inline_refs_names k : forall b off acc, forallb fnb acc = true -> rok (fun fs => forallb fnb fs = true) (inline_refs k b off acc).
Proof.
  induction k as [|k IH]; intros b off acc Ha; cbn [inline_refs]; [exact I|]. destruct (off <? zlen b)%Z; [|any; exact Ha].
  any. any. destruct (inline_ref_layout _) as [[fs sz]|] eqn:El; [|exact I]. apply IH. rewrite forallb_app, Ha. cbn [andb].
  unfold inline_ref_layout in El. repeat match type of El with context [if ?c then _ else _] => destruct c end; try discriminate; injection El as <- _; vm_compute; reflexivity.
Qed.
Lemma extent_names : cb_names extent_item_fields.
Proof.
  intros b. unfold extent_item_fields. any. pose proof (inline_refs_names) as G.
  match goal with |- rok _ (inline_refs ?k b ?o ?a) => specialize (G k b o a) end. destruct (inline_refs _ b _ _); try exact I. apply fields_ok. apply G. vm_compute. reflexivity.
Qed.
Lemma file_extent_names : cb_names file_extent_item_fields.
Proof.
  intros b. unfold file_extent_item_fields. any. any.
  repeat match goal with |- context [if ?c then _ else _] => destruct c end; try exact I; apply fields_ok; vm_compute; reflexivity.
Qed.
Lemma shipped_names s : In s STRUCTS -> vis (st_name s) /\ Forall (fnames cb_names) (st_fields s).
Proof.
  intros Hs. assert (B : forallb (fun s => visb (st_name s) && forallb fnb (st_fields s)) STRUCTS = true) by (vm_compute; reflexivity).
  rewrite forallb_forall in B. specialize (B s Hs). apply andb_true_iff in B. destruct B as [B1 B2]. split; [apply visb_ok; exact B1|].
  assert (C : Forall (fun f => cbs cb_names (snd f)) (st_fields s)).
  { clear B1 B2. revert s Hs. apply Forall_forall. unfold STRUCTS.
    repeat (apply Forall_cons; [cbn [st_fields]; repeat (apply Forall_cons; [cbn;
      repeat match goal with |- _ /\ _ => split | |- True => exact I end;
      first [exact extent_names|exact file_extent_names|exact I|idtac]|]); try apply Forall_nil|]). apply Forall_nil. }
  rewrite forallb_forall in B2. rewrite Forall_forall in *. intros f Hf. apply fnb_ok; auto. apply tnb_ok.
Qed.
Lemma from_bytes_text oc s key b : In s STRUCTS -> byte_list b -> rok textual (from_bytes oc s key b).
Proof.
  intros Hs Hb. destruct (shipped_names s Hs) as [H1 H2]. apply (from_bytes_gen_text oc (dyn_struct oc) cb_names); auto. intros; apply dyn_struct_text; assumption.
Qed.

(** ** Variables *)
Definition scope_text (m : scope value) : Prop := Forall (fun p => textual (snd p)) m.
Lemma textual_vars_iff vs : textual_vars vs <-> Forall scope_text vs.
Proof.
  unfold textual_vars, scope_text. rewrite Forall_forall. split.
  - intros H m Hm. apply Forall_forall. intros [x v] Hv. eapply H; eassumption.
  - intros H m x v Hm Hv. specialize (H m Hm). rewrite Forall_forall in H. apply (H _ Hv).
Qed.
Lemma vars_get_text x vs v : Forall scope_text vs -> vars_get x vs = Some v -> textual v.
Proof.
  induction 1 as [|m vs Hm Hvs IH]; cbn; [discriminate|]. destruct (assoc x m) eqn:E; [|exact IH]. intros H; injection H as <-. exact (assoc_good _ _ _ _ Hm E).
Qed.
Lemma scope_insert_text x v m : textual v -> scope_text m -> scope_text (scope_insert x v m).
Proof. intros Hv. unfold scope_text. induction 1 as [|[y b] m Hb Hm IH]; cbn; [constructor; [exact Hv|constructor]|]. destruct (str_eqb y x); constructor; auto. Qed.
Lemma vars_replace_text x v vs : textual v -> Forall scope_text vs -> forall vs', vars_replace x v vs = Some vs' -> Forall scope_text vs'.
Proof.
  intros Hv. induction 1 as [|m vs Hm Hvs IH]; cbn; intros vs' H; [discriminate|]. destruct (assoc x m).
  - injection H as <-. constructor; [apply scope_insert_text; assumption|exact Hvs].
  - destruct (vars_replace x v vs) as [r|]; [|discriminate]. injection H as <-. constructor; [assumption|apply IH; reflexivity].
Qed.
Lemma vars_insert_text x v vs vs' : textual v -> Forall scope_text vs -> vars_insert x v vs = Some vs' -> Forall scope_text vs'.
Proof.
  intros Hv Hs. unfold vars_insert. destruct (vars_replace x v vs) as [r|] eqn:E; [intros H; injection H as <-; exact (vars_replace_text _ _ _ Hv Hs _ E)|].
  destruct Hs as [|m vs Hm Hs]; [discriminate|]. intros H; injection H as <-. constructor; [apply scope_insert_text; assumption|exact Hs].
Qed.

(** ** Expressions *)
Definition mok {A} (P : A -> Prop) (m : M A) : Prop := forall w, rok P (snd (m w)).
Lemma mok_ret {A} (P : A -> Prop) r : rok P r -> mok P (mret r).
Proof. intros H w. exact H. Qed.
Lemma mok_bind {A B} (P : A -> Prop) (Q : B -> Prop) (m : M A) (g : A -> M B) : mok P m -> (forall a, P a -> mok Q (g a)) -> mok Q (mbind m g).
Proof. intros Hm Hg w. unfold mbind. specialize (Hm w). destruct (m w) as [w1 [a| | |]]; cbn in *; auto. apply Hg. exact Hm. Qed.
Ltac many := eapply mok_bind; [apply mok_ret, rok_any|]; intros ? _.

Lemma struct_parts v : textual v -> rok (fun s => Forall visible (fst (fst s)) /\ named (snd s)) (as_struct v).
Proof. intros H. destruct v; try exact I. inversion H; subst. split; assumption. Qed.
Lemma vec_parts v : textual v -> rok (Forall textual) (as_vec v).
Proof. intros H. destruct v; try exact I. inversion H; subst. assumption. Qed.
Lemma named_field s fs n : named fs -> rok textual (get_field s fs n).
Proof.
  intros H. unfold get_field. destruct (assoc n fs) as [v|] eqn:E; [|exact I]. cbn.
  assert (G : Forall (fun p => textual (snd p)) fs) by (eapply Forall_impl; [|exact H]; cbn; tauto). exact (assoc_good _ _ _ _ G E).
Qed.
Lemma int_is v : rok (fun z => v = VInt z) (as_integer v).
Proof. destruct v; try exact I. reflexivity. Qed.
Lemma checked_text z e : rok textual (let* r := ok_or (checked z) e in Ok (VInt r)).
Proof. any. constructor. Qed.
Lemma plus_text a b : textual a -> textual b -> rok textual (eval_plus a b).
Proof.
  intros Ha Hb. destruct a as [a|a|a|a h|a|n k fs]; destruct b as [b|b|b|b hb|b|n' k' fs']; cbn [eval_plus]; try exact I; try apply checked_text;
    inversion Ha; subst; try (constructor; apply Forall_app; split; [assumption|]; try (constructor; [assumption|constructor])).
  inversion Hb; assumption.
Qed.
Lemma int_op_text op a b : rok textual (eval_int_op op a b).
Proof.
  destruct op; cbn [eval_int_op]; unfold checked_div, checked_rem, checked_shl, checked_shr; repeat match goal with |- context [if ?c then _ else _] => destruct c end; try any; try any; try exact I; try constructor.
Qed.
Lemma unop_text_ok oc op v : rok textual (eval_unop oc op v).
Proof. destruct op; cbn [eval_unop]; try (destruct v; try exact I; cbn; constructor; fail); any; try any; constructor. Qed.
Lemma type_str_bytes v : textual v -> Forall (fun b => (b < 256)%N) (type_str v).
Proof.
  intros H. assert (G : terminal_safe (type_str v)).
  { destruct v; cbn [type_str]; try (apply prn_safe, prnb_ok; reflexivity). inversion H; subst. apply prn_safe. apply (prn_app (s_ "struct ")); [apply prnb_ok; reflexivity|apply vis_prn; assumption]. }
  eapply Forall_impl; [|exact G]. cbn beta. unfold printable, blank. cbn [In]. intros c Hc. lia.
Qed.
Lemma safe_bytes t : terminal_safe t -> Forall (fun b => (b < 256)%N) t.
Proof. apply Forall_impl. unfold printable, blank. cbn [In]. intros c Hc. lia. Qed.

Section Exprs.
Variables (k : nat) (E : env).
Hypothesis HE : env_typed E.
Lemma decode_chunks_text oc cs : Forall raw_item cs -> mok (Forall textual) (decode_chunks oc cs).
Proof.
  induction 1 as [|[h b] cs Hc Hcs IH]; intros w; cbn [decode_chunks]; [constructor|].
  destruct (find _ STRUCTS) as [s|] eqn:Ef; [|apply IH]. apply find_some in Ef. destruct Ef as [Hin _]. revert w.
  change (mok (Forall textual) (do v <- mret (from_bytes oc s (Some (h_objectid h, h_type h, h_offset h)) b) ;; do vs <- decode_chunks oc cs ;; mret (Ok (v :: vs)))).
  eapply mok_bind; [apply mok_ret, from_bytes_text; [exact Hin|apply (proj2 (proj2 (proj2 (proj2 (proj2 (proj2 Hc))))))]|]. intros v Hv.
  eapply mok_bind; [exact IH|]. intros vs Hvs. apply mok_ret. constructor; assumption.
Qed.
Lemma eval_search_text f tree key : mok textual (eval_search k E f tree key).
Proof.
  unfold eval_search. eapply mok_bind; [apply mok_ret, rok_any|]. intros [[n ky] flds] _. many. destruct f as [f|]; [|apply mok_ret; exact I]. many.
  eapply mok_bind; [|intros cs Hcs; eapply mok_bind; [apply decode_chunks_text; exact Hcs|]; intros vs Hvs; apply mok_ret; constructor; exact Hvs].
  intros w. pose proof (fs_search_good True k E HE f a0 w) as G. destruct (fs_search k E f a0 w) as [w' r]. cbn [snd] in *. destruct r; try exact I. exact G.
Qed.
Lemma eval_cast_text f t n : fs_ok f -> rok textual (eval_cast E f t n).
Proof.
  intros Hf. unfold eval_cast. destruct t as [x| | | | | | | | | |]; try exact I.
  destruct (find (fun s => str_eqb (st_name s) x) STRUCTS) as [s|] eqn:Ef; cbn [unwrap bind]; [|exact I].
  apply find_some in Ef. destruct Ef as [Hs _]. destruct f as [f|]; [|exact I]. any.
  eapply (rok_bind (fun b => byte_list b)); [|intros b Hb; apply from_bytes_text; assumption].
  destruct f as [fd|img]; cbn [get_bytes]; [exact I|]. specialize (Hf img eq_refl). unfold get_range. destruct (_ && _)%bool; cbn; [|exact I].
  apply Forall_firstn, Forall_skipn. apply Hf.
Qed.
Variables (vs : vars value) (f : option fs).
Hypothesis Hvs : Forall scope_text vs.
Hypothesis Hf : fs_ok f.
Definition expr_text (e : expr) : Prop := Forall unicode (strings e).
Lemma expr_text_args l : Forall unicode (flat_map strings l) <-> Forall expr_text l.
Proof. induction l as [|e l IH]; cbn [flat_map]; [split; constructor|]. rewrite Forall_app, IH. split; [intros [H1 H2]; constructor; assumption|intros H; inversion H; auto]. Qed.
Lemma key_struct_text a b c d : textual (key_struct a b c d).
Proof. unfold key_struct. constructor; [apply visb_ok; reflexivity|]. repeat (apply Forall_cons; [split; [apply visb_ok; reflexivity|constructor]|]). apply Forall_nil. Qed.
Lemma eval_expr_text e : expr_text e -> mok textual (eval_expr k E vs f e).
Proof.
  unfold expr_text. induction e as [x|z|b|s|e IH|e i IHe IHi|e i IHe IHi|fe args IHf IHa|op l r IHl IHr|op e IH|t e IHt IH] using expr_ind';
    cbn [strings]; intros He; cbn [eval_expr].
  - apply mok_ret. destruct (vars_get x vs) eqn:Eg; cbn; [exact (vars_get_text _ _ _ Hvs Eg)|exact I].
  - apply mok_ret. constructor.
  - apply mok_ret. constructor.
  - apply mok_ret. constructor. inversion He; subst. exact (utf8_text_bytes _ _ (utf8_text_of _ H1)).
  - apply IH; exact He.
  - apply Forall_app in He. eapply mok_bind; [apply IHe; tauto|]. intros v Hv. eapply mok_bind; [apply mok_ret, struct_parts; exact Hv|].
    intros [[n ky] fs] [_ Hfs]. destruct i; try (apply mok_ret; exact I). apply mok_ret, named_field. exact Hfs.
  - apply Forall_app in He. eapply mok_bind; [apply IHe; tauto|]. intros v Hv. eapply mok_bind; [apply mok_ret, vec_parts; exact Hv|]. intros l Hl.
    eapply mok_bind; [apply IHi; tauto|]. intros iv Hiv. many. many. apply mok_ret. destruct (_ <? zlen l)%Z; [|exact I].
    destruct (nth_error l _) eqn:En; cbn; [|exact I]. rewrite Forall_forall in Hl. apply Hl. eapply nth_error_In; exact En.
  - apply Forall_app in He. destruct He as [He1 He2]. apply expr_text_args in He2.
    assert (Ha : forall a, In a args -> mok textual (eval_expr k E vs f a)). { intros a Hin. rewrite Forall_forall in IHa, He2. apply IHa; [exact Hin|apply He2; exact Hin]. }
    eapply mok_bind; [apply IHf; exact He1|]. intros fv _. many.
    destruct a.
    + destruct args as [|a [|b [|c [|d [|]]]]]; try (apply mok_ret; exact I).
      eapply mok_bind; [apply Ha; cbn; auto|]. intros va Hva. eapply mok_bind; [apply mok_ret, (int_is va)|]. intros za ->.
      eapply mok_bind; [apply Ha; cbn; auto|]. intros vb Hvb. eapply mok_bind; [apply mok_ret, (int_is vb)|]. intros zb ->.
      eapply mok_bind; [apply Ha; cbn; auto|]. intros vc Hvc. eapply mok_bind; [apply mok_ret, (int_is vc)|]. intros zc ->.
      eapply mok_bind; [apply Ha; cbn; auto 6|]. intros vd Hvd. eapply mok_bind; [apply mok_ret, (int_is vd)|]. intros zd ->.
      apply mok_ret. rewrite make_search_key_eq. apply key_struct_text.
    + destruct args as [|a [|]]; try (apply mok_ret; exact I).
      eapply mok_bind; [apply Ha; cbn; auto|]. intros va Hva. eapply mok_bind; [apply mok_ret, rok_any|].
      intros [[n ky] fs] _. destruct ky as [[[o t] g]|]; [|apply mok_ret; exact I]. apply mok_ret. rewrite make_disk_key_eq.
      constructor; [apply visb_ok; reflexivity|]. repeat (apply Forall_cons; [split; [apply visb_ok; reflexivity|constructor]|]). apply Forall_nil.
    + destruct args as [|a [|b [|]]]; try (apply mok_ret; exact I).
      eapply mok_bind; [apply Ha; cbn; auto|]. intros va Hva. many. eapply mok_bind; [apply Ha; cbn; auto|]. intros key Hkey. apply eval_search_text.
    + destruct args as [|a [|]]; try (apply mok_ret; exact I).
      eapply mok_bind; [apply Ha; cbn; auto|]. intros va Hva. apply mok_ret. constructor. apply type_str_bytes. exact Hva.
    + destruct args as [|a [|]]; try (apply mok_ret; exact I).
      eapply mok_bind; [apply Ha; cbn; auto|]. intros va Hva. many. apply mok_ret, checked_text.
    + destruct args as [|a args]; [|apply mok_ret; exact I]. apply mok_ret. constructor. constructor.
    + destruct args as [|a [|]]; try (apply mok_ret; exact I).
      eapply mok_bind; [apply Ha; cbn; auto|]. intros va Hva. apply mok_ret. pose proof (safe_bytes _ (safe_display va Hva)) as G. destruct va; try (constructor; exact G). exact Hva.
  - apply Forall_app in He. destruct He as [He1 He2]. specialize (IHl He1). specialize (IHr He2).
    assert (Hop : mok textual (do a <- eval_expr k E vs f l ;; do x <- mret (as_integer a) ;; do b <- eval_expr k E vs f r ;; do y <- mret (as_integer b) ;; mret (eval_int_op op x y))).
    { eapply mok_bind; [exact IHl|]. intros a Ha. many. eapply mok_bind; [exact IHr|]. intros b Hb. many. apply mok_ret, int_op_text. }
    destruct op; try exact Hop.
    + eapply mok_bind; [exact IHl|]. intros a Ha. eapply mok_bind; [exact IHr|]. intros b Hb. apply mok_ret, plus_text; assumption.
    + eapply mok_bind; [exact IHl|]. intros a Ha. eapply mok_bind; [exact IHr|]. intros b Hb. apply mok_ret. constructor.
    + eapply mok_bind; [exact IHl|]. intros a Ha. eapply mok_bind; [exact IHr|]. intros b Hb. apply mok_ret. constructor.
    + eapply mok_bind; [exact IHl|]. intros a Ha. many. destruct a0; [|apply mok_ret; constructor]. eapply mok_bind; [exact IHr|]. intros b Hb. many. apply mok_ret; constructor.
    + eapply mok_bind; [exact IHl|]. intros a Ha. many. destruct a0; [apply mok_ret; constructor|]. eapply mok_bind; [exact IHr|]. intros b Hb. many. apply mok_ret; constructor.
  - eapply mok_bind; [apply IH; exact He|]. intros v Hv. apply mok_ret, unop_text_ok.
  - apply Forall_app in He. eapply mok_bind; [apply IH; apply He|]. intros v Hv. many. destruct (_ <? 0)%Z; [apply mok_ret; exact I|]. apply mok_ret, eval_cast_text. exact Hf.
Qed.
End Exprs.

(** ** Statements *)
Lemma assoc_update_named n g l : (forall v, textual v -> rok textual (g v)) -> named l ->
  match assoc_update n g l with None => True | Some r => rok named r end.
Proof.
  intros Hg. induction 1 as [|[m v] l [Hm Hv] Hl IH]; cbn [assoc_update]; [exact I|]. destruct (str_eqb m n).
  - eapply rok_bind; [apply Hg; exact Hv|]. intros v' Hv'. constructor; [split; assumption|assumption].
  - destruct (assoc_update n g l) as [r|]; [|exact I]. eapply rok_bind; [exact IH|]. intros t Ht. constructor; [split; assumption|assumption].
Qed.
Section Stmts.
Variables (E : env) (inter : bool).
Hypothesis HE : env_typed E.
Lemma lhs_assign_text k vs f e : Forall scope_text vs -> fs_ok f -> forall g, expr_text e -> (forall v, textual v -> rok textual (g v)) ->
  mok (Forall scope_text) (lhs_assign k E vs f e g).
Proof.
  intros Hvs Hf. induction e as [x| | | | |e IHe i IHi|e IHe i IHi| | | |]; intros g He Hg; cbn [lhs_assign]; try (apply mok_ret; exact I).
  - apply mok_ret. destruct (vars_get x vs) as [v|] eqn:Ev; cbn [ok_or bind]; [|exact I].
    eapply rok_bind; [apply Hg; exact (vars_get_text _ _ _ Hvs Ev)|]. intros v' Hv'. destruct (vars_replace x v' vs) as [vs'|] eqn:Er; [|exact I]. exact (vars_replace_text _ _ _ Hv' Hvs _ Er).
  - apply Forall_app in He. destruct i; try (apply mok_ret; exact I). apply IHe; [apply He|]. intros v Hv. destruct v as [| | | | |n key fs]; try exact I.
    inversion Hv as [| | | | |? ? ? Hn Hfs]; subst. pose proof (assoc_update_named x g fs Hg Hfs) as G.
    destruct (assoc_update x g fs) as [r|]; [|exact I]. eapply rok_bind; [exact G|]. intros fs' Hfs'. constructor; assumption.
  - apply Forall_app in He. eapply mok_bind; [apply (eval_expr_text k E HE vs f Hvs Hf i); apply He|]. intros iv Hiv.
    many. apply IHe; [apply He|]. intros v Hv. destruct v as [| | |l h| |]; try exact I.
    inversion Hv as [| | | |? ? Hl|]; subst. any. destruct (_ <? zlen l)%Z; [|exact I].
    destruct (nth_error l _) as [x|] eqn:En; cbn [ok_or bind]; [|exact I]. assert (Hx : textual x) by (rewrite Forall_forall in Hl; apply Hl; eapply nth_error_In; exact En).
    eapply rok_bind; [apply Hg; exact Hx|]. intros x' Hx'. constructor. apply Forall_app. split; [apply Forall_firstn; exact Hl|]. constructor; [exact Hx'|apply Forall_skipn; exact Hl].
Qed.
Definition clean_state (s : est) : Prop := Forall scope_text (e_vars s) /\ fs_ok (e_fs s) /\ terminal_safe (w_out (e_w s)).
Definition cst (p : est * ires) : Prop := clean_state (fst p).
Lemma with_expr_text k s e c : clean_state s -> expr_text e -> (forall s v, clean_state s -> textual v -> cst (c s v)) -> cst (with_expr k E s e c).
Proof.
  intros (H1 & H2 & H3) He Hc. unfold with_expr. pose proof (eval_expr_text k E HE _ _ H1 H2 e He (e_w s)) as G.
  destruct (eval_expr k E (e_vars s) (e_fs s) e (e_w s)) as [w r] eqn:Ee. cbn [snd] in G. apply eval_asking in Ee. destruct Ee as [Eo _].
  assert (Hs : clean_state (with_w s w)) by (split; [exact H1|split; [exact H2|]]; cbn; rewrite Eo; exact H3).
  destruct r as [v|x|p|]; try exact Hs. apply Hc; assumption.
Qed.
Lemma do_write_text s t : clean_state s -> terminal_safe t -> cst (do_write E s t).
Proof.
  intros (H1 & H2 & H3) Ht. unfold do_write. destruct (sink E (tick (e_w s)) t); (split; [exact H1|split; [exact H2|]]; cbn; apply safe_app; [exact H3|]; auto). apply Forall_firstn. exact Ht.
Qed.
Lemma est_insert_text x v s : clean_state s -> textual v -> cst (est_insert x v s).
Proof.
  intros (H1 & H2 & H3) Hv. unfold est_insert. destruct (vars_insert x v (e_vars s)) as [vs|] eqn:Ei; [|split; [|split]; assumption].
  split; [exact (vars_insert_text _ _ _ _ Hv H1 Ei)|split; assumption].
Qed.
Lemma in_scope_text s b : clean_state s -> (forall s, clean_state s -> cst (b s)) -> cst (in_scope s b).
Proof.
  intros (H1 & H2 & H3) Hb. unfold in_scope. pose proof (Hb (with_vars s (push_scope (e_vars s)))) as G. destruct (b _) as [s' r].
  destruct G as (G1 & G2 & G3); [split; [constructor; [constructor|exact H1]|split; assumption]|]. cbn [fst] in *.
  destruct (e_vars s') as [|m vs] eqn:Ev; cbn [pop_scope]; [split; [|split]; try assumption; cbn; rewrite Ev; constructor|]. inversion G1; subst. split; [|split]; assumption.
Qed.
Definition stmt_text (st : stmt) : Prop := Forall expr_text (exprs st).
Definition ev_text (ev : est -> stmt -> est * ires) : Prop := forall s st, clean_state s -> stmt_text st -> cst (ev s st).
Lemma run_list_text ev : ev_text ev -> forall l s, clean_state s -> Forall stmt_text l -> cst (run_list ev s l).
Proof.
  intros Hev. induction l as [|st l IH]; intros s Hs Hl; cbn [run_list]; [exact Hs|]. inversion Hl as [|? ? L1 L2]; subst.
  pose proof (Hev s st Hs L1) as G. destruct (ev s st) as [s' r]. destruct r; try exact G. apply IH; assumption.
Qed.
Lemma while_text ev ke k : ev_text ev -> forall c b s, clean_state s -> expr_text c -> Forall stmt_text b -> cst (while_loop ev ke E k c b s).
Proof.
  intros Hev. induction k as [|k IH]; intros c b s Hs Hc Hb; cbn [while_loop]; [exact Hs|].
  apply with_expr_text; [exact Hs|exact Hc|]. intros s1 v Hs1 Hv. destruct (as_boolean v) as [[|]|e|p|]; try exact Hs1.
  pose proof (run_list_text ev Hev b s1 Hs1 Hb) as G. destruct (run_list ev s1 b) as [s' r]. destruct r; try exact G; apply IH; assumption.
Qed.
Lemma for_text ev x b : ev_text ev -> forall items s, clean_state s -> Forall textual items -> Forall stmt_text b -> cst (for_loop ev x b items s).
Proof.
  intros Hev. induction items as [|v items IH]; intros s Hs Hi Hb; cbn [for_loop]; [exact Hs|]. inversion Hi as [|? ? I1 I2]; subst.
  pose proof (est_insert_text x v s Hs I1) as G1. destruct (est_insert x v s) as [s1 r1]. destruct r1; try exact G1.
  pose proof (run_list_text ev Hev b s1 G1 Hb) as G3. destruct (run_list ev s1 b) as [s' r]. destruct r; try exact G3; apply IH; assumption.
Qed.
Lemma stmts_text l : Forall expr_text (flat_map exprs l) <-> Forall stmt_text l.
Proof. induction l as [|st l IH]; cbn [flat_map]; [split; constructor|]. rewrite Forall_app, IH. split; [intros [H1 H2]; constructor; assumption|intros H; inversion H; auto]. Qed.
Lemma fs_new_text p w : fs_ok (match snd (fs_new E p w) with Ok g => Some g | _ => None end).
Proof. pose proof (fs_new_good True E HE p w) as G. destruct (fs_new E p w) as [w' [g|e|q|]]; cbn in *; try (intros img X; discriminate). exact G. Qed.
Lemma eval_stmt_text n : ev_text (eval_stmt n E inter).
Proof.
  induction n as [|n IH]; intros s st Hs Hst; cbn [eval_stmt]; [exact Hs|]. unfold stmt_text in Hst.
  destruct st as [lhs rhs|c tb fb|c b|i r b| | | | |e|e|e]; cbn [exprs] in Hst.
  - inversion Hst as [|? ? E1 E2]; subst. inversion E2 as [|? ? E3 _]; subst. apply with_expr_text; [exact Hs|exact E3|]. intros s1 v Hs1 Hv.
    assert (G : cst (let '(w, r) := lhs_assign n E (e_vars s1) (e_fs s1) lhs (fun _ => Ok v) (e_w s1) in match r with Ok vs => (mk_est vs (e_fs s1) w, IOk) | _ => (with_w s1 w, ires_of r) end)).
    { destruct Hs1 as (H1 & H2 & H3). pose proof (lhs_assign_text n _ _ lhs H1 H2 (fun _ => Ok v) E1 (fun _ _ => Hv) (e_w s1)) as G.
      destruct (lhs_assign n E (e_vars s1) (e_fs s1) lhs (fun _ => Ok v) (e_w s1)) as [w r] eqn:El. cbn [snd] in G. apply lhs_asking in El. destruct El as [Eo _].
      destruct r as [vs|x|p|]; (split; [|split]); cbn; try assumption; rewrite Eo; exact H3. }
    destruct lhs; try exact G. apply est_insert_text; assumption.
  - inversion Hst as [|? ? E1 E2]; subst. apply Forall_app in E2. rewrite !stmts_text in E2. apply in_scope_text; [exact Hs|]. intros s1 Hs1. apply with_expr_text; [exact Hs1|exact E1|].
    intros s2 v Hs2 Hv. destruct (as_boolean v) as [b|x|p|]; try exact Hs2. apply run_list_text; [exact IH|exact Hs2|destruct b; apply E2].
  - inversion Hst as [|? ? E1 E2]; subst. rewrite stmts_text in E2. apply in_scope_text; [exact Hs|]. intros s1 Hs1. apply while_text; assumption.
  - inversion Hst as [|? ? E1 E2]; subst. inversion E2 as [|? ? E3 E4]; subst. rewrite stmts_text in E4. apply in_scope_text; [exact Hs|]. intros s1 Hs1.
    destruct i; try exact Hs1. apply with_expr_text; [exact Hs1|exact E3|]. intros s2 v Hs2 Hv. pose proof (vec_parts v Hv) as Gb.
    destruct (as_vec v) as [items|y|p|]; try exact Hs2. apply for_text; assumption.
  - exact Hs.
  - exact Hs.
  - apply do_write_text; [exact Hs|apply safe_help].
  - exact Hs.
  - inversion Hst as [|? ? E1 E2]; subst. apply with_expr_text; [exact Hs|exact E1|]. intros s1 v Hs1 Hv.
    destruct v as [|t| | | |]; try exact Hs1. cbn [as_string]. pose proof (fs_new_text (escape true t) (e_w s1)) as G.
    destruct (fs_new E (escape true t) (e_w s1)) as [w r] eqn:En. cbn [snd] in G. apply fs_new_cases in En. destruct En as (_ & Eo & _). destruct Hs1 as (H1 & H2 & H3).
    destruct r as [g|x|p|]; (split; [|split]); cbn; try assumption; rewrite Eo; exact H3.
  - inversion Hst as [|? ? E1 E2]; subst. apply with_expr_text; [exact Hs|exact E1|]. intros s1 v Hs1 Hv. pose proof (safe_print n (overflow_checks E) v Hv) as G.
    destruct (print_text n (overflow_checks E) v) as [t|x|p|]; try exact Hs1. apply do_write_text; [exact Hs1|]. apply safe_app; [exact G|apply nl_safe].
  - inversion Hst as [|? ? E1 E2]; subst. apply with_expr_text; [exact Hs|exact E1|]. intros s1 v Hs1 Hv. destruct inter; [apply do_write_text; [exact Hs1|]|exact Hs1].
    apply safe_app; [apply safe_display; exact Hv|apply nl_safe].
Qed.
End Stmts.

(** ** The parser *)
Lemma uni_app a b : unicode (a ++ b) <-> unicode a /\ unicode b.
Proof. apply Forall_app. Qed.
Lemma hexdigit_lt a x : hexdigit a x -> (x < 16)%N.
Proof. destruct 1; lia. Qed.
Lemma many_uni s toks : many str_token s toks -> unicode s -> Forall (fun t => match t with inl c => c < 0x110000 | inr u => u < 0x10000 end)%N toks.
Proof.
  induction 1 as [|s1 a s2 l H _ IH]; intros Hu; [constructor|]. apply uni_app in Hu. destruct Hu as [U1 U2]. constructor; [|auto].
  destruct H as [s c H|s u H].
  - destruct H; try lia. inversion U1; subst. assumption.
  - destruct H as [? ? ? ? ? ? ? ? H1 H2 H3 H4]. apply hexdigit_lt in H1, H2, H3, H4. lia.
Qed.
Lemma denotes_uni toks v : denotes toks v -> Forall (fun t => match t with inl c => c < 0x110000 | inr u => u < 0x10000 end)%N toks -> unicode v.
Proof.
  unfold unicode. induction 1; intros Hu; [constructor|..]; inversion Hu as [|? ? U1 U2]; subst; try (constructor; [lia|auto]).
  inversion U2 as [|? ? U3 U4]; subst. constructor; [|auto]. unfold high_surrogate, low_surrogate in *. lia.
Qed.
Lemma string_lit_uni s v : string_lit s v -> unicode s -> unicode v.
Proof.
  destruct 1 as [s toks v Hm Hd]. intros Hu. inversion Hu as [|? ? _ U]; subst. apply uni_app in U. destruct U as [U _].
  eapply denotes_uni; [exact Hd|]. eapply many_uni; eassumption.
Qed.
Ltac uni := repeat match goal with H : unicode (_ ++ _) |- _ => apply uni_app in H; destruct H end.
Lemma g_text : (forall k s e, g_expr k s e -> unicode s -> expr_text e) /\ (forall s e, g_full s e -> unicode s -> expr_text e) /\
  (forall s l, g_args s l -> unicode s -> Forall expr_text l) /\ (forall s l, g_more s l -> unicode s -> Forall expr_text l).
Proof.
  unfold expr_text. apply g_all_mi; intros; uni; cbn [strings]; auto; try (constructor; fail); try (apply Forall_app; split; auto; fail); try (constructor; auto; fail).
  - constructor; [eapply string_lit_uni; eassumption|constructor].
  - apply Forall_app. split; [auto|]. apply expr_text_args. auto.
Qed.
Lemma g_simple_text ok s st : g_simple ok s st -> unicode s -> stmt_text st.
Proof.
  unfold stmt_text. intros H Hu. destruct H; uni; cbn [exprs]; try apply Forall_nil;
    repeat match goal with H : g_full _ _ |- _ => apply (proj1 (proj2 g_text)) in H; [|assumption] | H : g_expr _ _ _ |- _ => apply (proj1 g_text) in H; [|assumption] end;
    repeat (apply Forall_cons; [|try apply Forall_nil]); try assumption.
  - eapply string_lit_uni; eassumption.
  - unfold expr_text in *. cbn [strings]. apply Forall_app; auto.
  - unfold expr_text in *. cbn [strings]. apply Forall_app; auto.
Qed.
Lemma g_stmts_text ok : (forall s st, g_stmt ok s st -> unicode s -> stmt_text st) /\ (forall s st, g_block ok s st -> unicode s -> stmt_text st) /\
  (forall s l, g_stmts ok s l -> unicode s -> Forall expr_text (flat_map exprs l)).
Proof.
  unfold stmt_text. apply g_stmt_all_mi; intros; uni; cbn [exprs flat_map]; repeat match goal with H : g_full _ _ |- _ => apply (proj1 (proj2 g_text)) in H; [|assumption] end; auto; try (constructor; auto; fail).
  - eapply g_simple_text; eassumption.
  - rewrite app_nil_r. constructor; auto.
  - constructor; [assumption|]. apply Forall_app; auto.
  - constructor; [constructor|]. constructor; auto.
  - apply Forall_app; auto.
Qed.
Lemma parse_text cmd l : parse cmd = Ok l -> unicode cmd -> Forall stmt_text l.
Proof.
  intros H Hu. apply parse_sound in H. destruct H as [s l w H _]. apply uni_app in Hu. apply stmts_text. eapply (proj2 (proj2 (g_stmts_text unreserved))); [exact H|apply Hu].
Qed.

(** ** Sessions *)
Lemma vars_new_text : Forall scope_text (vars_new VInt VFun).
Proof.
  unfold vars_new. constructor; [|constructor].
  assert (F : forall l m, scope_text m -> scope_text (fold_left (fun m f => scope_insert (func_name f) (VFun f) m) l m)).
  { induction l as [|g l IH]; intros m Hm; cbn [fold_left]; [exact Hm|]. apply IH. apply scope_insert_text; [constructor|exact Hm]. }
  apply F. assert (M : scope_text []) by constructor. revert M. generalize (@nil (str * value)) as m. generalize CONSTANTS as l.
  induction l as [|[x z] l IH]; intros m Hm; cbn [fold_left]; [exact Hm|]. apply IH. apply scope_insert_text; [constructor|exact Hm].
Qed.
Lemma eval_new_text E : env_typed E -> clean_state (eval_new E).
Proof.
  intros HE. unfold eval_new. destruct (getcwd E) as [cwd|].
  - pose proof (fs_new_text E HE cwd (mk_world [] [])) as G. destruct (fs_new E cwd (mk_world [] [])) as [w r] eqn:En. apply fs_new_cases in En. destruct En as (_ & Eo & _).
    split; [apply vars_new_text|]. split; [cbn; destruct r; try exact G; intros img X; discriminate|]. cbn. rewrite Eo. constructor.
  - split; [apply vars_new_text|]. split; [intros img X; discriminate|constructor].
Qed.
Lemma rt_eval_text n E inter r cmd : env_typed E -> unicode cmd -> clean_state (r_eval r) -> clean_state (r_eval (fst (rt_eval n E inter r cmd))).
Proof.
  intros HE Hu Hr. unfold rt_eval. destruct (parse cmd) as [l|e|p|] eqn:Hp; try exact Hr. apply parse_text in Hp; [|exact Hu].
  destruct (analyze (r_sem r) l) as [sem' [?|?|?|]]; try exact Hr. unfold eval_prog.
  pose proof (run_list_text _ (eval_stmt_text E inter HE n) l (r_eval r) Hr Hp) as G. destruct (run_list (eval_stmt n E inter) (r_eval r) l) as [s' q]. exact G.
Qed.
Lemma session_text E h r : env_typed E -> session E h r -> Forall unicode h -> clean_state (r_eval r).
Proof.
  intros HE. induction 1 as [|h r n inter cmd Hs IH]; intros Hu; [apply eval_new_text; exact HE|]. apply Forall_app in Hu. destruct Hu as [U1 U2]. inversion U2; subst. apply rt_eval_text; auto.
Qed.
Lemma textual_names v : textual v -> names_ok v /\ str_bytes v.
Proof.
  induction v as [z|s|b|vs h IH|f|n k fs IH] using value_ind'; intros H; inversion H; subst; try (split; exact I).
  - split; [exact I|assumption].
  - split; [apply names_arr|]; rewrite Forall_forall in *; [intros v Hv; apply IH; auto|].
    cbn. match goal with H : forall x, In x vs -> textual x |- _ => revert H end. revert IH. clear. induction vs as [|v vs IHv]; intros IH H1; [exact I|]. split; [apply IH; [left; reflexivity|apply H1; left; reflexivity]|]. apply IHv; intros; [apply IH|apply H1]; try right; assumption.
  - assert (N : forall t, vis t -> ~ In 10%N t). { intros t Ht Hin. unfold vis in Ht. rewrite Forall_forall in Ht. specialize (Ht _ Hin). unfold visible in Ht. lia. }
    match goal with H : Forall _ fs |- _ => rename H into Hfs end.
    split; [apply names_struct; split; [apply N; assumption|]; rewrite Forall_forall in *; intros f Hf; destruct (Hfs f Hf); split; [apply N; assumption|apply IH; assumption]|].
    cbn. revert IH Hfs. clear. induction 1 as [|f fs Hf Hfs IH]; intros X; [exact I|]. inversion X as [|? ? [_ X1] X2]; subst. split; [apply Hf; exact X1|exact (IH X2)].
Qed.
