(** Ranges of integers, internal errors and panics: every expression and statement. *)
From Verif Require Import Base Ast Structs Definitions Value Variables Fs Eval Semantics Lib Spec_Decode Proof_Decode Proof_Decode2 Spec_Search Proof_Search2 Spec_Safe.
From Coq Require Import Lia.
Arguments s_ s%string_scope.

(** ** Values *)
Definition key_i128 (k : option (Z * Z * Z)) : Prop :=
  match k with None => True | Some (a, b, c) => i128 a /\ i128 b /\ i128 c end.
Lemma ai_int z : all_i128 (VInt z) <-> i128 z.
Proof. split; [intros H; apply H; constructor|intros H z' Ho; inversion Ho; subst; exact H]. Qed.
Lemma ai_bool b : all_i128 (VBool b). Proof. intros z H; inversion H. Qed.
Lemma ai_str b : all_i128 (VStr b). Proof. intros z H; inversion H. Qed.
Lemma ai_fun b : all_i128 (VFun b). Proof. intros z H; inversion H. Qed.
Lemma ai_arr l h : all_i128 (VArr l h) <-> Forall all_i128 l.
Proof.
  rewrite Forall_forall. split.
  - intros H v Hv z Hz. apply H. econstructor; eassumption.
  - intros H z Hz. inversion Hz; subst. eapply H; eassumption.
Qed.
Lemma ai_struct n k fs : all_i128 (VStruct n k fs) <-> key_i128 k /\ Forall all_i128 (map snd fs).
Proof.
  rewrite Forall_forall. split.
  - intros H. split; [destruct k as [[[a b] c]|]; cbn; [|exact I]; repeat split; apply H; constructor; auto|].
    intros v Hv z Hz. apply in_map_iff in Hv. destruct Hv as ([x v'] & <- & Hv). apply H. econstructor; eassumption.
  - intros [Hk H] z Hz. inversion Hz; subst.
    + eapply H; [|eassumption]. apply in_map_iff. eexists (_, _). split; [reflexivity|eassumption].
    + cbn in Hk. decompose [or] H1; subst; tauto.
Qed.
#[export] Hint Resolve ai_bool ai_str ai_fun : core.

(** ** Results: Ok satisfies P; the error is not the internal one; with T, the only panic is an
    arithmetic overflow in a debug build *)
Definition rgood {A} (T : Prop) (oc : bool) (P : A -> Prop) (r : res A) : Prop :=
  match r with
  | Ok a => P a
  | Err e => e <> EUnhandledControlFlow
  | Panic p => T -> p = PArith /\ oc = true
  | Fuel => True
  end.
Lemma rgood_bind {A B} T oc (P : A -> Prop) (Q : B -> Prop) (m : res A) (g : A -> res B) :
  rgood T oc P m -> (forall a, m = Ok a -> P a -> rgood T oc Q (g a)) -> rgood T oc Q (bind m g).
Proof. destruct m as [a| | |]; cbn; auto. Qed.
Lemma rgood_weak {A} T oc (P Q : A -> Prop) (m : res A) : rgood T oc P m -> (forall a, P a -> Q a) -> rgood T oc Q m.
Proof. destruct m; cbn; auto. Qed.
Lemma rgood_ensure T oc c e : e <> EUnhandledControlFlow -> rgood T oc (fun _ => c = true) (ensure c e).
Proof. destruct c; cbn; auto. Qed.
Lemma rgood_ok_or {A} T oc (o : option A) e : e <> EUnhandledControlFlow -> rgood T oc (fun a => o = Some a) (ok_or o e).
Proof. destruct o; cbn; auto. Qed.

Lemma rgood_usize_add T oc a b : rgood T oc (fun _ => True) (usize_add oc a b).
Proof. unfold usize_add. destruct (a + b <? 2 ^ 64)%Z; [exact I|]. destruct oc; cbn; auto. Qed.
Lemma rgood_usize_mul T oc a b : rgood T oc (fun _ => True) (usize_mul oc a b).
Proof. unfold usize_mul. destruct (a * b <? 2 ^ 64)%Z; [exact I|]. destruct oc; cbn; auto. Qed.

(** ** Decoding (panics are treated by [decode_total]) *)
Local Notation byte_list b := (Forall (fun b => (b < 256)%N) b).
Lemma slice_bytes oc (b : str) x y : byte_list b -> rgood False oc (fun s => byte_list s /\ (length s <= Z.to_nat (y - x))) (slice b x y).
Proof.
  intros H. unfold slice. destruct ((x <=? y) && (y <=? zlen b))%Z; [|intros []].
  cbn. split; [apply Forall_firstn, Forall_skipn; exact H|]. rewrite firstn_length. lia.
Qed.
Lemma slice_from_bytes oc (b : str) x : byte_list b -> rgood False oc (fun s => byte_list s) (slice_from b x).
Proof. intros H. unfold slice_from. destruct (x <=? zlen b)%Z; [apply Forall_skipn; exact H|intros []]. Qed.

(** every callback in t satisfies Q *)
Fixpoint cbs (Q : (str -> res (list field)) -> Prop) (t : ty) : Prop :=
  match t with
  | TU8 | TU16 | TU32 | TU64 | TTrailStr _ => True
  | TArray t _ => cbs Q t
  | TTrailTypes t _ => cbs Q t
  | TStruct _ _ fs => (fix go l := match l with [] => True | f :: l' => cbs Q (snd f) /\ go l' end) fs
  | TUnion _ fs => (fix go l := match l with [] => True | f :: l' => cbs Q (snd f) /\ go l' end) fs
  | TDyn cb => Q cb
  end.
Lemma cbs_list Q fs : (fix go (l : list field) := match l with [] => True | f :: l' => cbs Q (snd f) /\ go l' end) fs <-> Forall (fun f => cbs Q (snd f)) fs.
Proof. induction fs as [|f fs IH]; [split; [constructor|trivial]|]. split; [intros [H1 H2]; constructor; tauto|intros H; inversion H; tauto]. Qed.
Lemma cbs_true t : cbs (fun _ => True) t.
Proof. induction t using ty_ind'; cbn [cbs]; auto; apply cbs_list; assumption. Qed.

Section Decode.
Variable oc : bool.
Variable dyn : str -> (Z -> Z -> Z -> bool) -> (str -> res (list field)) -> str -> res (list (str * value) * Z).
Variable Q : (str -> res (list field)) -> Prop.
Hypothesis Hdyn : forall nm km cb b, Q cb -> byte_list b -> rgood False oc (fun p => Forall all_i128 (map snd (fst p))) (dyn nm km cb b).
Let P1 (v : value) := all_i128 v.

Lemma le_int_good n b : (0 <= n <= 8)%Z -> byte_list b -> rgood False oc all_i128 (le_int n b).
Proof.
  intros Hn Hb. unfold le_int. eapply rgood_bind; [apply slice_bytes; exact Hb|]. intros s _ [Hs Hl]. apply ai_int. apply le_range in Hs.
  assert (256 ^ Z.of_nat (length s) <= 256 ^ 8)%Z by (apply Z.pow_le_mono_r; lia). unfold i128. change (256 ^ 8)%Z with (2 ^ 64)%Z in H.
  assert (2 ^ 64 < 2 ^ 127)%Z by reflexivity. lia.
Qed.
Lemma array_loop_good ev sz n : (forall b, byte_list b -> rgood False oc all_i128 (ev b)) -> forall i b, byte_list b ->
  rgood False oc (Forall all_i128) (array_loop ev sz n i b).
Proof.
  intros Hev. induction n as [|n IH]; intros i b Hb; cbn [array_loop]; [constructor|].
  eapply rgood_bind; [apply slice_from_bytes; exact Hb|]. intros s _ Hs. eapply rgood_bind; [apply Hev; exact Hs|]. intros v _ Hv.
  eapply rgood_bind; [apply IH; exact Hb|]. intros r _ Hr. constructor; assumption.
Qed.
Lemma trail_loop_good ev sz n : (forall b, byte_list b -> rgood False oc all_i128 (ev b)) -> forall b off, byte_list b ->
  rgood False oc (fun p => Forall all_i128 (fst p)) (trail_loop oc ev sz n b off).
Proof.
  intros Hev. induction n as [|n IH]; intros b off Hb; cbn [trail_loop]; [constructor|].
  eapply rgood_bind; [apply rgood_usize_add|]. intros stop _ _. eapply rgood_bind; [apply slice_bytes; exact Hb|]. intros s _ [Hs _].
  eapply rgood_bind; [apply Hev; exact Hs|]. intros v _ Hv.
  eapply rgood_bind; [apply IH; exact Hb|]. intros r _ Hr. constructor; assumption.
Qed.
Section Tv.
Variable tv : ty -> str -> res value.
Lemma field_good f b : (forall b, byte_list b -> rgood False oc all_i128 (tv (snd f) b)) -> byte_list b ->
  rgood False oc (fun r => Forall all_i128 (map snd r)) (field_from_bytes tv f b).
Proof.
  intros Htv Hb. unfold field_from_bytes. eapply rgood_bind; [apply rgood_ensure; discriminate|]. intros _ _ _.
  eapply rgood_bind; [apply Htv; exact Hb|]. intros v _ Hv. destruct (fst f); [cbn; auto|].
  destruct v; try discriminate. cbn. apply ai_struct in Hv. tauto.
Qed.
Lemma get_field_value_good n acc : rgood False oc (fun _ => True) (get_field_value n acc).
Proof. unfold get_field_value. destruct (assoc n acc) as [v|]; [|discriminate]. destruct v; cbn; auto; discriminate. Qed.
Lemma struct_loop_good nm km fs b : byte_list b ->
  Forall (fun f => cbs Q (snd f)) fs ->
  Forall (fun f => cbs Q (snd f) -> forall b, byte_list b -> rgood False oc all_i128 (tv (snd f) b)) fs ->
  (forall t n, In (TTrailTypes t n) (map snd fs) -> forall b, byte_list b -> rgood False oc all_i128 (tv t b)) ->
  forall off acc, Forall all_i128 (map snd acc) -> rgood False oc (fun r => Forall all_i128 (map snd r)) (struct_loop oc dyn tv nm km fs b off acc).
Proof.
  intros Hb. induction fs as [|f fs IH]; intros HQ Htv Htt off acc Hacc; cbn [struct_loop]; [exact Hacc|].
  inversion HQ as [|? ? Q1 Q2]; subst. inversion Htv as [|? ? T1 T2]; subst.
  assert (IH' : forall off acc, Forall all_i128 (map snd acc) -> rgood False oc (fun r => Forall all_i128 (map snd r)) (struct_loop oc dyn tv nm km fs b off acc)).
  { apply IH; auto. intros t n Hin. apply (Htt t n). right. exact Hin. }
  assert (D : rgood False oc (fun r => Forall all_i128 (map snd r)) (let* rest := slice_from b off in let* r := field_from_bytes tv f rest in
      let* offset' := usize_add oc off (ty_size (snd f)) in struct_loop oc dyn tv nm km fs b offset' (acc ++ r))).
  { eapply rgood_bind; [apply slice_from_bytes; exact Hb|]. intros rest _ Hr. eapply rgood_bind; [apply field_good; [apply T1; exact Q1|exact Hr]|]. intros r _ Hv.
    eapply rgood_bind; [apply rgood_usize_add|]. intros o _ _. apply IH'. rewrite map_app, Forall_app. auto. }
  destruct (snd f) as [| | | |t n|nm' km' fs'|nm' fs'|n|t n|cb] eqn:Ef; try exact D.
  - eapply rgood_bind; [apply get_field_value_good|]. intros len _ _. eapply rgood_bind; [apply rgood_usize_add|]. intros stop _ _.
    eapply rgood_bind; [apply rgood_ensure; discriminate|]. intros _ _ _. eapply rgood_bind; [apply rgood_ok_or; discriminate|]. intros x _ _.
    eapply rgood_bind; [apply slice_bytes; exact Hb|]. intros s _ _. eapply rgood_bind; [apply rgood_usize_add|]. intros o _ _.
    apply IH'. rewrite map_app, Forall_app. cbn; auto.
  - eapply rgood_bind; [apply get_field_value_good|]. intros count _ _. eapply rgood_bind; [apply rgood_usize_mul|]. intros total _ _. eapply rgood_bind; [apply rgood_usize_add|]. intros stop _ _.
    eapply rgood_bind; [apply rgood_ensure; discriminate|]. intros _ _ _.
    eapply rgood_bind; [apply trail_loop_good; [|exact Hb]; apply (Htt t n); left; exact Ef|]. intros r _ Hr.
    eapply rgood_bind; [apply rgood_ok_or; discriminate|]. intros x _ _. apply IH'. rewrite map_app, Forall_app. split; [exact Hacc|]. constructor; [apply ai_arr; exact Hr|constructor].
  - eapply rgood_bind; [apply slice_from_bytes; exact Hb|]. intros rest _ Hr. cbn [cbs] in Q1. eapply rgood_bind; [apply Hdyn; assumption|]. intros r _ Hv.
    eapply rgood_bind; [apply rgood_usize_add|]. intros o _ _. apply IH'. rewrite map_app, Forall_app. auto.
Qed.
Lemma union_loop_good fs b : byte_list b ->
  Forall (fun f => forall b, byte_list b -> rgood False oc all_i128 (tv (snd f) b)) fs ->
  forall acc, Forall all_i128 (map snd acc) -> rgood False oc (fun r => Forall all_i128 (map snd r)) (union_loop tv fs b acc).
Proof.
  intros Hb. induction 1 as [|f fs Hf Hfs IH]; intros acc Hacc; cbn [union_loop]; [exact Hacc|].
  eapply rgood_bind; [apply field_good; [exact Hf|exact Hb]|]. intros r _ Hr. apply IH. rewrite map_app, Forall_app. auto.
Qed.
End Tv.

Lemma to_value_good t : cbs Q t ->
  (forall b, byte_list b -> rgood False oc all_i128 (to_value oc dyn t b)) /\
  (forall t' n, t = TTrailTypes t' n -> forall b, byte_list b -> rgood False oc all_i128 (to_value oc dyn t' b)).
Proof.
  induction t as [| | | |t n IH|nm km fs IH|nm fs IH|n|t n IH|cb] using ty_ind'; intros HQ; (split; [|try discriminate]); try (intros b Hb; cbn [to_value]).
  - unfold index. destruct (nth_error b _) as [x|] eqn:E; [|intros []]. apply nth_error_In in E. rewrite Forall_forall in Hb. specialize (Hb _ E). apply ai_int. unfold i128.
    assert (256 < 2 ^ 127)%Z by reflexivity. lia.
  - apply le_int_good; [lia|exact Hb].
  - apply le_int_good; [lia|exact Hb].
  - apply le_int_good; [lia|exact Hb].
  - eapply rgood_bind; [apply array_loop_good; [apply IH; exact HQ|exact Hb]|]. intros l _ Hl. apply ai_arr. exact Hl.
  - eapply rgood_bind; [apply rgood_ensure; discriminate|]. intros _ _ _. cbn [cbs] in HQ. apply cbs_list in HQ.
    eapply rgood_bind.
    + apply struct_loop_good; [exact Hb|exact HQ| | |constructor].
      * rewrite Forall_forall in *. intros f Hf Hc. apply IH; assumption.
      * intros t n Hin. apply in_map_iff in Hin. destruct Hin as (f & Ef & Hf). rewrite Forall_forall in *. eapply (proj2 (IH f Hf (HQ f Hf))). exact Ef.
    + intros r _ Hr. apply ai_struct. split; [exact I|exact Hr].
  - cbn [cbs] in HQ. apply cbs_list in HQ. eapply rgood_bind.
    + apply union_loop_good; [exact Hb| |constructor]. rewrite Forall_forall in *. intros f Hf. apply IH; auto.
    + intros r _ Hr. apply ai_struct. split; [exact I|exact Hr].
  - intros [].
  - intros [].
  - intros E. injection E as <- <-. apply IH. exact HQ.
  - intros [].
Qed.
Lemma from_bytes_gen_good s key b : Forall (fun f => cbs Q (snd f)) (st_fields s) -> key_i128 key -> byte_list b ->
  rgood False oc all_i128 (from_bytes_gen oc dyn s key b).
Proof.
  intros HQ Hk Hb. unfold from_bytes_gen. eapply rgood_bind; [apply rgood_ensure; discriminate|]. intros _ _ _.
  eapply rgood_bind.
  - apply struct_loop_good; [exact Hb|exact HQ| | |constructor].
    + rewrite Forall_forall in *. intros f Hf Hc. apply to_value_good; assumption.
    + intros t n Hin. apply in_map_iff in Hin. destruct Hin as (f & Ef & Hf). rewrite Forall_forall in *. eapply (proj2 (to_value_good (snd f) (HQ f Hf))). exact Ef.
  - intros r _ Hr. apply ai_struct. split; [exact Hk|exact Hr].
Qed.
End Decode.

Lemma dyn_struct_good oc nm km cb b : (forall b, rgood False oc (fun _ => True) (cb b)) -> byte_list b ->
  rgood False oc (fun p => Forall all_i128 (map snd (fst p))) (dyn_struct oc nm km cb b).
Proof.
  intros Hcb Hb. unfold dyn_struct. eapply rgood_bind; [apply Hcb|]. intros fs _ _. eapply rgood_bind; [apply rgood_ensure; discriminate|]. intros _ _ _.
  eapply rgood_bind.
  - apply (from_bytes_gen_good oc dyn_none (fun _ => True)); [|apply Forall_forall; intros f _; apply cbs_true|exact I|exact Hb]. intros ? ? ? ? _ _ [].
  - intros v _ Hv. destruct v; try (intros []). cbn. apply ai_struct in Hv. tauto.
Qed.

Lemma inline_refs_good oc k : forall b off acc, rgood False oc (fun _ => True) (inline_refs k b off acc).
Proof.
  induction k as [|k IH]; intros b off acc; cbn [inline_refs]; [exact I|]. destruct (off <? zlen b)%Z.
  - eapply rgood_bind; [apply rgood_ensure; discriminate|]. intros _ _ _. unfold index. destruct (nth_error b _); cbn [bind]; [|intros []].
    destruct (inline_ref_layout _) as [[fs sz]|]; [apply IH|discriminate].
  - eapply rgood_bind; [apply rgood_ensure; discriminate|]. intros _ _ _. exact I.
Qed.
Lemma extent_item_fields_good oc b : rgood False oc (fun _ => True) (extent_item_fields b).
Proof. unfold extent_item_fields. eapply rgood_bind; [apply rgood_ensure; discriminate|]. intros _ _ _. apply inline_refs_good. Qed.
Lemma file_extent_item_fields_good oc b : rgood False oc (fun _ => True) (file_extent_item_fields b).
Proof.
  unfold file_extent_item_fields. eapply rgood_bind; [apply rgood_ensure; discriminate|]. intros _ _ _. unfold index. destruct (nth_error b _); cbn [bind]; [|intros []].
  repeat match goal with |- context [if ?c then _ else _] => destruct c end; try exact I; discriminate.
Qed.
Lemma shipped_cbs oc s : In s STRUCTS -> Forall (fun f => cbs (fun cb => forall b, rgood False oc (fun _ => True) (cb b)) (snd f)) (st_fields s).
Proof.
  revert s. apply Forall_forall. unfold STRUCTS.
  repeat (apply Forall_cons; [cbn [st_fields]; repeat (apply Forall_cons; [cbn;
    repeat match goal with |- _ /\ _ => split | |- True => exact I end;
    first [exact (extent_item_fields_good oc)|exact (file_extent_item_fields_good oc)|exact I|idtac]|]); try apply Forall_nil|]). apply Forall_nil.
Qed.
Lemma from_bytes_good T oc s key b : In s STRUCTS -> key_i128 key -> bytes_ok b -> rgood T oc all_i128 (from_bytes oc s key b).
Proof.
  intros Hs Hk Hb. assert (G : rgood False oc all_i128 (from_bytes oc s key b)).
  { apply (from_bytes_gen_good oc (dyn_struct oc) (fun cb => forall b, rgood False oc (fun _ => True) (cb b))); [|apply shipped_cbs; exact Hs|exact Hk|apply Hb].
    intros nm km cb b' Hq Hb'. apply dyn_struct_good; assumption. }
  destruct (decode_total oc s key b Hs Hb) as [(ms & E)|(e & E)]; rewrite E in *; exact G.
Qed.

(** ** Variables *)
Definition scope_ok (m : scope value) : Prop := Forall (fun p => all_i128 (snd p)) m.
Lemma store_iff vs : store_i128 vs <-> Forall scope_ok vs.
Proof.
  unfold store_i128, scope_ok. rewrite Forall_forall. split.
  - intros H m Hm. apply Forall_forall. intros [x v] Hv. eapply H; eassumption.
  - intros H m x v Hm Hv. specialize (H m Hm). rewrite Forall_forall in H. apply (H _ Hv).
Qed.
Lemma assoc_good {A} (P : A -> Prop) x (m : list (str * A)) a : Forall (fun p => P (snd p)) m -> assoc x m = Some a -> P a.
Proof. induction 1 as [|[y b] m Hb Hm IH]; cbn; [discriminate|]. destruct (str_eqb y x); [intros E; injection E as <-; exact Hb|exact IH]. Qed.
Lemma vars_get_good x vs v : Forall scope_ok vs -> vars_get x vs = Some v -> all_i128 v.
Proof.
  induction 1 as [|m vs Hm Hvs IH]; cbn; [discriminate|]. destruct (assoc x m) eqn:E; [|exact IH]. intros H; injection H as <-. exact (assoc_good _ _ _ _ Hm E).
Qed.
Lemma scope_insert_good x v m : all_i128 v -> scope_ok m -> scope_ok (scope_insert x v m).
Proof.
  intros Hv. unfold scope_ok. induction 1 as [|[y b] m Hb Hm IH]; cbn; [constructor; [exact Hv|constructor]|]. destruct (str_eqb y x); constructor; auto.
Qed.
Lemma vars_replace_good x v vs : all_i128 v -> Forall scope_ok vs -> forall vs', vars_replace x v vs = Some vs' -> Forall scope_ok vs' /\ length vs' = length vs.
Proof.
  intros Hv. induction 1 as [|m vs Hm Hvs IH]; cbn; intros vs' H; [discriminate|]. destruct (assoc x m).
  - injection H as <-. split; [constructor; [apply scope_insert_good; assumption|exact Hvs]|reflexivity].
  - destruct (vars_replace x v vs) as [r|]; [|discriminate]. injection H as <-. destruct (IH _ eq_refl) as [H1 H2]. split; [constructor; assumption|cbn; congruence].
Qed.
Lemma vars_replace_some {A} x (a : A) vs : vars_get x vs <> None -> exists vs', vars_replace x a vs = Some vs'.
Proof.
  induction vs as [|m vs IH]; cbn; [congruence|]. destruct (assoc x m); [eauto|]. intros H. destruct (IH H) as (r & ->). eauto.
Qed.
Lemma vars_insert_good x v vs : all_i128 v -> Forall scope_ok vs -> vs <> [] -> exists vs', vars_insert x v vs = Some vs' /\ Forall scope_ok vs' /\ length vs' = length vs.
Proof.
  intros Hv Hs Hne. unfold vars_insert. destruct (vars_replace x v vs) as [r|] eqn:E; [exists r; split; [reflexivity|apply (vars_replace_good _ _ _ Hv Hs _ E)]|].
  destruct Hs as [|m vs Hm Hs]; [congruence|]. eexists. split; [reflexivity|]. split; [constructor; [apply scope_insert_good; assumption|exact Hs]|reflexivity].
Qed.

(** ** Operators *)
From Verif Require Import Spec_Arith Proof_Arith.
Lemma in_i128_i128 z : in_i128 z = true <-> i128 z.
Proof. apply in_i128_iff. Qed.
Lemma wrap_i128 z : i128 (wrap128 z).
Proof. apply wrap128_range. Qed.
Lemma checked_good T oc z e : e <> EUnhandledControlFlow -> rgood T oc all_i128 (let* r := ok_or (checked z) e in Ok (VInt r)).
Proof. intros He. unfold checked. destruct (in_i128 z) eqn:E; cbn; [apply ai_int, in_i128_i128; exact E|exact He]. Qed.
Lemma u_i128 bits z : (0 <= bits <= 64)%Z -> u bits z -> i128 z.
Proof. intros Hb [H1 H2]. assert (2 ^ bits <= 2 ^ 64)%Z by (apply Z.pow_le_mono_r; lia). assert (2 ^ 64 < 2 ^ 127)%Z by reflexivity. unfold i128. lia. Qed.
Lemma eval_plus_good T oc a b : all_i128 a -> all_i128 b -> rgood T oc all_i128 (eval_plus a b).
Proof.
  intros Ha Hb. destruct a as [a|a|a|a h|a|n k fs]; destruct b as [b|b|b|b hb|b|n' k' fs']; cbn [eval_plus]; try (cbn; auto; discriminate); try (apply checked_good; discriminate);
    apply ai_arr; apply ai_arr in Ha; apply Forall_app; split; auto.
Qed.
Lemma quot_i128 a b : i128 a -> b <> 0%Z -> ~ (a = I128_MIN /\ b = -1)%Z -> i128 (Z.quot a b).
Proof.
  intros Ha Hb Hn. pose proof (quot_abs_le a b Hb) as H. unfold i128, I128_MIN in *. assert (0 < 2 ^ 127)%Z by reflexivity.
  destruct (Z.eq_dec (Z.quot a b) (2 ^ 127)) as [E|E]; [|lia]. exfalso.
  assert (Ea : a = (- 2 ^ 127)%Z) by lia. destruct (quot_abs_eq a b Hb) as [|Hb1]; [lia|lia|].
  assert (b = 1 \/ b = -1)%Z as [->| ->] by lia; [rewrite Z.quot_1_r in E; lia|apply Hn; auto].
Qed.
Lemma rem_i128 a b : i128 a -> b <> 0%Z -> i128 (Z.rem a b).
Proof.
  intros Ha Hb. assert (Z.abs (Z.rem a b) <= Z.abs a)%Z by (rewrite <- Z.rem_abs by exact Hb; apply Z.rem_le; lia).
  assert (H0 : (0 <= Z.rem a b * a)%Z) by (apply Z.rem_sign_mul; exact Hb). unfold i128 in *. assert (0 < 2 ^ 127)%Z by reflexivity. nia.
Qed.
Lemma eval_int_op_good oc op a b : (forall b, eval_int_op op a b <> Panic PExplicit) -> i128 a -> i128 b -> rgood True oc all_i128 (eval_int_op op a b).
Proof.
  intros Hop Ha Hb. pose proof (Hop 0%Z) as H0. destruct op; cbn [eval_int_op] in *; try congruence; try (cbn; apply ai_bool); try (apply checked_good; discriminate).
  - destruct (Z.eqb_spec b 0) as [E|E]; [discriminate|]. unfold checked_div. rewrite (proj2 (Z.eqb_neq b 0)) by exact E.
    destruct ((a =? I128_MIN) && (b =? -1))%Z eqn:E2; cbn; [discriminate|]. apply ai_int, quot_i128; [exact Ha|exact E|]. intros [E3 E4]. apply andb_false_iff in E2. destruct E2 as [E2|E2]; apply Z.eqb_neq in E2; auto.
  - destruct (Z.eqb_spec b 0) as [E|E]; [discriminate|]. unfold checked_rem. rewrite (proj2 (Z.eqb_neq b 0)) by exact E.
    destruct ((a =? I128_MIN) && (b =? -1))%Z eqn:E2; cbn; [discriminate|]. apply ai_int, rem_i128; [exact Ha|exact E].
  - apply ai_int. apply (bitop_fits OBitOr a b Ha Hb).
  - apply ai_int. apply (bitop_fits OBitAnd a b Ha Hb).
  - apply ai_int. apply (bitop_fits OBitXor a b Ha Hb).
  - unfold try_into_u. destruct ((0 <=? b) && (b <? 2 ^ 32))%Z; cbn [bind]; [|discriminate]. unfold checked_shl. destruct (b <? 128)%Z; cbn; [apply ai_int, wrap_i128|discriminate].
  - unfold try_into_u. destruct (Z.leb_spec 0 b), (Z.ltb_spec b (2 ^ 32)); cbn [bind andb]; try discriminate. unfold checked_shr. destruct (b <? 128)%Z; cbn; [apply ai_int|discriminate].
    rewrite Z.shiftr_div_pow2 by lia. clear -Ha H. unfold i128 in *. assert (0 < 2 ^ b)%Z by (apply Z.pow_pos_nonneg; lia). set (p := (2 ^ b)%Z) in *.
    assert (0 < 2 ^ 127)%Z by reflexivity. pose proof (Z.div_mod a p ltac:(lia)). pose proof (Z.mod_pos_bound a p ltac:(lia)). split; [|nia].
    apply Z.div_le_lower_bound; nia.
Qed.
Lemma eval_unop_good T oc op v : all_i128 v -> rgood T oc all_i128 (eval_unop oc op v).
Proof.
  intros Hv. destruct op; cbn [eval_unop].
  - destruct v as [z|?|?|? ?|?|? ? ?]; try discriminate. cbn. apply ai_int. apply ai_int in Hv. unfold i128 in *. pose proof (Z.add_lnot_diag z). lia.
  - destruct v; cbn; auto; discriminate.
  - destruct v as [z|?|?|? ?|?|? ? ?]; try discriminate. cbn [as_integer bind]. unfold i128_neg. destruct (in_i128 (- z)) eqn:E; cbn; [apply ai_int, in_i128_i128; exact E|].
    destruct oc; cbn; [auto|apply ai_int, wrap_i128].
Qed.

(** ** Expressions *)
From Verif Require Import Spec_Session Proof_Session.
Definition mgood {A} (T : Prop) (oc : bool) (P : A -> Prop) (m : M A) : Prop := forall w, rgood T oc P (snd (m w)).
Lemma mgood_ret {A} T oc (P : A -> Prop) r : rgood T oc P r -> mgood T oc P (mret r).
Proof. intros H w. exact H. Qed.
Lemma mgood_bind {A B} T oc (P : A -> Prop) (Q : B -> Prop) (m : M A) (g : A -> M B) :
  mgood T oc P m -> (forall a, P a -> mgood T oc Q (g a)) -> mgood T oc Q (mbind m g).
Proof.
  intros Hm Hg w. unfold mbind. specialize (Hm w). destruct (m w) as [w1 [a| | |]]; cbn in *; auto. apply Hg. exact Hm.
Qed.
Definition fs_ok (f : option fs) : Prop := forall img, f = Some (FsImage img) -> bytes_ok img.
Definition known_type (t : expr) : Prop := exists s, In s STRUCTS /\ t = EIdent (st_name s).

Lemma as_integer_good T oc v : all_i128 v -> rgood T oc i128 (as_integer v).
Proof. intros H. destruct v; try discriminate. apply ai_int. exact H. Qed.
Lemma as_integer_is T oc v : all_i128 v -> rgood T oc (fun z => v = VInt z /\ i128 z) (as_integer v).
Proof. intros H. destruct v; try discriminate. split; [reflexivity|]. apply ai_int. exact H. Qed.
Lemma as_boolean_good T oc v : rgood T oc (fun _ => True) (as_boolean v).
Proof. destruct v; try discriminate. exact I. Qed.
Lemma as_function_good T oc v : rgood T oc (fun _ => True) (as_function v).
Proof. destruct v; try discriminate. exact I. Qed.
Lemma as_vec_good T oc v : all_i128 v -> rgood T oc (Forall all_i128) (as_vec v).
Proof. intros H. destruct v; try discriminate. apply ai_arr in H. exact H. Qed.
Lemma as_struct_good T oc v : all_i128 v -> rgood T oc (fun s => key_i128 (snd (fst s)) /\ Forall all_i128 (map snd (snd s))) (as_struct v).
Proof. intros H. destruct v; try discriminate. apply ai_struct in H. exact H. Qed.
Lemma try_into_u_good T oc bits z : rgood T oc (fun _ => True) (try_into_u bits z).
Proof. unfold try_into_u. destruct ((0 <=? z) && (z <? 2 ^ bits))%Z; [exact I|discriminate]. Qed.
Lemma get_field_good T oc s fs n : Forall all_i128 (map snd fs) -> rgood T oc all_i128 (get_field s fs n).
Proof. intros H. unfold get_field. destruct (assoc n fs) as [v|] eqn:E; [|discriminate]. cbn. rewrite Forall_map in H. exact (assoc_good _ _ _ _ H E). Qed.

Section Exprs.
Variables (T : Prop) (k : nat) (E : env).
Hypothesis HE : env_typed E.
Let oc := overflow_checks E.

Lemma raw_bytes c : raw_item c -> bytes_ok (snd c).
Proof.
  intros (_ & _ & _ & _ & Hl & Hz & Hb). split; [exact Hb|]. unfold u in Hl. rewrite <- Hz. assert (2 ^ 32 < 2 ^ 63)%Z by reflexivity. lia.
Qed.
Lemma raw_key c : raw_item c -> key_i128 (Some (h_objectid (fst c), h_type (fst c), h_offset (fst c))).
Proof. intros (_ & H1 & H2 & H3 & _). cbn. repeat split; eapply u_i128; try eassumption; lia. Qed.

Lemma decode_chunks_good cs : Forall raw_item cs -> mgood T oc (Forall all_i128) (decode_chunks oc cs).
Proof.
  induction 1 as [|[h b] cs Hc Hcs IH]; intros w; cbn [decode_chunks]; [constructor|].
  destruct (find _ STRUCTS) as [s|] eqn:Ef; [|apply IH]. apply find_some in Ef. destruct Ef as [Hin _].
  change (rgood T oc (Forall all_i128) (snd ((do v <- mret (from_bytes oc s (Some (h_objectid h, h_type h, h_offset h)) b) ;; do vs <- decode_chunks oc cs ;; mret (Ok (v :: vs))) w))).
  revert w. change (mgood T oc (Forall all_i128) (do v <- mret (from_bytes oc s (Some (h_objectid h, h_type h, h_offset h)) b) ;; do vs <- decode_chunks oc cs ;; mret (Ok (v :: vs)))).
  eapply mgood_bind; [apply mgood_ret, from_bytes_good; [exact Hin|apply (raw_key (h, b) Hc)|apply (raw_bytes (h, b) Hc)]|]. intros v Hv.
  eapply mgood_bind; [exact IH|]. intros vs Hvs. apply mgood_ret. constructor; assumption.
Qed.
Lemma fs_search_good f sk : mgood T oc (Forall raw_item) (fs_search k E f sk).
Proof.
  destruct f as [fd|img]; [|apply mgood_ret; discriminate]. intros w. unfold fs_search.
  match goal with |- context [search_loop k E fd ?r sk [] 0 w] => generalize r as retry; intros retry end.
  destruct (search_loop k E fd retry sk [] 0 w) as [w' r] eqn:H.
  apply (search_loop_any E fd retry (proj1 HE) k sk sk) in H; [|constructor|repeat split]. destruct H as (_ & _ & H). destruct r; cbn; auto.
Qed.
Lemma eval_search_good f tree key : all_i128 key -> mgood T oc all_i128 (eval_search k E f tree key).
Proof.
  intros Hk. unfold eval_search. eapply mgood_bind; [apply mgood_ret, as_struct_good; exact Hk|]. intros [[n ky] flds] _. cbn.
  eapply mgood_bind; [apply mgood_ret, rgood_ensure; discriminate|]. intros _ _. destruct f as [f|]; [|apply mgood_ret; discriminate].
  eapply (mgood_bind _ _ (fun _ => True)); [apply mgood_ret; destruct (search_args_err tree flds) as [(a & ->)|(e & -> & He)]; [exact I|exact He]|]. intros sk _.
  eapply mgood_bind; [apply fs_search_good|]. intros cs Hcs. eapply mgood_bind; [apply decode_chunks_good; exact Hcs|]. intros vs Hvs. apply mgood_ret. apply ai_arr. exact Hvs.
Qed.
Lemma eval_cast_good f t n : (T -> known_type t) -> fs_ok f -> rgood T oc all_i128 (eval_cast E f t n).
Proof.
  intros Ht Hf. unfold eval_cast.
  assert (G : forall p, (T -> False) -> rgood T oc all_i128 (Panic p)) by (intros p H1 H2; elim (H1 H2)).
  destruct t as [x| | | | | | | | | |]; try (apply G; intros H; destruct (Ht H) as (st & _ & Es); discriminate).
  destruct (find (fun s => str_eqb (st_name s) x) STRUCTS) as [s|] eqn:Ef; cbn [unwrap bind].
  2:{ apply G. intros H. destruct (Ht H) as (s & Hs & Es). injection Es as ->. apply (find_none _ _ Ef) in Hs. rewrite str_eqb_refl in Hs. discriminate. }
  apply find_some in Ef. destruct Ef as [Hs _]. destruct f as [f|]; [|discriminate].
  eapply rgood_bind; [apply rgood_usize_add|]. intros stop _ _.
  eapply (rgood_bind _ _ bytes_ok); [|intros b _ Hb; apply from_bytes_good; [exact Hs|exact I|exact Hb]].
  destruct f as [fd|img]; cbn [get_bytes]; [discriminate|]. specialize (Hf img eq_refl). unfold get_range. destruct ((n <=? stop) && (stop <=? zlen img))%Z; cbn; [|discriminate].
  destruct Hf as [H1 H2]. split; [apply Forall_firstn, Forall_skipn; exact H1|]. unfold zlen in *. rewrite firstn_length, skipn_length. lia.
Qed.

Variables (vs : vars value) (f : option fs).
Hypothesis Hvs : Forall scope_ok vs.
Hypothesis Hf : fs_ok f.

Definition expr_ok (e : expr) : Prop := Forall i128 (literals e) /\ (T -> Forall known_type (cast_targets e)).
Lemma expr_ok_app l1 l2 c1 c2 : (Forall i128 (l1 ++ l2) /\ (T -> Forall known_type (c1 ++ c2))) <->
  (Forall i128 l1 /\ (T -> Forall known_type c1)) /\ (Forall i128 l2 /\ (T -> Forall known_type c2)).
Proof.
  rewrite Forall_app. split.
  - intros [[H1 H2] H3]. repeat split; auto; intros Ht; specialize (H3 Ht); apply Forall_app in H3; apply H3.
  - intros [[H1 H2] [H3 H4]]. split; [auto|]. intros Ht. apply Forall_app; auto.
Qed.
Lemma expr_ok_args l : (Forall i128 (flat_map literals l) /\ (T -> Forall known_type (flat_map cast_targets l))) <-> Forall expr_ok l.
Proof.
  induction l as [|e l IH]; cbn [flat_map]; [split; [constructor|split; [constructor|intros _; constructor]]|].
  rewrite expr_ok_app, IH. split; [intros [H1 H2]; constructor; assumption|intros H; inversion H; auto].
Qed.
Lemma i128_U64 : i128 U64_MAX. Proof. unfold i128. split; intros H; discriminate H. Qed.
Lemma i128_U8 : i128 U8_MAX. Proof. unfold i128. split; intros H; discriminate H. Qed.
Lemma i128_0 : i128 0. Proof. unfold i128. split; intros H; discriminate H. Qed.
Lemma i128_max32 : i128 U32_MAX. Proof. unfold i128. split; intros H; discriminate H. Qed.
Lemma key_struct_good a b c d : i128 a -> i128 b -> i128 c -> i128 d -> all_i128 (key_struct a b c d).
Proof.
  intros Ha Hb Hc Hd. unfold key_struct. apply ai_struct. split; [exact I|]. cbn [map snd].
  repeat (apply Forall_cons; [apply ai_int; first [assumption|apply i128_U64|apply i128_U8|apply i128_0]|]). apply Forall_nil.
Qed.

Lemma eval_expr_good e : expr_ok e -> mgood T oc all_i128 (eval_expr k E vs f e).
Proof.
  unfold expr_ok. induction e as [x|z|b|s|e IH|e i IHe IHi|e i IHe IHi|fe args IHf IHa|op l r IHl IHr|op e IH|t e IHt IH] using expr_ind';
    cbn [literals cast_targets]; intros He; cbn [eval_expr].
  - apply mgood_ret. destruct (vars_get x vs) eqn:Eg; cbn; [exact (vars_get_good _ _ _ Hvs Eg)|discriminate].
  - apply mgood_ret. apply ai_int. destruct He as [He _]. inversion He; assumption.
  - apply mgood_ret, ai_bool.
  - apply mgood_ret, ai_str.
  - apply IH; exact He.
  - apply expr_ok_app in He. eapply mgood_bind; [apply IHe; tauto|]. intros v Hv. eapply mgood_bind; [apply mgood_ret, as_struct_good; exact Hv|].
    intros [[n ky] fs] [_ Hfs]. destruct i; try (apply mgood_ret; discriminate). apply mgood_ret, get_field_good. exact Hfs.
  - apply expr_ok_app in He. eapply mgood_bind; [apply IHe; tauto|]. intros v Hv. eapply mgood_bind; [apply mgood_ret, as_vec_good; exact Hv|]. intros l Hl.
    eapply mgood_bind; [apply IHi; tauto|]. intros iv Hiv. eapply mgood_bind; [apply mgood_ret, as_integer_good; exact Hiv|]. intros z _.
    eapply mgood_bind; [apply mgood_ret, try_into_u_good|]. intros y _. apply mgood_ret. destruct (y <? zlen l)%Z; [|discriminate].
    destruct (nth_error l _) eqn:En; cbn; [|discriminate]. rewrite Forall_forall in Hl. apply Hl. eapply nth_error_In; exact En.
  - apply expr_ok_app in He. destruct He as [He1 He2]. apply expr_ok_args in He2.
    assert (Ha : forall a, In a args -> mgood T oc all_i128 (eval_expr k E vs f a)). { intros a Hin. rewrite Forall_forall in IHa, He2. apply IHa; [exact Hin|apply He2; exact Hin]. }
    eapply mgood_bind; [apply IHf; exact He1|]. intros fv _. eapply mgood_bind; [apply mgood_ret, as_function_good|]. intros fn _.
    destruct fn.
    + destruct args as [|a [|b [|c [|d [|]]]]]; try (apply mgood_ret; discriminate).
      eapply mgood_bind; [apply Ha; cbn; auto|]. intros va Hva. eapply mgood_bind; [apply mgood_ret, as_integer_is; exact Hva|]. intros za [-> Hza].
      eapply mgood_bind; [apply Ha; cbn; auto|]. intros vb Hvb. eapply mgood_bind; [apply mgood_ret, as_integer_is; exact Hvb|]. intros zb [-> Hzb].
      eapply mgood_bind; [apply Ha; cbn; auto|]. intros vc Hvc. eapply mgood_bind; [apply mgood_ret, as_integer_is; exact Hvc|]. intros zc [-> Hzc].
      eapply mgood_bind; [apply Ha; cbn; auto 6|]. intros vd Hvd. eapply mgood_bind; [apply mgood_ret, as_integer_is; exact Hvd|]. intros zd [-> Hzd].
      apply mgood_ret. rewrite make_search_key_eq. apply key_struct_good; assumption.
    + destruct args as [|a [|]]; try (apply mgood_ret; discriminate).
      eapply mgood_bind; [apply Ha; cbn; auto|]. intros va Hva. eapply mgood_bind; [apply mgood_ret, as_struct_good; exact Hva|].
      intros [[n ky] fs] [Hk _]. cbn [fst snd] in Hk. destruct ky as [[[o t] g]|]; [|apply mgood_ret; discriminate]. apply mgood_ret. rewrite make_disk_key_eq.
      apply ai_struct. split; [exact I|]. cbn [map snd]. destruct Hk as (H1 & H2 & H3). repeat (apply Forall_cons; [apply ai_int; assumption|]). apply Forall_nil.
    + destruct args as [|a [|b [|]]]; try (apply mgood_ret; discriminate).
      eapply mgood_bind; [apply Ha; cbn; auto|]. intros va Hva. eapply mgood_bind; [apply mgood_ret, as_integer_good; exact Hva|]. intros tree _.
      eapply mgood_bind; [apply Ha; cbn; auto|]. intros key Hkey. apply eval_search_good. exact Hkey.
    + destruct args as [|a [|]]; try (apply mgood_ret; discriminate).
      eapply mgood_bind; [apply Ha; cbn; auto|]. intros va Hva. apply mgood_ret, ai_str.
    + destruct args as [|a [|]]; try (apply mgood_ret; discriminate).
      eapply mgood_bind; [apply Ha; cbn; auto|]. intros va Hva. eapply mgood_bind; [apply mgood_ret, as_vec_good; exact Hva|]. intros l Hl.
      apply mgood_ret, checked_good. discriminate.
    + destruct args as [|a args]; [|apply mgood_ret; discriminate]. apply mgood_ret. apply ai_arr. constructor.
    + destruct args as [|a [|]]; try (apply mgood_ret; discriminate).
      eapply mgood_bind; [apply Ha; cbn; auto|]. intros va Hva. apply mgood_ret. destruct va; apply ai_str.
  - apply expr_ok_app in He. destruct He as [He1 He2]. specialize (IHl He1). specialize (IHr He2).
    assert (Hop : (forall a b, eval_int_op op a b <> Panic PExplicit) -> mgood T oc all_i128
      (do a <- eval_expr k E vs f l ;; do x <- mret (as_integer a) ;; do b <- eval_expr k E vs f r ;; do y <- mret (as_integer b) ;; mret (eval_int_op op x y))).
    { intros Hn. eapply mgood_bind; [exact IHl|]. intros a Ha. eapply mgood_bind; [apply mgood_ret, as_integer_good; exact Ha|]. intros x Hx.
      eapply mgood_bind; [exact IHr|]. intros b Hb. eapply mgood_bind; [apply mgood_ret, as_integer_good; exact Hb|]. intros y Hy.
      apply mgood_ret. pose proof (eval_int_op_good oc op x y (Hn x) Hx Hy) as G. destruct (eval_int_op op x y); cbn in *; auto. }
    assert (Hx : forall a b, eval_int_op op a b = Panic PExplicit -> op = OPlus \/ op = OEquals \/ op = ONotEquals \/ op = OLogicalAnd \/ op = OLogicalOr).
    { clear. intros a b. destruct op; cbn [eval_int_op]; unfold checked, checked_div, checked_rem, checked_shl, checked_shr, try_into_u; auto;
        repeat match goal with |- context [if ?c then _ else _] => destruct c; cbn [bind ok_or] end; discriminate. }
    destruct op; try (apply Hop; intros a b Hp; apply Hx in Hp; decompose [or] Hp; discriminate).
    + eapply mgood_bind; [exact IHl|]. intros a Ha. eapply mgood_bind; [exact IHr|]. intros b Hb. apply mgood_ret, eval_plus_good; assumption.
    + eapply mgood_bind; [exact IHl|]. intros a Ha. eapply mgood_bind; [exact IHr|]. intros b Hb. apply mgood_ret, ai_bool.
    + eapply mgood_bind; [exact IHl|]. intros a Ha. eapply mgood_bind; [exact IHr|]. intros b Hb. apply mgood_ret, ai_bool.
    + eapply mgood_bind; [exact IHl|]. intros a Ha. eapply mgood_bind; [apply mgood_ret, as_boolean_good|]. intros [|] _; [|apply mgood_ret, ai_bool].
      eapply mgood_bind; [exact IHr|]. intros b Hb. eapply mgood_bind; [apply mgood_ret, as_boolean_good|]. intros y _. apply mgood_ret, ai_bool.
    + eapply mgood_bind; [exact IHl|]. intros a Ha. eapply mgood_bind; [apply mgood_ret, as_boolean_good|]. intros [|] _; [apply mgood_ret, ai_bool|].
      eapply mgood_bind; [exact IHr|]. intros b Hb. eapply mgood_bind; [apply mgood_ret, as_boolean_good|]. intros y _. apply mgood_ret, ai_bool.
  - eapply mgood_bind; [apply IH; exact He|]. intros v Hv. apply mgood_ret, eval_unop_good. exact Hv.
  - destruct He as [He1 He2]. apply Forall_app in He1. eapply mgood_bind.
    + apply IH. split; [tauto|]. intros Ht. specialize (He2 Ht). inversion He2; assumption.
    + intros v Hv. eapply mgood_bind; [apply mgood_ret, as_integer_good; exact Hv|]. intros z _. destruct (z <? 0)%Z; [apply mgood_ret; discriminate|].
      apply mgood_ret, eval_cast_good; [|exact Hf]. intros Ht. specialize (He2 Ht). inversion He2; assumption.
Qed.
End Exprs.

(** ** Statements *)
From Verif Require Import Proof_Run Proof_Hist.
Lemma hist_vals_ok vs vals : hist_vals vs = Ok vals -> vs = map VInt vals.
Proof.
  revert vals. induction vs as [|v vs IH]; intros vals H; cbn in H; [injection H as <-; reflexivity|].
  destruct v; try discriminate. apply bind_ok_inv in H. destruct H as (l & H1 & H2). injection H2 as <-. cbn. f_equal. apply IH. exact H1.
Qed.
Lemma hist_vals_good T oc vs : rgood T oc (fun _ => True) (hist_vals vs).
Proof. induction vs as [|v vs IH]; cbn [hist_vals]; [exact I|]. destruct v; try discriminate. eapply rgood_bind; [exact IH|]. intros; exact I. Qed.
Lemma as_hist_good T k oc vs : Forall all_i128 vs -> rgood T oc (fun _ => True) (as_hist k oc vs).
Proof.
  intros Hv. assert (G : rgood T oc (fun _ => True) (as_hist (k + 400) oc vs)).
  { destruct (hist_vals vs) as [vals|e|p|] eqn:E.
    - apply hist_vals_ok in E. subst vs. destruct vals as [|z vals]; [exact I|].
      destruct (as_hist_big (k + 400) oc (z :: vals)) as [[(t & ->) _]|[[-> _]|(-> & -> & _)]]; try exact I; try discriminate; [lia| |intros _; auto].
      intros x Hx. rewrite Forall_map, Forall_forall in Hv. specialize (Hv x Hx). apply ai_int in Hv. unfold i128 in Hv. lia.
    - pose proof (hist_vals_good T oc vs) as G. unfold as_hist. rewrite E in *. exact G.
    - pose proof (hist_vals_good T oc vs) as G. unfold as_hist. rewrite E in *. exact G.
    - unfold as_hist. rewrite E. exact I. }
  assert (Hm := as_hist_mono k (k + 400) oc vs ltac:(lia)). unfold rmono in Hm. destruct (as_hist k oc vs) eqn:Eh; try exact I; (rewrite Hm in G by discriminate; exact G).
Qed.
Lemma print_text_good T k oc v : all_i128 v -> rgood T oc (fun _ => True) (print_text k oc v).
Proof. intros H. destruct v as [| | |l [|]| |]; try exact I. apply as_hist_good. apply ai_arr in H. exact H. Qed.

Lemma assoc_update_good {A} T oc (P : A -> Prop) n g l : (forall v, P v -> rgood T oc P (g v)) -> Forall (fun p => P (snd p)) l ->
  match assoc_update n g l with None => True | Some r => rgood T oc (Forall (fun p => P (snd p))) r end.
Proof.
  intros Hg. induction 1 as [|[m v] l Hv Hl IH]; cbn [assoc_update]; [exact I|]. destruct (str_eqb m n).
  - eapply rgood_bind; [apply Hg; exact Hv|]. intros v' _ Hv'. constructor; assumption.
  - destruct (assoc_update n g l) as [r|]; [|exact I]. eapply rgood_bind; [exact IH|]. intros t _ Ht. constructor; assumption.
Qed.

Section Stmts.
Variables (T : Prop) (E : env) (inter : bool).
Hypothesis HE : env_typed E.
Let oc := overflow_checks E.

Lemma lhs_assign_good k vs f e : Forall scope_ok vs -> fs_ok f -> forall g, expr_ok T e -> (forall v, all_i128 v -> rgood T oc all_i128 (g v)) ->
  mgood T oc (fun vs' => Forall scope_ok vs' /\ length vs' = length vs) (lhs_assign k E vs f e g).
Proof.
  intros Hvs Hf. induction e as [x| | | | |e IHe i IHi|e IHe i IHi| | | |]; intros g He Hg; cbn [lhs_assign]; try (apply mgood_ret; discriminate).
  - apply mgood_ret. destruct (vars_get x vs) as [v|] eqn:Ev; cbn [ok_or bind]; [|discriminate].
    eapply rgood_bind; [apply Hg; exact (vars_get_good _ _ _ Hvs Ev)|]. intros v' _ Hv'. destruct (vars_replace_some x v' vs) as (vs' & Er); [congruence|]. rewrite Er. cbn.
    exact (vars_replace_good _ _ _ Hv' Hvs _ Er).
  - apply expr_ok_app in He. destruct i; try (apply mgood_ret; discriminate). apply IHe; [apply He|]. intros v Hv. destruct v as [| | | | |n key fs]; try discriminate.
    apply ai_struct in Hv. destruct Hv as [Hk Hfs]. rewrite Forall_map in Hfs. pose proof (assoc_update_good T oc all_i128 x g fs Hg Hfs) as G.
    destruct (assoc_update x g fs) as [r|]; [|discriminate]. eapply rgood_bind; [exact G|]. intros fs' _ Hfs'. apply ai_struct. split; [exact Hk|]. rewrite Forall_map. exact Hfs'.
  - apply expr_ok_app in He. eapply mgood_bind; [apply (eval_expr_good T k E HE vs f Hvs Hf i); apply He|]. intros iv Hiv.
    eapply mgood_bind; [apply mgood_ret, as_integer_good; exact Hiv|]. intros z _. apply IHe; [apply He|]. intros v Hv. destruct v as [| | |l h| |]; try discriminate.
    apply ai_arr in Hv. eapply rgood_bind; [apply try_into_u_good|]. intros y _ _. destruct (y <? zlen l)%Z; [|discriminate].
    destruct (nth_error l _) as [x|] eqn:En; cbn [ok_or bind]; [|discriminate]. assert (Hx : all_i128 x) by (rewrite Forall_forall in Hv; apply Hv; eapply nth_error_In; exact En).
    eapply rgood_bind; [apply Hg; exact Hx|]. intros x' _ Hx'. apply ai_arr. apply Forall_app. split; [apply Forall_firstn; exact Hv|]. constructor; [exact Hx'|apply Forall_skipn; exact Hv].
Qed.

Definition est_ok (d : nat) (s : est) : Prop := length (e_vars s) = d /\ 0 < d /\ Forall scope_ok (e_vars s) /\ fs_ok (e_fs s).
Definition igood (J : Prop) (r : ires) : Prop :=
  match r with
  | IErr e => e <> EUnhandledControlFlow
  | IPanic p => T -> p = PArith /\ oc = true
  | IBreak | IContinue => J
  | IOk | IQuit | IFuel => True
  end.
Definition sok (d : nat) (J : Prop) (p : est * ires) : Prop := est_ok d (fst p) /\ igood J (snd p).
Ltac ek := split; [|split; [|split]]; cbn; auto; try (etransitivity; eassumption); try lia.
Lemma igood_of {A} (P : A -> Prop) J r : rgood T oc P r -> igood J (ires_of r).
Proof. destruct r; cbn; auto. Qed.
Lemma igood_weak (J J' : Prop) r : (J -> J') -> igood J r -> igood J' r.
Proof. intros H. destruct r; cbn; auto. Qed.
Lemma sok_weak d (J J' : Prop) p : (J -> J') -> sok d J p -> sok d J' p.
Proof. intros H [H1 H2]. split; [exact H1|]. exact (igood_weak _ _ _ H H2). Qed.
Lemma with_expr_good d J k s e c : est_ok d s -> expr_ok T e ->
  (forall s v, est_ok d s -> all_i128 v -> sok d J (c s v)) -> sok d J (with_expr k E s e c).
Proof.
  intros Hs He Hc. unfold with_expr. destruct Hs as (H1 & H2 & H3 & H4). pose proof (eval_expr_good T k E HE _ _ H3 H4 e He (e_w s)) as G.
  destruct (eval_expr k E (e_vars s) (e_fs s) e (e_w s)) as [w r]. cbn [snd] in G. assert (Hs : est_ok d (with_w s w)) by (ek).
  destruct r as [v|x|p|]; try (split; [exact Hs|exact (igood_of _ _ _ G)]). apply Hc; assumption.
Qed.
Lemma do_write_good d J s t : est_ok d s -> sok d J (do_write E s t).
Proof. intros H. unfold do_write. destruct (sink E (tick (e_w s)) t); (split; [exact H|cbn; auto; discriminate]). Qed.
Lemma est_insert_good d J x v s : est_ok d s -> all_i128 v -> sok d J (est_insert x v s).
Proof.
  intros (H1 & H2 & H3 & H4) Hv. unfold est_insert. destruct (vars_insert_good x v (e_vars s) Hv H3) as (vs & -> & Hvs & Hl); [intros X; rewrite X in H1; cbn in H1; lia|].
  split; [|exact I]. ek.
Qed.
Lemma in_scope_good d J s b : est_ok d s -> (forall s, est_ok (S d) s -> sok (S d) J (b s)) -> sok d J (in_scope s b).
Proof.
  intros (H1 & H2 & H3 & H4) Hb. unfold in_scope. destruct (Hb (with_vars s (push_scope (e_vars s)))) as [(G1 & _ & G3 & G4) G].
  { ek. constructor; [constructor|exact H3]. }
  destruct (b _) as [s' r]. cbn [fst snd] in *. destruct (e_vars s') as [|m vs] eqn:Ev; [discriminate|]. cbn [pop_scope]. split; [|exact G].
  cbn in G1. inversion G3; subst. ek.
Qed.
Definition loose (l : list stmt) : Prop := exists st, In st l /\ loose_jump st.
Definition stmt_ok (st : stmt) : Prop := Forall (expr_ok T) (exprs st).
Definition ev_ok (ev : est -> stmt -> est * ires) : Prop := forall d s st, est_ok d s -> stmt_ok st -> sok d (loose_jump st) (ev s st).
Lemma run_list_good ev : ev_ok ev -> forall l d s, est_ok d s -> Forall stmt_ok l -> sok d (loose l) (run_list ev s l).
Proof.
  intros Hev. induction l as [|st l IH]; intros d s Hs Hl; cbn [run_list]; [split; [exact Hs|exact I]|]. inversion Hl as [|? ? L1 L2]; subst.
  destruct (Hev d s st Hs L1) as [G1 G2]. assert (HJ : loose_jump st -> loose (st :: l)) by (intros H; exists st; split; [left; reflexivity|exact H]).
  destruct (ev s st) as [s' r]. cbn [fst snd] in *. destruct r; try (split; [exact G1|exact (igood_weak _ _ _ HJ G2)]).
  eapply sok_weak; [|apply IH; assumption]. intros (x & Hx & Hj). exists x. split; [right; exact Hx|exact Hj].
Qed.
Lemma while_good ev ke k : ev_ok ev -> forall c b d s, est_ok d s -> expr_ok T c -> Forall stmt_ok b -> sok d False (while_loop ev ke E k c b s).
Proof.
  intros Hev. induction k as [|k IH]; intros c b d s Hs Hc Hb; cbn [while_loop]; [split; [exact Hs|exact I]|].
  apply with_expr_good; [exact Hs|exact Hc|]. intros s1 v Hs1 Hv. pose proof (as_boolean_good T oc v) as Gb. destruct (as_boolean v) as [[|]|e|p|]; try (split; [exact Hs1|first [exact I|exact Gb]]).
  destruct (run_list_good ev Hev b d s1 Hs1 Hb) as [G1 G2]. destruct (run_list ev s1 b) as [s' r]. cbn [fst snd] in *.
  destruct r; try (split; [exact G1|first [exact I|exact G2]]); apply IH; assumption.
Qed.
Lemma for_good ev x b : ev_ok ev -> forall items d s, est_ok d s -> Forall all_i128 items -> Forall stmt_ok b -> sok d False (for_loop ev x b items s).
Proof.
  intros Hev. induction items as [|v items IH]; intros d s Hs Hi Hb; cbn [for_loop]; [split; [exact Hs|exact I]|]. inversion Hi as [|? ? I1 I2]; subst.
  destruct (est_insert_good d False x v s Hs I1) as [G1 G2]. destruct (est_insert x v s) as [s1 r1]. cbn [fst snd] in *.
  destruct r1; try (split; [exact G1|first [exact I|exact G2]]).
  destruct (run_list_good ev Hev b d s1 G1 Hb) as [G3 G4]. destruct (run_list ev s1 b) as [s' r]. cbn [fst snd] in *.
  destruct r; try (split; [exact G3|first [exact I|exact G4]]); apply IH; assumption.
Qed.
Lemma stmts_ok l : Forall (expr_ok T) (flat_map exprs l) <-> Forall stmt_ok l.
Proof.
  induction l as [|st l IH]; cbn [flat_map]; [split; constructor|]. rewrite Forall_app, IH. split; [intros [H1 H2]; constructor; assumption|intros H; inversion H; auto].
Qed.
Lemma fs_new_good p : mgood T oc (fun g => fs_ok (Some g)) (fs_new E p).
Proof.
  intros w. unfold fs_new. cbn [snd]. destruct (open_path E (tick w) p) as [fd st|img|] eqn:Eo; [| |discriminate].
  - eapply rgood_bind; [apply rgood_ok_or; discriminate|]. intros t _ _. eapply rgood_bind; [apply rgood_ensure; discriminate|]. intros _ _ _. intros img X. discriminate.
  - eapply rgood_bind; [apply rgood_ok_or; discriminate|]. intros b _ ->. eapply rgood_bind; [apply rgood_ensure; discriminate|]. intros _ _ _. intros img X. injection X as <-.
    exact (proj2 HE _ _ _ Eo).
Qed.
Lemma eval_stmt_good n : ev_ok (eval_stmt n E inter).
Proof.
  induction n as [|n IH]; intros d s st Hs Hst; cbn [eval_stmt]; [split; [exact Hs|exact I]|]. unfold stmt_ok in Hst.
  destruct st as [lhs rhs|c tb fb|c b|i r b| | | | |e|e|e]; cbn [exprs] in Hst.
  - inversion Hst as [|? ? E1 E2]; subst. inversion E2 as [|? ? E3 _]; subst. apply with_expr_good; [exact Hs|exact E3|]. intros s1 v Hs1 Hv.
    assert (G : sok d (loose_jump (SAssign lhs rhs)) (let '(w, r) := lhs_assign n E (e_vars s1) (e_fs s1) lhs (fun _ => Ok v) (e_w s1) in match r with Ok vs => (mk_est vs (e_fs s1) w, IOk) | _ => (with_w s1 w, ires_of r) end)).
    { destruct Hs1 as (H1 & H2 & H3 & H4). pose proof (lhs_assign_good n _ _ lhs H3 H4 (fun _ => Ok v) E1 (fun _ _ => Hv) (e_w s1)) as G.
      destruct (lhs_assign n E (e_vars s1) (e_fs s1) lhs (fun _ => Ok v) (e_w s1)) as [w r]. cbn [snd] in G.
      destruct r as [vs|x|p|]; try (split; [ek; fail|exact (igood_of _ _ _ G)]). destruct G as [G1 G2]. split; [|exact I]. ek. }
    destruct lhs; try exact G. apply est_insert_good; assumption.
  - inversion Hst as [|? ? E1 E2]; subst. apply Forall_app in E2. rewrite !stmts_ok in E2. apply in_scope_good; [exact Hs|]. intros s1 Hs1. apply with_expr_good; [exact Hs1|exact E1|].
    intros s2 v Hs2 Hv. pose proof (as_boolean_good T oc v) as Gb. destruct (as_boolean v) as [b|x|p|]; try (split; [exact Hs2|first [exact I|exact Gb]]).
    eapply sok_weak; [|apply run_list_good; [exact IH|exact Hs2|destruct b; apply E2]]. intros (x & Hx & Hj). destruct b; [eapply lj_then|eapply lj_else]; eassumption.
  - inversion Hst as [|? ? E1 E2]; subst. rewrite stmts_ok in E2. apply in_scope_good; [exact Hs|]. intros s1 Hs1. eapply sok_weak; [|apply while_good; eassumption]. intros [].
  - inversion Hst as [|? ? E1 E2]; subst. inversion E2 as [|? ? E3 E4]; subst. rewrite stmts_ok in E4. apply in_scope_good; [exact Hs|]. intros s1 Hs1.
    destruct i; try (split; [exact Hs1|discriminate]). apply with_expr_good; [exact Hs1|exact E3|]. intros s2 v Hs2 Hv. pose proof (as_vec_good T oc v Hv) as Gb.
    destruct (as_vec v) as [items|y|p|]; try (split; [exact Hs2|first [exact I|exact Gb]]). eapply sok_weak; [|apply for_good; assumption]. intros [].
  - split; [exact Hs|constructor].
  - split; [exact Hs|constructor].
  - apply do_write_good. exact Hs.
  - split; [exact Hs|exact I].
  - inversion Hst as [|? ? E1 E2]; subst. apply with_expr_good; [exact Hs|exact E1|]. intros s1 v Hs1 Hv.
    destruct v as [|t| | | |]; try (split; [exact Hs1|discriminate]). cbn [as_string]. pose proof (fs_new_good (escape true t) (e_w s1)) as G.
    destruct (fs_new E (escape true t) (e_w s1)) as [w r]. cbn [snd] in G. destruct Hs1 as (H1 & H2 & H3 & H4).
    destruct r as [g|x|p|]; try (split; [ek; fail|exact (igood_of _ _ _ G)]).
  - inversion Hst as [|? ? E1 E2]; subst. apply with_expr_good; [exact Hs|exact E1|]. intros s1 v Hs1 Hv. pose proof (print_text_good T n oc v Hv) as G. fold oc.
    destruct (print_text n oc v) as [t|x|p|]; try (split; [exact Hs1|exact G]). apply do_write_good. exact Hs1.
  - inversion Hst as [|? ? E1 E2]; subst. apply with_expr_good; [exact Hs|exact E1|]. intros s1 v Hs1 Hv. destruct inter; [apply do_write_good; exact Hs1|split; [exact Hs1|exact I]].
Qed.
End Stmts.

(** ** The parser produces only literals in range *)
From Verif Require Import Spec_Grammar Proof_Parse Pom Parse Runtime.
Lemma numeral_ge0 s z : numeral s z -> (0 <= z)%Z.
Proof. induction 1; [lia|]. unfold decimal in *. lia. Qed.
Lemma number_i128 s z : number_text s z -> i128 z.
Proof.
  assert (0 < 2 ^ 127)%Z by reflexivity. unfold i128.
  destruct 1 as [s z Hn _ _ Hb]; apply numeral_ge0 in Hn; unfold I128_MAX, I128_MIN in *; lia.
Qed.
Definition lits (e : expr) : Prop := Forall i128 (literals e).
Lemma g_lits : (forall k s e, g_expr k s e -> lits e) /\ (forall s e, g_full s e -> lits e) /\
  (forall s l, g_args s l -> Forall lits l) /\ (forall s l, g_more s l -> Forall lits l).
Proof.
  unfold lits. apply g_all_mi; intros; cbn [literals]; try assumption; try (constructor; fail); try (apply Forall_app; split; [assumption|]; try assumption; try constructor); try (constructor; assumption).
  - constructor; [eapply number_i128; eassumption|constructor].
  - match goal with H : Forall _ args |- _ => revert H end. generalize args as l. induction 1; cbn [flat_map]; [constructor|]. apply Forall_app; auto.
Qed.
Lemma g_full_lits s e : g_full s e -> lits e. Proof. apply g_lits. Qed.
Definition slits (st : stmt) : Prop := Forall lits (exprs st).
Lemma g_simple_lits ok s st : g_simple ok s st -> slits st.
Proof.
  unfold slits. destruct 1 as [? ? ? ? H|? ? H| | | | |? ? ? ? ? _ H1 ? H2|? ? ? ? ? _ H1 ? H2|? ? ? ? ? _ H1 ? H2|? ? _ H]; cbn [exprs]; try apply Forall_nil;
    repeat match goal with H : g_full _ _ |- _ => apply g_full_lits in H | H : g_expr _ _ _ |- _ => apply (proj1 g_lits) in H end; repeat (apply Forall_cons; [|try apply Forall_nil]); try assumption.
  - constructor.
  - unfold lits in *. cbn [literals]. apply Forall_app; auto.
  - unfold lits in *. cbn [literals]. apply Forall_app; auto.
Qed.
Lemma g_stmts_lits ok : (forall s st, g_stmt ok s st -> slits st) /\ (forall s st, g_block ok s st -> slits st) /\ (forall s l, g_stmts ok s l -> Forall lits (flat_map exprs l)).
Proof.
  unfold slits. apply g_stmt_all_mi; intros; cbn [exprs flat_map]; repeat match goal with H : g_full _ _ |- _ => apply g_full_lits in H end; try assumption; try constructor; try assumption.
  - eapply g_simple_lits; eassumption.
  - rewrite app_nil_r. assumption.
  - apply Forall_app; auto.
  - constructor.
  - constructor; assumption.
  - apply Forall_app; auto.
Qed.
Lemma parse_lits cmd l : parse cmd = Ok l -> Forall lits (flat_map exprs l).
Proof. intros H. apply parse_sound in H. destruct H as [s l w H _]. eapply (proj2 (proj2 (g_stmts_lits unreserved))). exact H. Qed.

(** ** The analyser accepts only known cast types and no jump outside a loop *)
Lemma analyze_expr_casts v e : analyze_expr v e = Ok tt -> Forall known_type (cast_targets e).
Proof.
  induction e as [x|z|b|s|e IH|e i IHe IHi|e i IHe IHi|fe args IHf IHa|op l r IHl IHr|op e IH|t e IHt IH] using expr_ind'; cbn [analyze_expr cast_targets]; intros H; try apply Forall_nil; auto.
  - destruct i; try discriminate. rewrite app_nil_r. auto.
  - apply bind_ok_tt in H. apply Forall_app; tauto.
  - apply bind_ok_tt in H. destruct H as [H1 H2]. apply Forall_app. split; [auto|]. clear IHf H1. revert IHa H2. induction args as [|a args IH]; intros IHa H2; cbn [flat_map]; [constructor|].
    inversion IHa; subst. apply bind_ok_tt in H2. apply Forall_app. split; [tauto|]. apply IH; tauto.
  - apply bind_ok_tt in H. apply Forall_app; tauto.
  - destruct t as [x| | | | | | | | | |]; try discriminate. unfold ensure in H. destruct (existsb _ STRUCTS) eqn:Ex; [|discriminate]. constructor; [|auto].
    apply existsb_exists in Ex. destruct Ex as (s & Hs & He). apply str_eqb_eq in He. exists s. subst. auto.
Qed.
Definition accepted_stmt (d : Z) (st : stmt) : Prop := Forall (fun e => Forall known_type (cast_targets e)) (exprs st) /\ (d = 0%Z -> ~ loose_jump st).
Definition accepted_stmts (d : Z) (l : list stmt) : Prop := Forall (fun e => Forall known_type (cast_targets e)) (flat_map exprs l) /\ (d = 0%Z -> ~ loose l).
Lemma accepted_nil d : accepted_stmts d [].
Proof. split; [constructor|]. intros _ (x & [] & _). Qed.
Lemma accepted_cons d st l : accepted_stmt d st -> accepted_stmts d l -> accepted_stmts d (st :: l).
Proof.
  intros [H1 H2] [H3 H4]. split; [cbn [flat_map]; apply Forall_app; auto|]. intros Hd (x & [<-|Hx] & Hj); [exact (H2 Hd Hj)|]. apply (H4 Hd). exists x. auto.
Qed.
Lemma analyze_list_accepted l : Forall (fun st => forall s s', s_vars s <> [] -> (0 <= s_depth s)%Z -> analyze_stmt s st = (s', Ok tt) -> accepted_stmt (s_depth s) st) l ->
  forall s s', s_vars s <> [] -> (0 <= s_depth s)%Z -> analyze_stmts s l = (s', Ok tt) -> accepted_stmts (s_depth s) l.
Proof.
  induction 1 as [|st l Hst Hl IH]; intros s s' Hne Hd H; [apply accepted_nil|]. rewrite analyze_stmts_cons in H. apply sbind_ok in H. destruct H as (s1 & H1 & H2).
  pose proof (analyze_stmt_good _ _ _ _ Hne H1) as (D & G & _). apply accepted_cons; [eapply Hst; eassumption|]. rewrite <- D. eapply IH; [eapply grows_ne; eassumption|lia|exact H2].
Qed.
Lemma analyze_stmt_accepted st : forall s s', s_vars s <> [] -> (0 <= s_depth s)%Z -> analyze_stmt s st = (s', Ok tt) -> accepted_stmt (s_depth s) st.
Proof.
  induction st as [lhs e|c tb fb IHt IHf|c b IH|i rg b IH| | | | |e|e|e] using stmt_ind'; intros s s' Hne Hd H; rewrite analyze_stmt_eq in H; unfold accepted_stmt; cbn [exprs].
  - split; [|intros _ X; inversion X]. apply sbind_ok in H. destruct H as (s1 & H1 & H2). injection H2 as _ H2. apply analyze_expr_casts in H2.
    constructor; [|constructor; [exact H2|constructor]]. destruct lhs; try (apply (f_equal snd) in H1; apply analyze_expr_casts in H1; exact H1). constructor.
  - cbv zeta in H. apply sem_pop_ok in H. destruct H as (s1 & H). apply sbind_ok in H. destruct H as (s2 & H1 & H). injection H1 as <- H1. apply analyze_expr_casts in H1.
    apply sbind_ok in H. destruct H as (s3 & H2 & H3). assert (G0 := H2). apply analyze_good in G0; [|discriminate]. destruct G0 as (D & G & _).
    apply (analyze_list_accepted _ IHt) in H2; [|discriminate|exact Hd]. apply (analyze_list_accepted _ IHf) in H3; [|eapply grows_ne; [|exact G]; discriminate|cbn in D; lia].
    rewrite D in H3. cbn [s_depth] in *. destruct H2 as [A1 A2], H3 as [B1 B2]. split; [constructor; [exact H1|apply Forall_app; auto]|].
    intros E0 X. inversion X; subst; [apply (A2 E0)|apply (B2 E0)]; eexists; split; eassumption.
  - cbv zeta in H. apply sem_pop_ok in H. destruct H as (s1 & H). apply sbind_ok in H. destruct H as (s2 & H1 & H). injection H1 as <- H1. apply analyze_expr_casts in H1.
    apply (analyze_list_accepted _ IH) in H; [|discriminate|cbn; lia]. split; [constructor; [exact H1|apply H]|]. intros _ X; inversion X.
  - cbv zeta in H. apply sem_pop_ok in H. destruct H as (s1 & H). destruct i as [x| | | | | | | | | |]; try discriminate. apply sbind_ok in H. destruct H as (s2 & H1 & H).
    apply sem_insert_good in H1; [|discriminate]. destruct H1 as (_ & (D & G & _) & _). cbn in D. apply sbind_ok in H. destruct H as (s3 & H2 & H). injection H2 as <- H2. apply analyze_expr_casts in H2.
    apply (analyze_list_accepted _ IH) in H; [|eapply grows_ne; [|exact G]; discriminate|lia]. split; [constructor; [constructor|constructor; [exact H2|apply H]]|]. intros _ X; inversion X.
  - split; [constructor|]. intros E0 _. injection H as _ H. rewrite E0 in H. discriminate.
  - split; [constructor|]. intros E0 _. injection H as _ H. rewrite E0 in H. discriminate.
  - split; [constructor|intros _ X; inversion X].
  - split; [constructor|intros _ X; inversion X].
  - split; [|intros _ X; inversion X]. destruct e; try discriminate. constructor; constructor.
  - split; [|intros _ X; inversion X]. injection H as _ H. constructor; [exact (analyze_expr_casts _ _ H)|constructor].
  - split; [|intros _ X; inversion X]. injection H as _ H. constructor; [exact (analyze_expr_casts _ _ H)|constructor].
Qed.

Definition nu {A} (r : res A) : Prop := r <> Err EUnhandledControlFlow.
Lemma analyze_expr_nu v e : nu (analyze_expr v e).
Proof.
  unfold nu. induction e as [x|z|b|s|e IH|e i IHe IHi|e i IHe IHi|fe args IHf IHa|op l r IHl IHr|op e IH|t e IHt IH] using expr_ind'; cbn [analyze_expr]; try discriminate; auto.
  - destruct (vars_get x v); discriminate.
  - destruct i; auto; discriminate.
  - destruct (analyze_expr v e); cbn [bind]; auto; congruence.
  - destruct (analyze_expr v fe) as [t0| | |]; cbn [bind]; auto; try congruence. clear IHf. induction IHa as [|a args Ha IHa IH]; [discriminate|]. destruct (analyze_expr v a); cbn [bind]; auto; congruence.
  - destruct (analyze_expr v l); cbn [bind]; auto; congruence.
  - destruct t; auto; try discriminate. unfold ensure. destruct (existsb _ _); cbn [bind]; auto; discriminate.
Qed.
Lemma sbind_nu p k s' e : sbind p k = (s', Err e) -> (forall s1 e1, p = (s1, Err e1) -> e1 <> EUnhandledControlFlow) ->
  (forall s1 s2 e1, k s1 = (s2, Err e1) -> e1 <> EUnhandledControlFlow) -> e <> EUnhandledControlFlow.
Proof. intros H H1 H2. apply sbind_inv in H. destruct H as [(s1 & u & _ & H)|[H _]]; eauto. Qed.
Lemma analyze_list_nu l : Forall (fun st => forall s s' e, analyze_stmt s st = (s', Err e) -> e <> EUnhandledControlFlow) l ->
  forall s s' e, analyze_stmts s l = (s', Err e) -> e <> EUnhandledControlFlow.
Proof.
  induction 1 as [|st l Hst Hl IH]; intros s s' e H; [discriminate|]. rewrite analyze_stmts_cons in H. eapply sbind_nu; [exact H|intros s1 e1 X; exact (Hst _ _ _ X)|intros s1 s2 e1 X; exact (IH _ _ _ X)].
Qed.
Lemma expr_nu (s : sem) v x s1 e : (s, analyze_expr v x) = (s1, Err e) -> e <> EUnhandledControlFlow.
Proof. intros H X. subst e. injection H as _ H. exact (analyze_expr_nu _ _ H). Qed.
Lemma insert_nu x s s' e : sem_insert x s = (s', Err e) -> e <> EUnhandledControlFlow.
Proof. unfold sem_insert. destruct (vars_insert x tt (s_vars s)); discriminate. Qed.
Lemma analyze_stmt_nu st : forall s s' e, analyze_stmt s st = (s', Err e) -> e <> EUnhandledControlFlow.
Proof.
  induction st as [lhs x|c tb fb IHt IHf|c b IH|i rg b IH| | | | |x|x|x] using stmt_ind'; intros s s' e H; rewrite analyze_stmt_eq in H.
  - eapply sbind_nu; [exact H| |intros s4 s5 e4 X; exact (expr_nu _ _ _ _ _ X)]. intros s1 e1 H1. destruct lhs; try (eapply expr_nu; exact H1). eapply insert_nu; exact H1.
  - apply sem_pop_err in H. destruct H as (s1 & H). eapply sbind_nu; [exact H|intros s4 e4 X; exact (expr_nu _ _ _ _ _ X)|]. intros s2 s3 e1 H1.
    eapply sbind_nu; [exact H1|intros s4 e4 X; exact (analyze_list_nu _ IHt _ _ _ X)|intros s4 s5 e4 X; exact (analyze_list_nu _ IHf _ _ _ X)].
  - apply sem_pop_err in H. destruct H as (s1 & H). eapply sbind_nu; [exact H|intros s4 e4 X; exact (expr_nu _ _ _ _ _ X)|]. intros s4 s5 e4 X; exact (analyze_list_nu _ IH _ _ _ X).
  - apply sem_pop_err in H. destruct H as (s1 & H). destruct i; try (injection H as _ <-; discriminate). eapply sbind_nu; [exact H|intros s4 e4 X; exact (insert_nu _ _ _ _ X)|]. intros s2 s3 e1 H1.
    eapply sbind_nu; [exact H1|intros s4 e4 X; exact (expr_nu _ _ _ _ _ X)|]. intros s4 s5 e4 X; exact (analyze_list_nu _ IH _ _ _ X).
  - injection H as _ H. unfold ensure in H. destruct (0 <? s_depth s)%Z; [discriminate|]. injection H as <-. discriminate.
  - injection H as _ H. unfold ensure in H. destruct (0 <? s_depth s)%Z; [discriminate|]. injection H as <-. discriminate.
  - discriminate.
  - discriminate.
  - injection H as _ H. destruct x; try discriminate; injection H as <-; discriminate.
  - eapply expr_nu; exact H.
  - eapply expr_nu; exact H.
Qed.

(** ** Sessions *)
Lemma vars_new_ok : Forall scope_ok (vars_new VInt VFun).
Proof.
  unfold vars_new. constructor; [|constructor].
  assert (F : forall l m, scope_ok m -> scope_ok (fold_left (fun m f => scope_insert (func_name f) (VFun f) m) l m)).
  { induction l as [|g l IH]; intros m Hm; cbn [fold_left]; [exact Hm|]. apply IH. apply scope_insert_good; [apply ai_fun|exact Hm]. }
  apply F. assert (C : Forall (fun c : str * Z => i128 (snd c)) CONSTANTS).
  { assert (B : forallb (fun c => in_i128 (snd c)) CONSTANTS = true) by (vm_compute; reflexivity). rewrite forallb_forall in B. apply Forall_forall. intros c Hc. apply in_i128_i128. exact (B c Hc). }
  revert C. assert (M : scope_ok []) by constructor. revert M. generalize (@nil (str * value)) as m. generalize CONSTANTS as l.
  induction l as [|[x z] l IH]; intros m Hm Hl; cbn [fold_left]; [exact Hm|]. inversion Hl; subst. apply IH; [|assumption]. apply scope_insert_good; [apply ai_int; assumption|exact Hm].
Qed.
Lemma eval_new_ok E : env_typed E -> est_ok 1 (eval_new E).
Proof.
  intros HE. unfold eval_new. destruct (getcwd E) as [cwd|].
  - pose proof (fs_new_good True E HE cwd (mk_world [] [])) as G. destruct (fs_new E cwd (mk_world [] [])) as [w r]. cbn [snd] in G.
    split; [reflexivity|]. split; [lia|]. split; [apply vars_new_ok|]. cbn. destruct r; try (intros img X; discriminate). exact G.
  - split; [reflexivity|]. split; [lia|]. split; [apply vars_new_ok|]. intros img X. discriminate.
Qed.

Lemma rt_eval_safe n E inter h r cmd : env_typed E -> session E h r -> est_ok 1 (r_eval r) ->
  est_ok 1 (r_eval (fst (rt_eval n E inter r cmd))) /\
  match snd (rt_eval n E inter r cmd) with
  | RErr e => e <> EUnhandledControlFlow
  | RPanic p => p = PArith /\ overflow_checks E = true
  | _ => True
  end.
Proof.
  intros HE Hs Ho. pose proof (session_inv _ _ _ Hs) as I0. unfold rt_eval. destruct (parse_total cmd) as [(l & Hp)|Hp]; rewrite Hp; [|split; [exact Ho|discriminate]].
  destruct (analyze (r_sem r) l) as [sem' a] eqn:Ha. pose proof (analyze_good _ _ _ _ (len1_ne _ (inv_sem _ I0)) Ha) as (_ & _ & N).
  destruct a as [[]|e|p|]; try contradiction; [|split; [exact Ho|]].
  - assert (Hacc : accepted_stmts 0 l).
    { rewrite <- (inv_depth _ I0). eapply analyze_list_accepted; [|exact (len1_ne _ (inv_sem _ I0))|rewrite (inv_depth _ I0); lia|exact Ha]. apply Forall_forall. intros st _. apply analyze_stmt_accepted. }
    destruct Hacc as [Hc Hj]. apply parse_lits in Hp.
    assert (Hl : Forall (stmt_ok True) l).
    { apply stmts_ok. rewrite Forall_forall in *. intros e He. split; [apply Hp; exact He|intros _; apply Hc; exact He]. }
    destruct (run_list_good True E _ (eval_stmt_good True E inter HE n) l 1 (r_eval r) Ho Hl) as [G1 G2].
    unfold eval_prog. destruct (run_list (eval_stmt n E inter) (r_eval r) l) as [s' q]. cbn [fst snd r_eval] in *. split; [exact G1|]. destruct q; cbn in *; auto; elim (Hj eq_refl G2).
  - exact (analyze_list_nu _ (proj2 (Forall_forall _ _) (fun st _ => analyze_stmt_nu st)) _ _ _ Ha).
Qed.
Lemma session_safe E h r : env_typed E -> session E h r -> est_ok 1 (r_eval r).
Proof. intros HE. induction 1 as [|h r n inter cmd Hs IH]; [apply eval_new_ok; exact HE|]. eapply rt_eval_safe; eassumption. Qed.
