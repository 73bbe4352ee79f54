(** Only looking up a variable yields the error "Unknown variable". *)
From Verif Require Import Base Ast Structs Definitions Value Variables Semantics Fs Eval Lib Proof_Safe.
Require Import Lia.
Arguments s_ s%string_scope.

Definition nve (e : error) : Prop := match e with EUnknownVariable _ => False | _ => True end.
Definition nv {A} (r : res A) : Prop := match r with Err e => nve e | _ => True end.
Lemma nv_bind {A B} (r : res A) (f : A -> res B) : nv r -> (forall a, nv (f a)) -> nv (bind r f).
Proof. destruct r; cbn; auto. Qed.
Lemma nv_ensure c e : nve e -> nv (ensure c e). Proof. destruct c; cbn; auto. Qed.
Lemma nv_ok_or {A} (o : option A) e : nve e -> nv (ok_or o e). Proof. destruct o; cbn; auto. Qed.
Lemma nv_unwrap {A} (o : option A) : nv (unwrap o). Proof. destruct o; exact I. Qed.
Ltac nvs := repeat first
  [ exact I | assumption
  | match goal with |- nv (bind _ _) => apply nv_bind; [|intros ?] end
  | match goal with |- nv (ensure _ _) => apply nv_ensure end
  | match goal with |- nv (ok_or _ _) => apply nv_ok_or end
  | match goal with |- nv (unwrap _) => apply nv_unwrap end
  | match goal with |- nv (match ?x with _ => _ end) => destruct x end
  | match goal with |- nv (if ?x then _ else _) => destruct x end ].
Lemma nv_as_integer v : nv (as_integer v). Proof. destruct v; exact I. Qed.
Lemma nv_as_boolean v : nv (as_boolean v). Proof. destruct v; exact I. Qed.
Lemma nv_as_vec v : nv (as_vec v). Proof. destruct v; exact I. Qed.
Lemma nv_as_struct v : nv (as_struct v). Proof. destruct v; exact I. Qed.
Lemma nv_as_function v : nv (as_function v). Proof. destruct v; exact I. Qed.
Lemma nv_as_string b v : nv (as_string b v). Proof. destruct v; exact I. Qed.
Lemma nv_get_field s fs f : nv (get_field s fs f). Proof. unfold get_field. nvs. Qed.
Lemma nv_try n z : nv (try_into_u n z). Proof. unfold try_into_u. nvs. Qed.
Lemma nv_usize_add oc a b : nv (usize_add oc a b). Proof. unfold usize_add. nvs. Qed.
Lemma nv_usize_mul oc a b : nv (usize_mul oc a b). Proof. unfold usize_mul. nvs. Qed.
Lemma nv_slice {A} (b : list A) x y : nv (slice b x y). Proof. unfold slice. nvs. Qed.
Lemma nv_slice_from {A} (b : list A) x : nv (slice_from b x). Proof. unfold slice_from. nvs. Qed.
Lemma nv_index {A} (b : list A) x : nv (index b x). Proof. unfold index. nvs. Qed.
Lemma nv_neg oc z : nv (i128_neg oc z). Proof. unfold i128_neg. nvs. Qed.
Lemma nv_plus a b : nv (eval_plus a b). Proof. unfold eval_plus. nvs. Qed.
Lemma nv_int_op op a b : nv (eval_int_op op a b). Proof. unfold eval_int_op. nvs; apply nv_try. Qed.
Lemma nv_unop oc op v : nv (eval_unop oc op v). Proof. unfold eval_unop. nvs; first [apply nv_as_integer|apply nv_neg]. Qed.
Lemma nv_assoc_update {A} k (g : A -> res A) l : (forall a, nv (g a)) -> match assoc_update k g l with Some r => nv r | None => True end.
Proof.
  intros Hg. induction l as [|[n v] l IH]; cbn [assoc_update]; [exact I|]. destruct (str_eqb n k); [apply nv_bind; [apply Hg|intros; exact I]|].
  destruct (assoc_update k g l); [|exact I]. apply nv_bind; [exact IH|intros; exact I].
Qed.
Lemma nv_set_fields n l : forall fs, nv (set_fields n l fs).
Proof.
  induction l as [|[x v] l IH]; intros fs; cbn [set_fields]; [exact I|]. apply nv_bind; [|intros a; apply IH]. unfold set_field.
  match goal with |- nv (match assoc_update ?k ?g ?l with _ => _ end) => pose proof (nv_assoc_update k g l) as H; destruct (assoc_update k g l) end; [|exact I]. apply H. intros; exact I.
Qed.

(** ** Decoding *)
Section Decode.
Variable oc : bool.
Variable dyn : str -> (Z -> Z -> Z -> bool) -> (str -> res (list field)) -> str -> res (list (str * value) * Z).
Variable Q : (str -> res (list field)) -> Prop.
Hypothesis Hdyn : forall nm km cb b, Q cb -> nv (dyn nm km cb b).
Lemma nv_array ev sz n : (forall b, nv (ev b)) -> forall i b, nv (array_loop ev sz n i b).
Proof. intros Hev. induction n as [|n IH]; intros i b; cbn [array_loop]; [exact I|]. nvs; [apply nv_slice_from|apply Hev|apply IH]. Qed.
Lemma nv_trail ev sz n : (forall b, nv (ev b)) -> forall b off, nv (trail_loop oc ev sz n b off).
Proof. intros Hev. induction n as [|n IH]; intros b off; cbn [trail_loop]; [exact I|]. nvs; first [apply nv_usize_add|apply nv_slice|apply Hev|apply IH]. Qed.
Section Tv.
Variable tv : ty -> str -> res value.
Lemma nv_field f b : (forall b, nv (tv (snd f) b)) -> nv (field_from_bytes tv f b).
Proof. intros Htv. unfold field_from_bytes. nvs; first [apply Htv|idtac]. Qed.
Lemma nv_get_field_value n acc : nv (get_field_value n acc).
Proof. unfold get_field_value. nvs; apply nv_as_integer. Qed.
Lemma nv_struct_loop nm km fs b :
  Forall (fun f => cbs Q (snd f)) fs ->
  Forall (fun f => cbs Q (snd f) -> forall b, nv (tv (snd f) b)) fs ->
  (forall t n, In (TTrailTypes t n) (map snd fs) -> forall b, nv (tv t b)) ->
  forall off acc, nv (struct_loop oc dyn tv nm km fs b off acc).
Proof.
  induction fs as [|f fs IH]; intros HQ Htv Htt off acc; cbn [struct_loop]; [exact I|].
  inversion HQ as [|? ? Q1 Q2]; subst. inversion Htv as [|? ? T1 T2]; subst.
  assert (IH' : forall off acc, nv (struct_loop oc dyn tv nm km fs b off acc)) by (apply IH; auto; intros t n Hin; apply (Htt t n); right; exact Hin).
  clear IH. specialize (T1 Q1).
  assert (D : nv (let* rest := slice_from b off in let* r := field_from_bytes tv f rest in
      let* offset' := usize_add oc off (ty_size (snd f)) in struct_loop oc dyn tv nm km fs b offset' (acc ++ r))).
  { apply nv_bind; [apply nv_slice_from|intros ?]. apply nv_bind; [apply nv_field; exact T1|intros ?]. apply nv_bind; [apply nv_usize_add|intros ?]. apply IH'. }
  destruct (snd f) as [| | | |t n|nm' km' fs'|nm' fs'|n|t n|cb] eqn:Ef; try exact D.
  - apply nv_bind; [apply nv_get_field_value|intros ?]. apply nv_bind; [apply nv_usize_add|intros ?]. apply nv_bind; [apply nv_ensure; exact I|intros ?].
    apply nv_bind; [apply nv_ok_or; exact I|intros ?]. apply nv_bind; [apply nv_slice|intros ?]. apply nv_bind; [apply nv_usize_add|intros ?]. apply IH'.
  - apply nv_bind; [apply nv_get_field_value|intros ?]. apply nv_bind; [apply nv_usize_mul|intros ?]. apply nv_bind; [apply nv_usize_add|intros ?]. apply nv_bind; [apply nv_ensure; exact I|intros ?].
    apply nv_bind; [apply nv_trail; apply (Htt t n); left; exact Ef|intros ?]. apply nv_bind; [apply nv_ok_or; exact I|intros ?]. apply IH'.
  - apply nv_bind; [apply nv_slice_from|intros ?]. apply nv_bind; [apply Hdyn; exact Q1|intros ?]. apply nv_bind; [apply nv_usize_add|intros ?]. apply IH'.
Qed.
Lemma nv_union_loop fs b : Forall (fun f => forall b, nv (tv (snd f) b)) fs -> forall acc, nv (union_loop tv fs b acc).
Proof. induction 1 as [|f fs Hf _ IH]; intros acc; cbn [union_loop]; [exact I|]. apply nv_bind; [apply nv_field; exact Hf|intros ?; apply IH]. Qed.
End Tv.
Lemma nv_to_value t : cbs Q t ->
  (forall b, nv (to_value oc dyn t b)) /\ (forall t' n, t = TTrailTypes t' n -> forall b, nv (to_value oc dyn t' b)).
Proof.
  induction t as [| | | |t n IH|nm km fs IH|nm fs IH|n|t n IH|cb] using ty_ind'; intros HQ; (split; [|try discriminate]); try (intros b; cbn [to_value]; try exact I; unfold le_int).
  - nvs; apply nv_index.
  - nvs; apply nv_slice.
  - nvs; apply nv_slice.
  - nvs; apply nv_slice.
  - apply nv_bind; [apply nv_array; apply IH; exact HQ|intros; exact I].
  - apply nv_bind; [apply nv_ensure; exact I|intros ?]. cbn [cbs] in HQ. apply cbs_list in HQ. apply nv_bind; [|intros; exact I].
    apply nv_struct_loop; [exact HQ| |].
    + rewrite Forall_forall in *. intros f Hf Hc. apply IH; assumption.
    + intros t n Hin. apply in_map_iff in Hin. destruct Hin as (f & Ef & Hf). rewrite Forall_forall in *. eapply (proj2 (IH f Hf (HQ f Hf))). exact Ef.
  - cbn [cbs] in HQ. apply cbs_list in HQ. apply nv_bind; [|intros; exact I]. apply nv_union_loop. rewrite Forall_forall in *. intros f Hf. apply IH; auto.
  - intros ? E. injection E as <- <-. apply IH. exact HQ.
Qed.
Lemma nv_from_bytes_gen s key b : Forall (fun f => cbs Q (snd f)) (st_fields s) -> nv (from_bytes_gen oc dyn s key b).
Proof.
  intros HQ. unfold from_bytes_gen. apply nv_bind; [apply nv_ensure; exact I|intros ?]. apply nv_bind; [|intros; exact I]. apply nv_struct_loop; [exact HQ| |].
  - rewrite Forall_forall in *. intros f Hf Hc. apply nv_to_value; assumption.
  - intros t n Hin. apply in_map_iff in Hin. destruct Hin as (f & Ef & Hf). rewrite Forall_forall in *. eapply (proj2 (nv_to_value (snd f) (HQ f Hf))). exact Ef.
Qed.
End Decode.
Lemma nv_dyn oc nm km cb b : (forall b, nv (cb b)) -> nv (dyn_struct oc nm km cb b).
Proof.
  intros Hcb. unfold dyn_struct. apply nv_bind; [apply Hcb|intros ?]. apply nv_bind; [apply nv_ensure; exact I|intros ?]. apply nv_bind; [|intros v; destruct v; exact I].
  apply (nv_from_bytes_gen oc dyn_none (fun _ => True)); [intros; exact I|]. apply Forall_forall. intros f _. apply cbs_true.
Qed.
Lemma nv_inline k : forall b off acc, nv (inline_refs k b off acc).
Proof. induction k as [|k IH]; intros b off acc; cbn [inline_refs]; [exact I|]. nvs; first [apply nv_index|apply IH]. Qed.
Lemma nv_extent b : nv (extent_item_fields b).
Proof. unfold extent_item_fields. nvs. apply nv_inline. Qed.
Lemma nv_file_extent b : nv (file_extent_item_fields b).
Proof. unfold file_extent_item_fields. nvs. apply nv_index. Qed.
Lemma nv_shipped s : In s STRUCTS -> Forall (fun f => cbs (fun cb => forall b, nv (cb b)) (snd f)) (st_fields s).
Proof.
  revert s. apply Forall_forall. unfold STRUCTS.
  repeat (apply Forall_cons; [cbn [st_fields]; repeat (apply Forall_cons; [cbn;
    repeat match goal with |- _ /\ _ => split | |- True => exact I end;
    first [exact nv_extent|exact nv_file_extent|exact I|idtac]|]); try apply Forall_nil|]). apply Forall_nil.
Qed.
Lemma nv_from_bytes oc s key b : In s STRUCTS -> nv (from_bytes oc s key b).
Proof. intros Hs. apply (nv_from_bytes_gen oc (dyn_struct oc) (fun cb => forall b, nv (cb b))); [intros; apply nv_dyn; assumption|apply nv_shipped; exact Hs]. Qed.
Lemma nv_search_key oc a b c d : nv (make_search_key oc a b c d).
Proof.
  unfold make_search_key. apply nv_bind; [apply nv_from_bytes; left; reflexivity|intros ?]. apply nv_bind; [apply nv_as_struct|intros [[n k] fs]]. apply nv_bind; [apply nv_set_fields|intros; exact I].
Qed.
Lemma nv_disk_key oc a b c : nv (make_disk_key oc a b c).
Proof.
  unfold make_disk_key. apply nv_bind; [apply nv_from_bytes; right; left; reflexivity|intros ?]. apply nv_bind; [apply nv_as_struct|intros [[n k] fs]]. apply nv_bind; [apply nv_set_fields|intros; exact I].
Qed.
Lemma nv_search_args tree fs : nv (search_args tree fs).
Proof.
  unfold search_args. apply nv_bind; [apply nv_try|intros ?].
  assert (K : forall n bits, nv (key_arg fs n bits)).
  { intros n bits. unfold key_arg. apply nv_bind; [apply nv_get_field|intros ?]. apply nv_bind; [apply nv_as_integer|intros ?]. apply nv_try. }
  repeat (apply nv_bind; [apply K|intros ?]). exact I.
Qed.
Lemma nv_get_bytes f a b : nv (get_bytes f a b). Proof. unfold get_bytes. nvs. Qed.
Lemma nv_cast E f t z : nv (eval_cast E f t z).
Proof.
  unfold eval_cast. destruct t; try exact I. destruct (find _ STRUCTS) as [s|] eqn:Hf; [|exact I]. cbn [unwrap bind]. apply find_some in Hf. destruct Hf as [Hs _].
  destruct f; [|exact I]. apply nv_bind; [apply nv_usize_add|intros ?]. apply nv_bind; [apply nv_get_bytes|intros ?]. apply nv_from_bytes. exact Hs.
Qed.
Lemma nv_extract oc n : forall buf off ret coll, nv (extract oc n buf off ret coll).
Proof.
  induction n as [|n IH]; intros buf off ret coll; cbn [extract]; [exact I|]. unfold buf_slice, i32_incr. nvs; apply IH.
Qed.
Definition nvm {A} (m : M A) : Prop := forall w, nv (snd (m w)).
Lemma nvm_ret {A} (r : res A) : nv r -> nvm (mret r). Proof. intros H w. exact H. Qed.
Lemma nvm_bind {A B} (m : M A) (g : A -> M B) : nvm m -> (forall a, nvm (g a)) -> nvm (mbind m g).
Proof. intros Hm Hg w. unfold mbind. specialize (Hm w). destruct (m w) as [u r]. destruct r; try exact Hm. apply Hg. Qed.
Lemma nvm_search E fd retry K : forall key ret coll, nvm (search_loop K E fd retry key ret coll).
Proof.
  induction K as [|K IH]; intros key ret coll w; cbn [search_loop]; [exact I|].
  destruct (ioctl E (tick w) fd key) as [nr buf|nr buf|]; [| |exact I];
  (pose proof (nv_extract (overflow_checks E) (Z.to_nat nr) buf 0 ret coll) as HE; destruct (extract (overflow_checks E) (Z.to_nat nr) buf 0 ret coll) as [[ret' coll']| | |]; try exact HE;
   destruct (negb retry || (nr =? 0)%Z); [cbn [snd]; nvs|]; destruct (largest ret') as [m|]; [|exact I];
   pose proof (nv_try 8 (h_type m)) as HT; destruct (try_into_u 8 (h_type m)); try exact HT; destruct (h_offset m + 1 <? 2 ^ 64)%Z; [apply IH|exact I]).
Qed.
Lemma nvm_decode oc cs : nvm (decode_chunks oc cs).
Proof.
  induction cs as [|[h b] cs IH]; intros w; cbn [decode_chunks]; [exact I|]. destruct (find _ STRUCTS) as [s|] eqn:Hf; [|apply IH].
  apply find_some in Hf. destruct Hf as [Hs _].
  match goal with |- nv (snd (?m w)) => assert (G : nvm m) end; [|apply G].
  apply nvm_bind; [apply nvm_ret, nv_from_bytes; exact Hs|intros v]. apply nvm_bind; [exact IH|intros vs; apply nvm_ret; exact I].
Qed.
Lemma nvm_eval_search K E f tree key : nvm (eval_search K E f tree key).
Proof.
  unfold eval_search. apply nvm_bind; [apply nvm_ret, nv_as_struct|intros [[n ky] fl]]. apply nvm_bind; [apply nvm_ret, nv_ensure; exact I|intros _]. destruct f as [f|]; [|apply nvm_ret; exact I].
  apply nvm_bind; [apply nvm_ret, nv_search_args|intros sk]. apply nvm_bind; [|intros cs; apply nvm_bind; [apply nvm_decode|intros vs; apply nvm_ret; exact I]].
  unfold fs_search. destruct f; [apply nvm_search|apply nvm_ret; exact I].
Qed.
(** ** Histograms and opening *)
Lemma nv_le k : forall x i, nv (shl_while_le k x i).
Proof. induction k as [|k IH]; intros x i; cbn [shl_while_le]; nvs. apply IH. Qed.
Lemma nv_gt k : forall x i, nv (shl_while_gt k x i).
Proof. induction k as [|k IH]; intros x i; cbn [shl_while_gt]; nvs. apply IH. Qed.
Lemma nv_prev k x : nv (previous_power_2 k x).
Proof. unfold previous_power_2. nvs; first [apply nv_le|apply nv_gt]. Qed.
Lemma nv_next k x : nv (next_power_2 k x).
Proof. unfold next_power_2. nvs; apply nv_prev. Qed.
Lemma nv_pretty k oc b : nv (num_bytes_to_pretty k oc b).
Proof. unfold num_bytes_to_pretty. nvs; first [apply nv_prev|apply nv_neg]. Qed.
Lemma nv_hist_vals vs : nv (hist_vals vs).
Proof. induction vs as [|v vs IH]; cbn [hist_vals]; [exact I|]. destruct v; nvs. Qed.
Lemma nv_buckets vals max k : forall cur, nv (hist_buckets k vals max cur).
Proof. induction k as [|k IH]; intros cur; cbn [hist_buckets]; nvs; first [apply nv_next|apply IH]. Qed.
Lemma nv_line k oc n b : nv (hist_line k oc n b).
Proof. unfold hist_line. destruct b as [[? ?] ?]. nvs; apply nv_pretty. Qed.
Lemma nv_lines k oc n bs : nv (hist_lines k oc n bs).
Proof. induction bs as [|b bs IH]; cbn [hist_lines]; nvs. apply nv_line. Qed.
Lemma nv_print k oc v : nv (print_text k oc v).
Proof. destruct v as [| | |l []| | ]; try exact I. cbn [print_text]. unfold as_hist. nvs; first [apply nv_hist_vals|apply nv_prev|apply nv_buckets|apply nv_lines]. Qed.
Lemma nvm_open E p : nvm (fs_new E p).
Proof. intros w. unfold fs_new. cbn [snd]. nvs. Qed.
