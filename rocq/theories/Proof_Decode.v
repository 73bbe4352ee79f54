(** The decoder against the format specification (C22-C27). *)
From Verif Require Import Base Structs Definitions Value Lib Spec_Decode.
Require Import Lia ZArith.
Arguments s_ s%string_scope.
Opaque Z.pow.

(** ** Little-endian integers *)
Lemma le_bytes_len n : forall z, length (le_bytes n z) = n.
Proof. induction n; intros; cbn; auto. Qed.
Lemma le_bytes_ok n : forall z, Forall (fun b => (b < 256)%N) (le_bytes n z).
Proof.
  induction n; intros; cbn; constructor; auto. pose proof (Z.mod_pos_bound z 256 ltac:(lia)). lia.
Qed.
Lemma le_le_bytes n : forall z, (0 <= z < 256 ^ Z.of_nat n)%Z -> le (le_bytes n z) = z.
Proof.
  induction n; intros z Hz; [cbn in *; change (256 ^ 0)%Z with 1%Z in Hz; lia|].
  cbn [le_bytes le]. rewrite Nat2Z.inj_succ, Z.pow_succ_r in Hz by lia.
  pose proof (Z.mod_pos_bound z 256 ltac:(lia)). rewrite Z2N.id by lia.
  rewrite IHn; [pose proof (Z.div_mod z 256); lia|].
  split; [apply Z.div_pos; lia|apply Z.div_lt_upper_bound; lia].
Qed.
Lemma le_range bs : Forall (fun b => (b < 256)%N) bs -> (0 <= le bs < 256 ^ Z.of_nat (length bs))%Z.
Proof.
  induction 1; cbn [le length]; [change (Z.of_nat 0) with 0%Z; change (256 ^ 0)%Z with 1%Z; lia|]. rewrite Nat2Z.inj_succ, Z.pow_succ_r by lia. lia.
Qed.
Lemma le_bytes_le bs : Forall (fun b => (b < 256)%N) bs -> le_bytes (length bs) (le bs) = bs.
Proof.
  induction 1 as [|b bs Hb H IH]; cbn [le length le_bytes]; [reflexivity|].
  pose proof (le_range bs H). rewrite (Z.mul_comm 256), Z.mod_add, Z.div_add by lia.
  rewrite Z.mod_small, Z.div_small, Z.add_0_l, IH, N2Z.id by lia. reflexivity.
Qed.

(** ** Lists *)
Lemma firstn_plus {A} a b (l : list A) : firstn (a + b) l = firstn a l ++ firstn b (skipn a l).
Proof. revert l; induction a; intros l; cbn; [reflexivity|]. destruct l; cbn; [rewrite firstn_nil; reflexivity|]. rewrite IHa. reflexivity. Qed.
Lemma skipn_skipn {A} a b (l : list A) : skipn a (skipn b l) = skipn (a + b) l.
Proof. rewrite Nat.add_comm. revert l; induction b; intros l; cbn; [reflexivity|]. destruct l; [apply skipn_nil|apply IHb]. Qed.
Lemma firstn_app_exact {A} (l r : list A) n : n = length l -> firstn n (l ++ r) = l.
Proof. intros ->. rewrite firstn_app, Nat.sub_diag, firstn_all. cbn. apply app_nil_r. Qed.
Lemma skipn_app_exact {A} (l r : list A) n : n = length l -> skipn n (l ++ r) = r.
Proof. intros ->. rewrite skipn_app, Nat.sub_diag, skipn_all. reflexivity. Qed.
Lemma Forall_skipn {A} (P : A -> Prop) n l : Forall P l -> Forall P (skipn n l).
Proof. intros H. rewrite <- (firstn_skipn n l) in H. apply Forall_app in H. tauto. Qed.
Lemma Forall_firstn {A} (P : A -> Prop) n l : Forall P l -> Forall P (firstn n l).
Proof. intros H. rewrite <- (firstn_skipn n l) in H. apply Forall_app in H. tauto. Qed.
Lemma bytes_ok_skipn n l : bytes_ok l -> bytes_ok (skipn n l).
Proof. intros [H1 H2]. split; [apply Forall_skipn; auto|]. unfold zlen in *. rewrite skipn_length. lia. Qed.
Lemma bytes_ok_firstn n l : bytes_ok l -> bytes_ok (firstn n l).
Proof. intros [H1 H2]. split; [apply Forall_firstn; auto|]. unfold zlen in *. rewrite firstn_length. lia. Qed.

(** ** Sizes *)
Lemma fold_sum (fs : list field) : Forall (fun f => ty_size (snd f) = Z.of_nat (csize (snd f))) fs -> forall acc,
  fold_left (fun acc (f : field) => (acc + ty_size (snd f))%Z) fs acc = (acc + Z.of_nat (list_sum (map (fun f : field => csize (snd f)) fs)))%Z.
Proof.
  induction 1 as [|f fs H HF IH]; intros acc; cbn [fold_left map list_sum]; [cbn; lia|]. rewrite IH, H.
  change (list_sum (csize (snd f) :: map (fun f0 : field => csize (snd f0)) fs)) with (csize (snd f) + list_sum (map (fun f0 : field => csize (snd f0)) fs)). lia.
Qed.
Lemma fold_max (fs : list field) : Forall (fun f => ty_size (snd f) = Z.of_nat (csize (snd f))) fs -> forall acc,
  fold_left (fun acc (f : field) => Z.max acc (ty_size (snd f))) fs acc = Z.max acc (Z.of_nat (list_max (map (fun f : field => csize (snd f)) fs))) \/ (acc < 0)%Z.
Proof.
  induction 1 as [|f fs H HF IH]; intros acc; cbn [fold_left map]; [unfold list_max; cbn [fold_right]; change (Z.of_nat 0) with 0%Z; lia|]. specialize (IH (Z.max acc (ty_size (snd f)))).
  change (list_max (csize (snd f) :: map (fun f0 : field => csize (snd f0)) fs)) with (Nat.max (csize (snd f)) (list_max (map (fun f0 : field => csize (snd f0)) fs))). lia.
Qed.
Lemma ty_size_csize t : ty_size t = Z.of_nat (csize t).
Proof.
  induction t using ty_ind'; cbn [ty_size csize]; try reflexivity.
  - rewrite IHt. lia.
  - etransitivity; [exact (fold_sum fs H 0%Z)|]. reflexivity.
  - destruct (fold_max fs H 0%Z) as [He|He]; [|lia]. etransitivity; [exact He|]. rewrite Z.max_r by lia. reflexivity.
Qed.
Definition fsize (fs : list field) : nat := list_sum (map (fun f : field => csize (snd f)) fs).
Lemma fsize_cons f fs : fsize (f :: fs) = csize (snd f) + fsize fs.
Proof. reflexivity. Qed.
Lemma st_size_fsize s : st_size s = Z.of_nat (fsize (st_fields s)).
Proof. unfold st_size, fsize. rewrite fold_sum; [lia|]. apply Forall_forall. intros. apply ty_size_csize. Qed.

(** ** Static types *)
Definition field_ok (f : field) : bool := fixed_layout (snd f) && nameable f.

Lemma usize_add_ok oc a b : (a + b < 2 ^ 64)%Z -> usize_add oc a b = Ok (a + b)%Z.
Proof. intros H. unfold usize_add. rewrite (proj2 (Z.ltb_lt _ _) H). reflexivity. Qed.
Lemma usize_mul_ok oc a b : (a * b < 2 ^ 64)%Z -> usize_mul oc a b = Ok (a * b)%Z.
Proof. intros H. unfold usize_mul. rewrite (proj2 (Z.ltb_lt _ _) H). reflexivity. Qed.
Lemma slice_from_ok {A} (l : list A) n : n <= length l -> slice_from l (Z.of_nat n) = Ok (skipn n l).
Proof. intros H. unfold slice_from, zlen. rewrite (proj2 (Z.leb_le _ _)) by lia. rewrite Nat2Z.id. reflexivity. Qed.
Lemma slice_ok {A} (l : list A) a b : a + b <= length l ->
  slice l (Z.of_nat a) (Z.of_nat a + Z.of_nat b) = Ok (firstn b (skipn a l)).
Proof.
  intros H. unfold slice, zlen. rewrite (proj2 (Z.leb_le _ _)) by lia. rewrite (proj2 (Z.leb_le _ _)) by lia. cbn [andb].
  rewrite Nat2Z.id. replace (Z.of_nat a + Z.of_nat b - Z.of_nat a)%Z with (Z.of_nat b) by lia. rewrite Nat2Z.id. reflexivity.
Qed.
Lemma ensure_size t (bytes : str) e : csize t <= length bytes -> ensure (ty_size t <=? zlen bytes)%Z e = Ok tt.
Proof. intros H. rewrite ty_size_csize. unfold ensure, zlen. rewrite (proj2 (Z.leb_le _ _)) by lia. reflexivity. Qed.

Lemma static_ok_static t : fixed_layout t = true -> is_static_sized t = true.
Proof.
  induction t using ty_ind'; cbn; auto; intros Hf.
  - rewrite forallb_forall in *. intros f Hin. specialize (Hf f Hin). rewrite Forall_forall in H. apply andb_true_iff in Hf. apply H; tauto.
  - rewrite forallb_forall in *. intros f Hin. specialize (Hf f Hin). rewrite Forall_forall in H. apply andb_true_iff in Hf. apply H; tauto.
Qed.

Section Dec.
Variable oc : bool.
Variable dyn : str -> (Z -> Z -> Z -> bool) -> (str -> res (list field)) -> str -> res (list (str * value) * Z).
Notation tv := (to_value oc dyn).

Definition good (t : ty) : Prop :=
  forall bytes, bytes_ok bytes -> csize t <= length bytes ->
  exists v, tv t bytes = Ok v /\ encodes t v (firstn (csize t) bytes) /\
            (is_aggr t = true -> exists nm ms, v = VStruct nm None ms).

Lemma le_int_good n t : (forall z, (0 <= z < 256 ^ Z.of_nat n)%Z -> encodes t (VInt z) (le_bytes n z)) ->
  forall bytes, bytes_ok bytes -> n <= length bytes ->
  le_int (Z.of_nat n) bytes = Ok (VInt (le (firstn n bytes))) /\ encodes t (VInt (le (firstn n bytes))) (firstn n bytes).
Proof.
  intros H bytes Hb Hn. unfold le_int. pose proof (slice_ok bytes 0 n ltac:(lia)) as Hs. cbn [Z.of_nat Z.add skipn] in Hs.
  replace (Z.of_nat 0 + Z.of_nat n)%Z with (Z.of_nat n) in Hs by lia. change (Z.of_nat 0) with 0%Z in Hs. rewrite Hs. cbn [bind]. split; [reflexivity|].
  destruct (bytes_ok_firstn n bytes Hb) as [Hf _]. pose proof (le_range _ Hf) as Hr. rewrite firstn_length, Nat.min_l in Hr by lia.
  specialize (H _ Hr). rewrite <- (le_bytes_le (firstn n bytes) Hf) at 2. rewrite firstn_length, Nat.min_l by lia. exact H.
Qed.

Lemma good_u8 : good TU8.
Proof.
  intros bytes Hb Hn. destruct bytes as [|b bytes]; [cbn in Hn; lia|]. exists (VInt (Z.of_N b)). cbn.
  split; [reflexivity|]. split; [|discriminate]. destruct Hb as [Hb _]. inversion Hb; subst.
  replace [b] with (le_bytes 1 (Z.of_N b)); [constructor; change (2 ^ 8)%Z with 256%Z; lia|].
  cbn. rewrite Z.mod_small by lia. rewrite N2Z.id. reflexivity.
Qed.
Lemma good_u16 : good TU16.
Proof.
  intros bytes Hb Hn. destruct (le_int_good 2 TU16) with (bytes := bytes) as [H1 H2]; auto.
  { intros z Hz. constructor. exact Hz. }
  eexists. split; [exact H1|]. split; [exact H2|discriminate].
Qed.
Lemma good_u32 : good TU32.
Proof.
  intros bytes Hb Hn. destruct (le_int_good 4 TU32) with (bytes := bytes) as [H1 H2]; auto.
  { intros z Hz. constructor. exact Hz. }
  eexists. split; [exact H1|]. split; [exact H2|discriminate].
Qed.
Lemma good_u64 : good TU64.
Proof.
  intros bytes Hb Hn. destruct (le_int_good 8 TU64) with (bytes := bytes) as [H1 H2]; auto.
  { intros z Hz. constructor. exact Hz. }
  eexists. split; [exact H1|]. split; [exact H2|discriminate].
Qed.

Lemma array_good t bytes : good t -> bytes_ok bytes -> forall n i, (i + n) * csize t <= length bytes ->
  exists vs bss, array_loop (tv t) (ty_size t) n (Z.of_nat i) bytes = Ok vs /\ length vs = n /\
    Forall2 (encodes t) vs bss /\ concat bss = firstn (n * csize t) (skipn (i * csize t) bytes).
Proof.
  intros Hg Hb. induction n as [|n IH]; intros i Hi.
  - exists [], []. repeat split; constructor.
  - cbn [array_loop]. rewrite ty_size_csize, <- Nat2Z.inj_mul, slice_from_ok by nia. cbn [bind].
    destruct (Hg (skipn (i * csize t) bytes)) as (v & Hv & He & _); [apply bytes_ok_skipn; auto|rewrite skipn_length; nia|].
    rewrite Hv. cbn [bind]. destruct (IH (S i)) as (vs & bss & H1 & H2 & H3 & H4); [nia|].
    replace (Z.of_nat i + 1)%Z with (Z.of_nat (S i)) by lia. rewrite <- ty_size_csize, H1. cbn [bind].
    exists (v :: vs), (firstn (csize t) (skipn (i * csize t) bytes) :: bss). split; [reflexivity|].
    split; [cbn; congruence|]. split; [constructor; auto|]. cbn [concat]. rewrite H4.
    replace (S n * csize t) with (csize t + n * csize t) by lia. rewrite firstn_plus, skipn_skipn. reflexivity.
Qed.

Lemma good_array t n : good t -> good (TArray t n).
Proof.
  intros Hg bytes Hb Hn. cbn [csize] in *. destruct (array_good t bytes Hg Hb n 0) as (vs & bss & H1 & H2 & H3 & H4); [lia|].
  exists (VArr vs false). cbn [to_value]. change (Z.of_nat 0) with 0%Z in H1. rewrite H1. cbn [bind]. split; [reflexivity|].
  split; [|discriminate]. cbn [skipn Nat.mul] in H4. rewrite <- H4, <- H2. constructor. exact H3.
Qed.

(** one named or anonymous static field *)
Definition members (f : field) (v : value) : list (str * value) :=
  match fst f with Some n => [(n, v)] | None => match v with VStruct _ _ ms => ms | _ => [] end end.
Lemma field_good f : good (snd f) -> nameable f = true -> forall bytes, bytes_ok bytes -> csize (snd f) <= length bytes ->
  exists v, field_from_bytes tv f bytes = Ok (members f v) /\ encodes (snd f) v (firstn (csize (snd f)) bytes) /\
            (fst f = None -> exists nm ms, v = VStruct nm None ms).
Proof.
  intros Hg Hn bytes Hb Hs. destruct (Hg bytes Hb Hs) as (v & Hv & He & Ha). exists v. unfold field_from_bytes, members.
  rewrite ensure_size by exact Hs. cbn [bind]. rewrite Hv. cbn [bind]. unfold nameable in Hn. destruct (fst f) as [n|].
  - repeat split; auto; discriminate.
  - destruct (Ha Hn) as (nm & ms & ->). repeat split; eauto.
Qed.

Lemma struct_loop_static name km f fs bytes offset acc : is_static_sized (snd f) = true ->
  struct_loop oc dyn tv name km (f :: fs) bytes offset acc =
  (let* rest := slice_from bytes offset in
   let* r := field_from_bytes tv f rest in
   let* offset' := usize_add oc offset (ty_size (snd f)) in
   struct_loop oc dyn tv name km fs bytes offset' (acc ++ r)).
Proof. destruct f as [n t]. cbn [snd struct_loop]. destruct t; cbn; try reflexivity; discriminate. Qed.

Lemma struct_good name km bytes : bytes_ok bytes -> forall fs,
  Forall (fun f => field_ok f = true /\ good (snd f)) fs ->
  forall offset acc, offset + fsize fs <= length bytes ->
  exists ms, struct_loop oc dyn tv name km fs bytes (Z.of_nat offset) acc = Ok (acc ++ ms) /\
             enc_fields fs ms (firstn (fsize fs) (skipn offset bytes)).
Proof.
  intros Hb fs HF. induction HF as [|f fs [Hok Hg] HF IH]; intros offset acc Ho.
  - exists []. cbn. rewrite app_nil_r. split; [reflexivity|constructor].
  - rewrite fsize_cons in Ho. apply andb_true_iff in Hok. destruct Hok as [Hst Hnm].
    rewrite struct_loop_static by (apply static_ok_static; exact Hst). rewrite slice_from_ok by lia. cbn [bind].
    destruct (field_good f Hg Hnm (skipn offset bytes)) as (v & Hv & He & Ha); [apply bytes_ok_skipn; auto|rewrite skipn_length; lia|].
    rewrite Hv. cbn [bind]. rewrite ty_size_csize, usize_add_ok by (destruct Hb as [_ Hb]; unfold zlen in Hb; lia). cbn [bind].
    destruct (IH (offset + csize (snd f)) (acc ++ members f v)) as (ms & H1 & H2); [lia|].
    rewrite <- Nat2Z.inj_add, H1. exists (members f v ++ ms). rewrite app_assoc. split; [reflexivity|].
    rewrite fsize_cons, firstn_plus, skipn_skipn, (Nat.add_comm (csize (snd f))). unfold members. destruct f as [[n|] t]; cbn [fst snd] in *.
    + constructor; assumption.
    + destruct (Ha eq_refl) as (nm & inner & ->). econstructor; eassumption.
Qed.

Lemma union_good bytes : bytes_ok bytes -> forall fs,
  Forall (fun f => field_ok f = true /\ good (snd f)) fs ->
  forall k acc, k <= length bytes -> Forall (fun f : field => csize (snd f) <= k) fs ->
  exists ms, union_loop tv fs bytes acc = Ok (acc ++ ms) /\ enc_overlay fs ms (firstn k bytes).
Proof.
  intros Hb fs HF. induction HF as [|f fs [Hok Hg] HF IH]; intros k acc Hk Hs.
  - exists []. cbn. rewrite app_nil_r. split; [reflexivity|constructor].
  - inversion Hs as [|? ? Hf Hs']; subst. apply andb_true_iff in Hok. destruct Hok as [Hst Hnm]. cbn [union_loop].
    destruct (field_good f Hg Hnm bytes Hb) as (v & Hv & He & Ha); [lia|]. rewrite Hv. cbn [bind].
    destruct (IH k (acc ++ members f v) Hk Hs') as (ms & H1 & H2). rewrite H1. exists (members f v ++ ms).
    rewrite app_assoc. split; [reflexivity|].
    assert (Hp : firstn k bytes = firstn (csize (snd f)) bytes ++ firstn (k - csize (snd f)) (skipn (csize (snd f)) bytes)).
    { rewrite <- firstn_plus. f_equal. lia. }
    unfold members. destruct f as [[n|] t]; cbn [fst snd] in *.
    + econstructor; eassumption.
    + destruct (Ha eq_refl) as (nm & inner & ->). econstructor; eassumption.
Qed.

Lemma static_good t : fixed_layout t = true -> good t.
Proof.
  induction t using ty_ind'; intros Hok; try discriminate Hok.
  - apply good_u8.
  - apply good_u16.
  - apply good_u32.
  - apply good_u64.
  - apply good_array. apply IHt. exact Hok.
  - assert (HF : Forall (fun f => field_ok f = true /\ good (snd f)) fs).
    { cbn in Hok. rewrite forallb_forall in Hok. rewrite Forall_forall in *. intros f Hin. specialize (Hok f Hin). split; [exact Hok|].
      apply andb_true_iff in Hok. apply H; tauto. }
    intros bytes Hb Hn. change (csize (TStruct nm km fs)) with (fsize fs) in *.
    destruct (struct_good nm km bytes Hb fs HF 0 []) as (ms & H1 & H2); [lia|].
    exists (VStruct nm None ms). cbn [to_value]. rewrite ensure_size by exact Hn. cbn [bind]. change (Z.of_nat 0) with 0%Z in H1. rewrite H1. cbn [bind app].
    split; [reflexivity|]. split; [constructor; exact H2|eauto].
  - assert (HF : Forall (fun f => field_ok f = true /\ good (snd f)) fs).
    { cbn in Hok. rewrite forallb_forall in Hok. rewrite Forall_forall in *. intros f Hin. specialize (Hok f Hin). split; [exact Hok|].
      apply andb_true_iff in Hok. apply H; tauto. }
    intros bytes Hb Hn. set (k := csize (TUnion nm fs)) in *.
    destruct (union_good bytes Hb fs HF k []) as (ms & H1 & H2); [exact Hn| |].
    { apply Forall_forall. intros f Hin. assert (Hm : list_max (map (fun f : field => csize (snd f)) fs) <= k) by (apply le_n).
      apply list_max_le in Hm. rewrite Forall_forall in Hm. apply Hm. apply in_map_iff. eauto. }
    exists (VStruct nm None ms). cbn [to_value]. rewrite H1. cbn [bind app]. split; [reflexivity|]. split; [|eauto].
    constructor; [rewrite firstn_length; lia|exact H2].
Qed.
End Dec.

(** ** Encodings have the size of their type and determine the value *)
Definition enc_len (t : ty) : Prop := forall v bs, encodes t v bs -> length bs = csize t /\ Forall (fun b => (b < 256)%N) bs.
Lemma enc_u8_inv v bs : encodes TU8 v bs -> exists z, v = VInt z /\ (0 <= z < 2 ^ 8)%Z /\ bs = le_bytes 1 z.
Proof. inversion 1; subst. eauto. Qed.
Lemma enc_u16_inv v bs : encodes TU16 v bs -> exists z, v = VInt z /\ (0 <= z < 2 ^ 16)%Z /\ bs = le_bytes 2 z.
Proof. inversion 1; subst. eauto. Qed.
Lemma enc_u32_inv v bs : encodes TU32 v bs -> exists z, v = VInt z /\ (0 <= z < 2 ^ 32)%Z /\ bs = le_bytes 4 z.
Proof. inversion 1; subst. eauto. Qed.
Lemma enc_u64_inv v bs : encodes TU64 v bs -> exists z, v = VInt z /\ (0 <= z < 2 ^ 64)%Z /\ bs = le_bytes 8 z.
Proof. inversion 1; subst. eauto. Qed.
Lemma enc_array_inv t n v bs : encodes (TArray t n) v bs ->
  exists vs bss, n = length vs /\ v = VArr vs false /\ Forall2 (encodes t) vs bss /\ bs = concat bss.
Proof. inversion 1; subst. eauto 8. Qed.
Lemma enc_struct_inv nm km fs v bs : encodes (TStruct nm km fs) v bs -> exists ms, v = VStruct nm None ms /\ enc_fields fs ms bs.
Proof. inversion 1; subst. eauto. Qed.
Lemma enc_union_inv nm fs v bs : encodes (TUnion nm fs) v bs ->
  exists ms, v = VStruct nm None ms /\ length bs = csize (TUnion nm fs) /\ enc_overlay fs ms bs.
Proof. inversion 1; subst. eauto. Qed.

Lemma forall2_len t vs bss : enc_len t -> Forall2 (encodes t) vs bss ->
  length (concat bss) = length vs * csize t /\ Forall (fun b => (b < 256)%N) (concat bss).
Proof.
  intros Ht. induction 1 as [|v b vs bss H HF [IH1 IH2]]; cbn [concat length Nat.mul]; [split; [reflexivity|constructor]|].
  destruct (Ht _ _ H) as [H1 H2]. rewrite app_length. split; [lia|]. apply Forall_app; auto.
Qed.
Lemma encodes_len t : enc_len t.
Proof.
  induction t using ty_ind'; intros v bs He; try (inversion He; subst; fail).
  - inversion He; subst. rewrite le_bytes_len. split; [reflexivity|apply le_bytes_ok].
  - inversion He; subst. rewrite le_bytes_len. split; [reflexivity|apply le_bytes_ok].
  - inversion He; subst. rewrite le_bytes_len. split; [reflexivity|apply le_bytes_ok].
  - inversion He; subst. rewrite le_bytes_len. split; [reflexivity|apply le_bytes_ok].
  - apply enc_array_inv in He. destruct He as (vs & bss & -> & -> & HF & ->). apply forall2_len; assumption.
  - apply enc_struct_inv in He. destruct He as (ms & -> & He). change (csize (TStruct nm km fs)) with (fsize fs). clear nm km.
    revert ms bs He. induction H as [|f fs Hf HF IH]; intros ms bs He.
    + inversion He; subst. split; [reflexivity|constructor].
    + assert (Hs : exists v b ms' bs', encodes (snd f) v b /\ enc_fields fs ms' bs' /\ bs = b ++ bs').
      { inversion He; subst; eauto 10. }
      destruct Hs as (v & b & ms' & bs' & E1 & E2 & ->). destruct (Hf _ _ E1) as [H1 H2]. destruct (IH _ _ E2) as [H3 H4].
      rewrite fsize_cons, app_length. split; [lia|apply Forall_app; auto].
  - apply enc_union_inv in He. destruct He as (ms & -> & Hl & He). split; [exact Hl|].
    assert (Hpos : forall fs' ms', Forall (fun f => enc_len (snd f)) fs' -> enc_overlay fs' ms' bs -> length bs = list_max (map (fun f : field => csize (snd f)) fs') -> Forall (fun b => (b < 256)%N) bs).
    { clear. intros fs' ms' HF Ho. revert ms' Ho.
      (* some member spans the whole union *)
      assert (Hm : forall k, Forall (fun f => enc_len (snd f)) fs' -> forall ms', enc_overlay fs' ms' bs -> length bs <= Nat.max k (list_max (map (fun f : field => csize (snd f)) fs')) ->
                 length bs <= k \/ Forall (fun b => (b < 256)%N) bs).
      { clear. induction fs' as [|f fs' IH]; intros k HF ms' Ho Hl; [left; cbn in Hl; lia|].
        inversion HF as [|? ? Hf HF']; subst. change (list_max (map (fun f : field => csize (snd f)) (f :: fs'))) with (Nat.max (csize (snd f)) (list_max (map (fun f : field => csize (snd f)) fs'))) in Hl.
        assert (Hs : exists v b pad ms2, encodes (snd f) v b /\ bs = b ++ pad /\ enc_overlay fs' ms2 bs).
        { inversion Ho; subst; eauto 10. }
        destruct Hs as (v & b & pad & ms2 & He & Hb & Ho2). destruct (Hf _ _ He) as [Hlen Hok].
        destruct (IH (Nat.max k (csize (snd f))) HF' ms2 Ho2) as [Hle|]; [lia| |auto].
        destruct (Nat.le_gt_cases (length bs) k); [auto|]. right.
        assert (pad = []). { apply length_zero_iff_nil. apply (f_equal (@length _)) in Hb. rewrite app_length in Hb. lia. }
        subst. rewrite app_nil_r in *. exact Hok. }
      intros ms' Ho Hl. destruct (Hm 0 HF ms' Ho ltac:(lia)) as [H0|]; [|assumption].
      destruct bs; [constructor|cbn in H0; lia]. }
    eapply Hpos; eassumption.
Qed.

Lemma app_len_inj {A} (a b c d : list A) : length a = length c -> a ++ b = c ++ d -> a = c /\ b = d.
Proof. revert c; induction a; destruct c; cbn; intros H1 H2; try discriminate; auto. inversion H2; subst. destruct (IHa c); auto. subst; auto. Qed.

Lemma le_bytes_inj n z z' : (0 <= z < 256 ^ Z.of_nat n)%Z -> (0 <= z' < 256 ^ Z.of_nat n)%Z -> le_bytes n z = le_bytes n z' -> z = z'.
Proof. intros H1 H2 H. rewrite <- (le_le_bytes n z), <- (le_le_bytes n z') by assumption. congruence. Qed.

Lemma forall2_det t vs vs' bss bss' :
  (forall v v' bs, encodes t v bs -> encodes t v' bs -> v = v') ->
  Forall2 (encodes t) vs bss -> Forall2 (encodes t) vs' bss' -> length vs = length vs' -> concat bss = concat bss' -> vs = vs'.
Proof.
  intros Hd H. revert vs' bss'. induction H as [|v b vs bss H HF IH]; intros vs' bss' H' Hl Hc; destruct H' as [|v' b' vs' bss' H' HF']; try discriminate Hl; [reflexivity|].
  cbn in *. destruct (encodes_len _ _ _ H) as [L1 _]. destruct (encodes_len _ _ _ H') as [L2 _].
  apply app_len_inj in Hc; [|congruence]. destruct Hc as [-> Hc]. f_equal; [eapply Hd; eassumption|]. eapply IH; eauto.
Qed.

Lemma fields_det fs : Forall (fun f : field => forall v v' bs, encodes (snd f) v bs -> encodes (snd f) v' bs -> v = v') fs ->
  forall ms ms' bs, enc_fields fs ms bs -> enc_fields fs ms' bs -> ms = ms'.
Proof.
  induction 1 as [|f fs Hf HF IH]; intros ms ms' bs He He'.
  - inversion He; subst. inversion He'; subst. reflexivity.
  - inversion He; subst; inversion He'; subst;
    match goal with H : _ ++ _ = _ ++ _ |- _ => apply app_len_inj in H; [destruct H; subst|] end;
    try (match goal with
         | H1 : encodes ?t _ ?a, H2 : encodes ?t _ ?b |- length ?b = length ?a =>
           rewrite (proj1 (encodes_len _ _ _ H1)), (proj1 (encodes_len _ _ _ H2)); reflexivity
         end);
    match goal with H1 : encodes _ ?x _, H2 : encodes _ ?y _ |- _ =>
      pose proof (Hf _ _ _ H1 H2) as Heq; inversion Heq; subst end; f_equal; eapply IH; eassumption.
Qed.
Lemma overlay_det fs : Forall (fun f : field => forall v v' bs, encodes (snd f) v bs -> encodes (snd f) v' bs -> v = v') fs ->
  forall ms ms' bs, enc_overlay fs ms bs -> enc_overlay fs ms' bs -> ms = ms'.
Proof.
  induction 1 as [|f fs Hf HF IH]; intros ms ms' bs He He'.
  - inversion He; subst. inversion He'; subst. reflexivity.
  - inversion He; subst; inversion He'; subst;
    match goal with H : _ ++ _ = _ ++ _ |- _ => apply app_len_inj in H; [destruct H; subst|] end;
    try (match goal with
         | H1 : encodes ?t _ ?a, H2 : encodes ?t _ ?b |- length ?b = length ?a =>
           rewrite (proj1 (encodes_len _ _ _ H1)), (proj1 (encodes_len _ _ _ H2)); reflexivity
         end);
    match goal with H1 : encodes _ ?x _, H2 : encodes _ ?y _ |- _ =>
      pose proof (Hf _ _ _ H1 H2) as Heq; inversion Heq; subst end; f_equal; eapply IH; eassumption.
Qed.

Lemma encodes_det t : forall v v' bs, encodes t v bs -> encodes t v' bs -> v = v'.
Proof.
  induction t using ty_ind'; intros v v' bs He He'; try (inversion He; subst; fail).
  - apply enc_u8_inv in He. destruct He as (z & -> & Hz & ->). apply enc_u8_inv in He'. destruct He' as (z' & -> & Hz' & Hb).
    f_equal. eapply (le_bytes_inj 1); [exact Hz|exact Hz'|exact Hb].
  - apply enc_u16_inv in He. destruct He as (z & -> & Hz & ->). apply enc_u16_inv in He'. destruct He' as (z' & -> & Hz' & Hb).
    f_equal. eapply (le_bytes_inj 2); [exact Hz|exact Hz'|exact Hb].
  - apply enc_u32_inv in He. destruct He as (z & -> & Hz & ->). apply enc_u32_inv in He'. destruct He' as (z' & -> & Hz' & Hb).
    f_equal. eapply (le_bytes_inj 4); [exact Hz|exact Hz'|exact Hb].
  - apply enc_u64_inv in He. destruct He as (z & -> & Hz & ->). apply enc_u64_inv in He'. destruct He' as (z' & -> & Hz' & Hb).
    f_equal. eapply (le_bytes_inj 8); [exact Hz|exact Hz'|exact Hb].
  - apply enc_array_inv in He. destruct He as (vs & bss & -> & -> & HF & ->).
    apply enc_array_inv in He'. destruct He' as (vs' & bss' & Hl & -> & HF' & Hc). f_equal. eapply forall2_det; eassumption.
  - apply enc_struct_inv in He. destruct He as (ms & -> & He). apply enc_struct_inv in He'. destruct He' as (ms' & -> & He').
    f_equal. eapply fields_det; eassumption.
  - apply enc_union_inv in He. destruct He as (ms & -> & _ & He). apply enc_union_inv in He'. destruct He' as (ms' & -> & _ & He').
    f_equal. eapply overlay_det; eassumption.
Qed.

(** ** Structs with trailing data *)
Fixpoint flat (t : ty) : list (str * ty) :=
  match t with
  | TStruct _ _ fs | TUnion _ fs => flat_map (fun f => match fst f with Some n => [(n, snd f)] | None => flat (snd f) end) fs
  | _ => []
  end.
Definition shown (f : field) : list (str * ty) := match fst f with Some n => [(n, snd f)] | None => flat (snd f) end.
Definition small (t : option ty) : bool := match t with Some (TU8 | TU16 | TU32) => true | _ => false end.
Fixpoint wf_items (tys : list (str * ty)) (fs : list field) : bool :=
  match fs with
  | [] => true
  | f :: fs' =>
    match snd f with
    | TTrailStr n => match fst f with Some _ => small (assoc n tys) && wf_items (tys ++ shown f) fs' | None => false end
    | TTrailTypes t n =>
      match fst f with
      | Some _ => small (assoc n tys) && fixed_layout t && ((csize t <=? 1024) && (1 <=? csize t)) && wf_items (tys ++ shown f) fs'
      | None => false
      end
    | TDyn _ => false
    | _ => field_ok f && (csize (snd f) <=? 1024) && wf_items (tys ++ shown f) fs'
    end
  end.

Definition fits (m : str * value) (d : str * ty) : Prop :=
  fst m = fst d /\ (small (Some (snd d)) = true -> exists z, snd m = VInt z /\ (0 <= z < 2 ^ 32)%Z).
Lemma encodes_fits n t v bs : encodes t v bs -> fits (n, v) (n, t).
Proof.
  intros H. split; [reflexivity|]. cbn. intros Hs. destruct t; try discriminate Hs.
  - apply enc_u8_inv in H. destruct H as (z & -> & Hz & _). exists z. split; [reflexivity|]. change (2^8)%Z with 256%Z in Hz. change (2^32)%Z with 4294967296%Z. lia.
  - apply enc_u16_inv in H. destruct H as (z & -> & Hz & _). exists z. split; [reflexivity|]. change (2^16)%Z with 65536%Z in Hz. change (2^32)%Z with 4294967296%Z. lia.
  - apply enc_u32_inv in H. destruct H as (z & -> & Hz & _). exists z. auto.
Qed.
Lemma flat_fits t : forall nm ms bs, encodes t (VStruct nm None ms) bs -> Forall2 fits ms (flat t).
Proof.
  induction t using ty_ind'; intros nm0 ms bs He; try (inversion He; fail).
  - apply enc_struct_inv in He. destruct He as (ms' & E & He). inversion E; subst. cbn [flat].
    clear E. revert ms' bs He. induction H as [|f fs Hf HF IH]; intros ms bs He; inversion He; subst; cbn [flat_map fst snd]; [constructor| |].
    + cbn [app]. constructor; [eapply encodes_fits; eassumption|]. eapply IH; eassumption.
    + apply Forall2_app; [eapply Hf; cbn; eassumption|eapply IH; eassumption].
  - apply enc_union_inv in He. destruct He as (ms' & E & _ & He). inversion E; subst. cbn [flat].
    clear E. revert ms' He. induction H as [|f fs Hf HF IH]; intros ms He; inversion He; subst; cbn [flat_map fst snd]; [constructor| |].
    + cbn [app]. constructor; [eapply encodes_fits; eassumption|]. eapply IH; eassumption.
    + apply Forall2_app; [eapply Hf; cbn; eassumption|eapply IH; eassumption].
Qed.
Lemma fits_assoc acc tys n : Forall2 fits acc tys -> small (assoc n tys) = true ->
  exists z, assoc n acc = Some (VInt z) /\ (0 <= z < 2 ^ 32)%Z.
Proof.
  induction 1 as [|[m v] [m' t] acc tys [H1 H2] HF IH]; cbn [assoc]; intros Hs; [discriminate|]. cbn in H1. subst m'.
  destruct (str_eqb m n); [|apply IH; exact Hs]. destruct (H2 Hs) as (z & Hz & Hr). cbn in Hz. subst v. eauto.
Qed.

Section Dec2.
Variable oc : bool.
Variable dyn : str -> (Z -> Z -> Z -> bool) -> (str -> res (list field)) -> str -> res (list (str * value) * Z).
Notation tv := (to_value oc dyn).

Lemma tv_complete t v b rest : fixed_layout t = true -> encodes t v b -> bytes_ok (b ++ rest) -> tv t (b ++ rest) = Ok v.
Proof.
  intros Hs He Hb. destruct (encodes_len _ _ _ He) as [Hl _].
  destruct (static_good oc dyn t Hs (b ++ rest) Hb) as (v' & Hv & He' & _); [rewrite app_length; lia|].
  rewrite firstn_app_exact in He' by lia. rewrite Hv. f_equal. eapply encodes_det; eassumption.
Qed.

Lemma trail_good t bytes : fixed_layout t = true -> bytes_ok bytes -> forall count offset, offset + count * csize t <= length bytes ->
  exists vs bss, trail_loop oc (tv t) (ty_size t) count bytes (Z.of_nat offset) = Ok (vs, Z.of_nat (offset + count * csize t)) /\
    length vs = count /\ Forall2 (encodes t) vs bss /\ concat bss = firstn (count * csize t) (skipn offset bytes).
Proof.
  intros Hs Hb. induction count as [|n IH]; intros o Ho.
  - exists [], []. cbn. rewrite Nat.add_0_r. repeat split; constructor.
  - cbn [trail_loop]. cbn [Nat.mul] in *. destruct Hb as [Hb1 Hb2]. pose proof Hb2 as Hb2'. unfold zlen in Hb2'. change (2 ^ 63)%Z with 9223372036854775808%Z in Hb2'.
    rewrite ty_size_csize, usize_add_ok by (change (2 ^ 64)%Z with 18446744073709551616%Z; lia). cbn [bind].
    rewrite slice_ok by lia. cbn [bind].
    destruct (static_good oc dyn t Hs (firstn (csize t) (skipn o bytes))) as (v & Hv & He & _);
      [apply bytes_ok_firstn, bytes_ok_skipn; split; assumption|rewrite firstn_length, skipn_length; lia|].
    rewrite Hv. cbn [bind]. rewrite <- Nat2Z.inj_add. destruct (IH (o + csize t)) as (vs & bss & H1 & H2 & H3 & H4); [lia|].
    rewrite <- ty_size_csize, H1. cbn [bind fst snd]. exists (v :: vs), (firstn (csize t) (skipn o bytes) :: bss).
    split; [f_equal; f_equal; lia|]. split; [cbn; congruence|]. split.
    + constructor; [|exact H3]. rewrite firstn_firstn, Nat.min_id in He. exact He.
    + cbn [concat]. rewrite H4, firstn_plus, skipn_skipn, (Nat.add_comm (csize t)). reflexivity.
Qed.

Lemma as_usize_small z : (0 <= z < 2 ^ 64)%Z -> as_usize z = z.
Proof. intros. unfold as_usize. apply Z.mod_small. assumption. Qed.

Definition p63 : (2 ^ 63 = 9223372036854775808)%Z := eq_refl.
Definition p64 : (2 ^ 64 = 18446744073709551616)%Z := eq_refl.
Definition p32 : (2 ^ 32 = 4294967296)%Z := eq_refl.

Lemma fits_members f v b : encodes (snd f) v b -> (fst f = None -> exists nm ms, v = VStruct nm None ms) ->
  Forall2 fits (members f v) (shown f).
Proof.
  intros He Ha. unfold members, shown. destruct f as [[n|] t]; cbn [fst snd] in *.
  - constructor; [eapply encodes_fits; exact He|constructor].
  - destruct (Ha eq_refl) as (nm & ms & ->). eapply flat_fits. exact He.
Qed.

Definition item_result (acc : list (str * value)) (fs : list field) (bytes : str) (r : res (list (str * value))) : Prop :=
  match r with
  | Ok l => exists ms bs rest, l = acc ++ ms /\ bytes = bs ++ rest /\ enc_item acc fs ms bs
  | Err _ => True
  | _ => False
  end.

Lemma wf_static tys f fs : is_static_sized (snd f) = true -> wf_items tys (f :: fs) = field_ok f && (csize (snd f) <=? 1024) && wf_items (tys ++ shown f) fs.
Proof. destruct f as [n t]. destruct t; cbn; try reflexivity; discriminate. Qed.

Lemma item_loop name km bytes : bytes_ok bytes -> forall fs tys offset acc,
  wf_items tys fs = true -> Forall2 fits acc tys -> offset <= length bytes ->
  item_result acc fs (skipn offset bytes) (struct_loop oc dyn tv name km fs bytes (Z.of_nat offset) acc).
Proof.
  intros Hb. pose proof Hb as [_ Hz]. unfold zlen in Hz. rewrite p63 in Hz.
  induction fs as [|f fs IH]; intros tys offset acc Hwf HF Ho.
  - cbn. exists [], [], (skipn offset bytes). rewrite app_nil_r. repeat split. constructor.
  - destruct (is_static_sized (snd f)) eqn:Hst.
    + rewrite wf_static in Hwf by exact Hst. rewrite !andb_true_iff in Hwf. destruct Hwf as [[Hf Hsz] Hwf]. apply Nat.leb_le in Hsz.
      unfold field_ok in Hf. apply andb_true_iff in Hf. destruct Hf as [Hs Hn].
      rewrite struct_loop_static by exact Hst. rewrite slice_from_ok by exact Ho. cbn [bind].
      destruct (Nat.le_gt_cases (csize (snd f)) (length (skipn offset bytes))) as [Hle|Hgt].
      * destruct (field_good oc dyn f (static_good oc dyn _ Hs) Hn (skipn offset bytes)) as (v & Hv & He & Ha); [apply bytes_ok_skipn; auto|exact Hle|].
        rewrite Hv. cbn [bind]. rewrite skipn_length in Hle. rewrite ty_size_csize, usize_add_ok by (rewrite p64; lia). cbn [bind].
        rewrite <- Nat2Z.inj_add. pose proof (IH (tys ++ shown f) (offset + csize (snd f)) (acc ++ members f v) Hwf) as H.
        specialize (H (Forall2_app HF (fits_members f v _ He Ha)) ltac:(lia)).
        destruct (struct_loop oc dyn tv name km fs bytes (Z.of_nat (offset + csize (snd f))) (acc ++ members f v)) as [l| | |]; cbn in *; auto.
        destruct H as (ms & bs & rest & -> & Hsk & Hen). exists (members f v ++ ms), (firstn (csize (snd f)) (skipn offset bytes) ++ bs), rest.
        rewrite app_assoc. split; [reflexivity|]. split.
        { rewrite <- app_assoc, <- Hsk, (Nat.add_comm offset), <- skipn_skipn, firstn_skipn. reflexivity. }
        unfold members in *. destruct f as [[n|] t]; cbn [fst snd] in *.
        -- constructor; assumption.
        -- destruct (Ha eq_refl) as (nm & inner & ->). econstructor; eassumption.
      * unfold field_from_bytes. rewrite ty_size_csize. unfold ensure, zlen. rewrite (proj2 (Z.leb_gt _ _)) by lia. exact I.
    + destruct f as [nmo t]. destruct t; try discriminate Hst; cbn [snd wf_items fst] in Hwf; try discriminate Hwf;
        try (exfalso; cbn [snd] in Hst; unfold field_ok in Hwf; cbn [snd] in Hwf; rewrite !andb_true_iff in Hwf;
             destruct Hwf as [[[Hwf _] _] _]; apply static_ok_static in Hwf; congruence).
      * (* trailing string *)
        destruct nmo as [nn|]; [|discriminate Hwf]. apply andb_true_iff in Hwf. destruct Hwf as [Hsm Hwf].
        destruct (fits_assoc acc tys len_field HF Hsm) as (z & Hz1 & Hz2). cbn [struct_loop snd fst]. unfold get_field_value. rewrite Hz1. cbn [as_integer bind].
        rewrite p32 in Hz2. rewrite as_usize_small by (rewrite p64; lia). rewrite usize_add_ok by (rewrite p64; lia). cbn [bind].
        destruct (Z.leb_spec (z + Z.of_nat offset) (zlen bytes)) as [Hle|Hgt]; cbn [ensure bind ok_or]; [|exact I].
        unfold zlen in Hle. assert (Hzn : exists k, z = Z.of_nat k) by (exists (Z.to_nat z); lia). destruct Hzn as [k ->].
        rewrite (Z.add_comm (Z.of_nat k)), slice_ok by lia. cbn [bind]. rewrite usize_add_ok by (rewrite p64; lia). cbn [bind].
        rewrite <- Nat2Z.inj_add.
        set (s := firstn k (skipn offset bytes)). assert (Hs : length s = k) by (unfold s; rewrite firstn_length, skipn_length; lia).
        pose proof (IH (tys ++ shown (Some nn, TTrailStr len_field)) (offset + k) (acc ++ [(nn, VStr s)]) Hwf) as H.
        assert (HF' : Forall2 fits [(nn, VStr s)] (shown (Some nn, TTrailStr len_field))) by (constructor; [split; [reflexivity|discriminate]|constructor]).
        specialize (H (Forall2_app HF HF') ltac:(lia)).
        destruct (struct_loop oc dyn tv name km fs bytes (Z.of_nat (offset + k)) (acc ++ [(nn, VStr s)])) as [l| | |]; cbn in *; auto.
        destruct H as (ms & bs & rest & -> & Hsk & Hen). exists ((nn, VStr s) :: ms), (s ++ bs), rest.
        rewrite <- app_assoc. split; [reflexivity|]. split.
        { rewrite <- app_assoc, <- Hsk, (Nat.add_comm offset), <- skipn_skipn. unfold s. rewrite firstn_skipn. reflexivity. }
        apply item_str; [|exact Hen]. rewrite Hz1. unfold zlen. f_equal. f_equal. f_equal. symmetry. exact Hs.
      * (* trailing array *)
        destruct nmo as [nn|]; [|discriminate Hwf]. rewrite !andb_true_iff in Hwf. destruct Hwf as [[[Hsm Hs] [Hsz Hsz1]] Hwf]. apply Nat.leb_le in Hsz, Hsz1.
        destruct (fits_assoc acc tys count_field HF Hsm) as (z & Hz1 & Hz2). cbn [struct_loop snd fst]. unfold get_field_value. rewrite Hz1. cbn [as_integer bind].
        rewrite p32 in Hz2. rewrite as_usize_small by (rewrite p64; lia).
        assert (Hzn : exists k, z = Z.of_nat k) by (exists (Z.to_nat z); lia). destruct Hzn as [k ->].
        rewrite ty_size_csize, usize_mul_ok by (rewrite p64; nia). cbn [bind]. rewrite usize_add_ok by (rewrite p64; nia). cbn [bind].
        destruct (Z.leb_spec (Z.of_nat (csize t) * Z.of_nat k + Z.of_nat offset) (zlen bytes)) as [Hle|Hgt]; cbn [ensure bind]; [|exact I].
        unfold zlen in Hle. rewrite Nat2Z.id, <- ty_size_csize.
        destruct (trail_good t bytes Hs Hb k offset) as (vs & bss & H1 & H2 & H3 & H4); [nia|]. rewrite H1. cbn [bind fst snd ok_or].
        pose proof (IH (tys ++ shown (Some nn, TTrailTypes t count_field)) (offset + k * csize t) (acc ++ [(nn, VArr vs false)]) Hwf) as H.
        assert (HF' : Forall2 fits [(nn, VArr vs false)] (shown (Some nn, TTrailTypes t count_field))) by (constructor; [split; [reflexivity|discriminate]|constructor]).
        specialize (H (Forall2_app HF HF') ltac:(nia)).
        destruct (struct_loop oc dyn tv name km fs bytes (Z.of_nat (offset + k * csize t)) (acc ++ [(nn, VArr vs false)])) as [l| | |]; cbn in *; auto.
        destruct H as (ms & bs & rest & -> & Hsk & Hen). exists ((nn, VArr vs false) :: ms), (concat bss ++ bs), rest.
        rewrite <- app_assoc. split; [reflexivity|]. split.
        { rewrite <- app_assoc, <- Hsk, (Nat.add_comm offset), <- skipn_skipn, H4, firstn_skipn. reflexivity. }
        eapply item_types; [|exact H3|exact Hen]. unfold zlen. rewrite H2. exact Hz1.
Qed.
End Dec2.

Lemma wf_encodes tys n t fs v b : wf_items tys ((n, t) :: fs) = true -> encodes t v b ->
  is_static_sized t = true /\ fixed_layout t = true /\ nameable (n, t) = true /\ wf_items (tys ++ shown (n, t)) fs = true.
Proof.
  intros Hwf He.
  assert (Hx : field_ok (n, t) && (csize t <=? 1024) && wf_items (tys ++ shown (n, t)) fs = true).
  { destruct t; try exact Hwf; inversion He. }
  rewrite !andb_true_iff in Hx. destruct Hx as [[Hf _] Hx]. unfold field_ok in Hf. apply andb_true_iff in Hf. cbn [snd] in Hf. destruct Hf as [Hf1 Hf2].
  split; [apply static_ok_static; exact Hf1|auto].
Qed.

Lemma enc_item_len acc fs ms bs : enc_item acc fs ms bs -> fsize fs <= length bs.
Proof.
  induction 1; rewrite ?fsize_cons, ?app_length; cbn [snd csize] in *; try lia.
  - cbn. lia.
  - rewrite (proj1 (encodes_len _ _ _ H)). lia.
  - rewrite (proj1 (encodes_len _ _ _ H)). lia.
Qed.

Section Dec3.
Variable oc : bool.
Variable dyn : str -> (Z -> Z -> Z -> bool) -> (str -> res (list field)) -> str -> res (list (str * value) * Z).
Notation tv := (to_value oc dyn).

Lemma item_complete name km bytes : bytes_ok bytes -> forall fs acc ms bs, enc_item acc fs ms bs ->
  forall tys offset rest, wf_items tys fs = true -> skipn offset bytes = bs ++ rest -> offset <= length bytes ->
  struct_loop oc dyn tv name km fs bytes (Z.of_nat offset) acc = Ok (acc ++ ms).
Proof.
  intros Hb. pose proof Hb as [_ Hz]. unfold zlen in Hz. rewrite p63 in Hz.
  assert (Hfield : forall n t v b rest fs tys offset acc ms,
    wf_items tys ((n, t) :: fs) = true -> encodes t v b -> (n = None -> exists nm inner, v = VStruct nm None inner) -> skipn offset bytes = b ++ rest -> offset <= length bytes ->
    (forall offset', skipn offset' bytes = rest -> offset' <= length bytes ->
       struct_loop oc dyn tv name km fs bytes (Z.of_nat offset') (acc ++ members (n, t) v) = Ok ((acc ++ members (n, t) v) ++ ms)) ->
    struct_loop oc dyn tv name km ((n, t) :: fs) bytes (Z.of_nat offset) acc = Ok (acc ++ members (n, t) v ++ ms)).
  { intros n t v b rest fs tys offset acc ms Hwf He Ha Hsk Ho Hk. destruct (wf_encodes _ _ _ _ _ _ Hwf He) as (Hst & Hs & Hn & _).
    rewrite struct_loop_static by exact Hst. rewrite slice_from_ok by exact Ho. cbn [bind]. rewrite Hsk.
    destruct (encodes_len _ _ _ He) as [Hl _]. assert (Hlen : length (b ++ rest) = length bytes - offset) by (rewrite <- Hsk, skipn_length; reflexivity).
    rewrite app_length in Hlen. unfold field_from_bytes. cbn [fst snd]. rewrite ensure_size by (rewrite app_length; lia). cbn [bind].
    rewrite (tv_complete oc dyn t v b rest Hs He) by (rewrite <- Hsk; apply bytes_ok_skipn; exact Hb). cbn [bind].
    assert (Hm : match n with Some n0 => Ok [(n0, v)] | None => match v with VStruct _ _ fs0 => Ok fs0 | _ => Err (EAnonymous (s_ "Only structs can be used as anonymous fields")) end end = Ok (members (n, t) v)).
    { unfold members. cbn [fst]. destruct n; [reflexivity|]. destruct (Ha eq_refl) as (nm & inner & ->). reflexivity. }
    rewrite Hm. cbn [bind]. rewrite ty_size_csize, usize_add_ok by (rewrite p64; lia). cbn [bind].
    rewrite <- Nat2Z.inj_add, Hk; [rewrite <- app_assoc; reflexivity| |lia].
    rewrite Nat.add_comm, <- skipn_skipn, Hsk. apply skipn_app_exact. lia. }
  induction 1 as [acc|acc n t fs v ms b bs He Hi IH|acc t fs nm inner ms b bs He Hi IH|acc n len fs ms s bs Ha Hi IH|acc n t cnt fs ms vs bss bs Ha HF Hi IH];
    intros tys offset rest Hwf Hsk Ho.
  - cbn. rewrite app_nil_r. reflexivity.
  - rewrite <- app_assoc in Hsk. apply (Hfield (Some n) t v b (bs ++ rest) fs tys offset acc ms Hwf He); [discriminate|exact Hsk|exact Ho|].
    intros o' H1 H2. eapply IH; [|exact H1|exact H2]. apply (wf_encodes _ _ _ _ _ _ Hwf He).
  - rewrite <- app_assoc in Hsk. apply (Hfield None t (VStruct nm None inner) b (bs ++ rest) fs tys offset acc ms Hwf He); [eauto|exact Hsk|exact Ho|].
    intros o' H1 H2. eapply IH; [|exact H1|exact H2]. apply (wf_encodes _ _ _ _ _ _ Hwf He).
  - cbn [wf_items snd fst] in Hwf. apply andb_true_iff in Hwf. destruct Hwf as [_ Hwf].
    assert (Hlen : length (s ++ bs ++ rest) = length bytes - offset) by (rewrite app_assoc, <- Hsk, skipn_length; reflexivity).
    rewrite !app_length in Hlen. cbn [struct_loop snd fst]. unfold get_field_value. rewrite Ha. cbn [as_integer bind]. unfold zlen.
    rewrite as_usize_small by (rewrite p64; lia). rewrite usize_add_ok by (rewrite p64; lia). cbn [bind].
    rewrite (proj2 (Z.leb_le _ _)) by lia. cbn [ensure bind ok_or]. rewrite (Z.add_comm (Z.of_nat (length s))), slice_ok by lia. cbn [bind].
    rewrite usize_add_ok by (rewrite p64; lia). cbn [bind]. rewrite <- Nat2Z.inj_add.
    rewrite Hsk, <- app_assoc, firstn_app_exact by reflexivity. erewrite IH; [rewrite <- app_assoc; reflexivity|exact Hwf| |lia].
    rewrite Nat.add_comm, <- skipn_skipn, Hsk, <- app_assoc. apply skipn_app_exact. reflexivity.
  - cbn [wf_items snd fst] in Hwf. rewrite !andb_true_iff in Hwf. destruct Hwf as [[[_ Hs] [Hsz Hsz1]] Hwf]. apply Nat.leb_le in Hsz, Hsz1.
    assert (Hlen : length (concat bss ++ bs ++ rest) = length bytes - offset) by (rewrite app_assoc, <- Hsk, skipn_length; reflexivity).
    destruct (forall2_len t vs bss (encodes_len t) HF) as [HL _].
    rewrite !app_length, HL in Hlen. cbn [struct_loop snd fst]. unfold get_field_value. rewrite Ha. cbn [as_integer bind]. unfold zlen.
    destruct (trail_good oc dyn t bytes Hs Hb (length vs) offset) as (vs' & bss' & H1 & H2 & H3 & H4); [nia|].
    rewrite Hsk, <- app_assoc, firstn_app_exact in H4 by lia. assert (vs' = vs).
    { eapply forall2_det; [apply encodes_det|exact H3|exact HF|exact H2|exact H4]. }
    subst vs'. rewrite as_usize_small by (rewrite p64; nia).
    rewrite ty_size_csize, usize_mul_ok by (rewrite p64; nia). cbn [bind]. rewrite usize_add_ok by (rewrite p64; nia). cbn [bind].
    rewrite (proj2 (Z.leb_le _ _)) by (unfold zlen; nia). cbn [ensure bind].
    rewrite Nat2Z.id, <- ty_size_csize, H1. cbn [bind fst snd ok_or].
    erewrite IH; [rewrite <- app_assoc; reflexivity|exact Hwf| |nia].
    rewrite Nat.add_comm, <- skipn_skipn, Hsk, <- app_assoc. apply skipn_app_exact. lia.
Qed.
End Dec3.
