(** C63: the shipped definitions against the kernel's member offsets. *)
From Verif Require Import Base Structs Definitions Value Lib Spec_Decode Proof_Decode Proof_Decode2 Spec_Layout.
Require Import Lia ZArith.
Arguments s_ s%string_scope.

(** b is what whole has from off on *)
Definition sits (off : nat) (b whole : str) : Prop := exists pre post, whole = pre ++ b ++ post /\ length pre = off.
Lemma sits_left off a b whole : sits off (a ++ b) whole -> sits off a whole.
Proof. intros (pre & post & -> & H). exists pre, (b ++ post). rewrite <- app_assoc. auto. Qed.
Lemma sits_right off a b whole : sits off (a ++ b) whole -> sits (off + length a) b whole.
Proof. intros (pre & post & -> & H). exists (pre ++ a), post. rewrite <- !app_assoc. split; [reflexivity|]. rewrite app_length. lia. Qed.
Lemma sits_read off b whole : sits off b whole -> off + length b <= length whole /\ firstn (length b) (skipn off whole) = b.
Proof.
  intros (pre & post & -> & H). rewrite !app_length. split; [lia|]. rewrite (skipn_app_exact pre) by (symmetry; exact H).
  apply firstn_app_exact. reflexivity.
Qed.

(** members of a fixed type with their types and offsets, those of anonymous members in place *)
Definition spot : Type := (str * ty * nat).
Fixpoint flat (t : ty) (off : nat) : list spot :=
  match t with
  | TStruct _ _ fs =>
    (fix go (fs : list field) (off : nat) : list spot :=
       match fs with
       | [] => []
       | (o, t') :: fs' => (match o with Some n => [(n, t', off)] | None => flat t' off end) ++ go fs' (off + csize t')
       end) fs off
  | TUnion _ fs =>
    (fix go (fs : list field) : list spot :=
       match fs with
       | [] => []
       | (o, t') :: fs' => (match o with Some n => [(n, t', off)] | None => flat t' off end) ++ go fs'
       end) fs
  | _ => []
  end.
Definition one (o : option str) (t : ty) (off : nat) : list spot := match o with Some n => [(n, t, off)] | None => flat t off end.
Fixpoint seq_flat (fs : list field) (off : nat) : list spot :=
  match fs with [] => [] | (o, t) :: fs' => one o t off ++ seq_flat fs' (off + csize t) end.
Fixpoint over_flat (fs : list field) (off : nat) : list spot :=
  match fs with [] => [] | (o, t) :: fs' => one o t off ++ over_flat fs' off end.
Lemma flat_struct nm km fs off : flat (TStruct nm km fs) off = seq_flat fs off.
Proof. cbn [flat]. revert off. induction fs as [|[o t] fs IH]; intros off; [reflexivity|]. exact (f_equal (fun l => one o t off ++ l) (IH (off + csize t))). Qed.
Lemma flat_union nm fs off : flat (TUnion nm fs) off = over_flat fs off.
Proof. cbn [flat]. induction fs as [|[o t] fs IH]; [reflexivity|]. exact (f_equal (fun l => one o t off ++ l) IH). Qed.

Definition placed (whole : str) (m : str * value) (p : spot) : Prop :=
  fst m = fst (fst p) /\ exists b, encodes (snd (fst p)) (snd m) b /\ sits (snd p) b whole.

Definition flat_ok (t : ty) : Prop := forall nm ms bs off whole, encodes t (VStruct nm None ms) bs -> sits off bs whole ->
  Forall2 (placed whole) ms (flat t off).
Lemma seq_flat_ok fs : Forall (fun f => flat_ok (snd f)) fs -> forall ms bs off whole, enc_fields fs ms bs -> sits off bs whole ->
  Forall2 (placed whole) ms (seq_flat fs off).
Proof.
  induction 1 as [|[o t] fs Hf HF IH]; intros ms bs off whole He Hs; inversion He; subst; cbn [seq_flat one]; [constructor|..].
  - constructor; [split; [reflexivity|]; exists b; split; [assumption|eapply sits_left; eassumption]|].
    match goal with HH : encodes _ _ b |- _ => cbn [snd] in *; rewrite <- (proj1 (encodes_len _ _ _ HH)) end. eapply IH; [eassumption|eapply sits_right; eassumption].
  - apply Forall2_app; [eapply Hf; [eassumption|eapply sits_left; eassumption]|].
    match goal with HH : encodes _ _ b |- _ => cbn [snd] in *; rewrite <- (proj1 (encodes_len _ _ _ HH)) end. eapply IH; [eassumption|eapply sits_right; eassumption].
Qed.
Lemma over_flat_ok fs : Forall (fun f => flat_ok (snd f)) fs -> forall ms bs off whole, enc_overlay fs ms bs -> sits off bs whole ->
  Forall2 (placed whole) ms (over_flat fs off).
Proof.
  induction 1 as [|[o t] fs Hf HF IH]; intros ms bs off whole He Hs; inversion He; subst; cbn [over_flat one]; [constructor|..].
  - constructor; [split; [reflexivity|]; exists b; split; [assumption|eapply sits_left; eassumption]|]. eapply IH; eassumption.
  - apply Forall2_app; [eapply Hf; [eassumption|eapply sits_left; eassumption]|]. eapply IH; eassumption.
Qed.
Lemma flat_all t : flat_ok t.
Proof.
  induction t using ty_ind'; intros nm' ms bs off whole He Hs; try (inversion He; fail).
  - apply enc_struct_inv in He. destruct He as (ms' & E & He). injection E as _ <-. rewrite flat_struct. eapply seq_flat_ok; eassumption.
  - apply enc_union_inv in He. destruct He as (ms' & E & _ & He). injection E as _ <-. rewrite flat_union. eapply over_flat_ok; eassumption.
Qed.
Lemma flat_fields fs ms bs off whole : enc_fields fs ms bs -> sits off bs whole -> Forall2 (placed whole) ms (seq_flat fs off).
Proof. apply seq_flat_ok. apply Forall_forall. intros f _. apply flat_all. Qed.

(** the members before the first trailing one *)
Definition trails (t : ty) : bool := match t with TTrailStr _ | TTrailTypes _ _ | TDyn _ => true | _ => false end.
Fixpoint head_flat (fs : list field) (off : nat) : list spot :=
  match fs with [] => [] | (o, t) :: fs' => if trails t then [] else one o t off ++ head_flat fs' (off + csize t) end.
Lemma encodes_solid t v b : encodes t v b -> trails t = false.
Proof. intros H. inversion H; reflexivity. Qed.
Lemma flat_item acc fs ms bs : enc_item acc fs ms bs -> forall off whole, sits off bs whole ->
  exists ms1 ms2, ms = ms1 ++ ms2 /\ Forall2 (placed whole) ms1 (head_flat fs off).
Proof.
  induction 1 as [acc|acc n t fs v ms b bs Hv He IH|acc t fs nm inner ms b bs Hv He IH|acc n len fs ms s bs Ha He IH|acc n t cnt fs ms vs bss bs Ha Hvs He IH]; intros off whole Hs; cbn [head_flat trails].
  - exists [], []. split; [reflexivity|constructor].
  - rewrite (encodes_solid _ _ _ Hv). destruct (IH (off + csize t) whole) as (ms1 & ms2 & -> & HF).
    { rewrite <- (proj1 (encodes_len t _ _ Hv)). eapply sits_right. exact Hs. }
    exists ((n, v) :: ms1), ms2. split; [reflexivity|]. cbn [one app]. constructor; [|exact HF]. split; [reflexivity|]. exists b. split; [exact Hv|eapply sits_left; exact Hs].
  - rewrite (encodes_solid _ _ _ Hv). destruct (IH (off + csize t) whole) as (ms1 & ms2 & -> & HF).
    { rewrite <- (proj1 (encodes_len t _ _ Hv)). eapply sits_right. exact Hs. }
    exists (inner ++ ms1), ms2. split; [apply app_assoc|]. cbn [one]. apply Forall2_app; [|exact HF]. eapply flat_all; [exact Hv|eapply sits_left; exact Hs].
  - exists [], ((n, VStr s) :: ms). split; [reflexivity|constructor].
  - exists [], ((n, VArr vs false) :: ms). split; [reflexivity|constructor].
Qed.

(** ** Following a path *)
Fixpoint find_spot (n : str) (l : list spot) : option (ty * nat) :=
  match l with [] => None | (m, t, o) :: l' => if str_eqb m n then Some (t, o) else find_spot n l' end.
Fixpoint locate (l : list spot) (path : list str) : option (ty * nat) :=
  match path with
  | [] => None
  | n :: p => match find_spot n l with
              | None => None
              | Some (t, o) => match p with [] => Some (t, o) | _ => locate (flat t o) p end
              end
  end.
Lemma find_spot_ok whole ms l ms2 n t o : Forall2 (placed whole) ms l -> find_spot n l = Some (t, o) ->
  exists v b, assoc n (ms ++ ms2) = Some v /\ encodes t v b /\ sits o b whole.
Proof.
  induction 1 as [|[m v] [[m' t'] o'] ms l [H1 (b & H2 & H3)] HF IH]; cbn [find_spot]; [discriminate|]. cbn [fst snd] in *. subst m'.
  cbn [app assoc]. destruct (str_eqb m n); [|exact IH]. intros [= -> ->]. exists v, b. auto.
Qed.
Lemma locate_ok whole path : forall nm key ms l ms2 t o, Forall2 (placed whole) ms l -> locate l path = Some (t, o) ->
  exists v b, member (VStruct nm key (ms ++ ms2)) path = Some v /\ encodes t v b /\ sits o b whole.
Proof.
  induction path as [|n p IH]; intros nm key ms l ms2 t o HF Hl; cbn [locate] in Hl; [discriminate|].
  destruct (find_spot n l) as [[t' o']|] eqn:Ef; [|discriminate].
  destruct (find_spot_ok _ _ _ ms2 _ _ _ HF Ef) as (v & b & Ha & Hv & Hs). cbn [member]. rewrite Ha.
  destruct p as [|n' p]; [injection Hl as -> ->; exists v, b; auto|].
  assert (Hst : exists nm', exists ms', v = VStruct nm' None ms').
  { destruct t'; try (cbn in Hl; discriminate); [apply enc_struct_inv in Hv|apply enc_union_inv in Hv]; destruct Hv as (ms' & -> & _); eauto. }
  destruct Hst as (nm' & ms' & ->). destruct (IH nm' None ms' (flat t' o') [] t o) as (x & b' & Hx & H).
  - eapply flat_all; eassumption.
  - exact Hl.
  - rewrite app_nil_r in Hx. exists x, b'. auto.
Qed.

Definition width (t : ty) : option nat := match t with TU8 => Some 1 | TU16 => Some 2 | TU32 => Some 4 | TU64 => Some 8 | _ => None end.
Lemma width_ok t v b w off whole : encodes t v b -> width t = Some w -> sits off b whole -> unsigned_at w off whole v.
Proof.
  intros He Hw Hs. apply sits_read in Hs. destruct t; try discriminate Hw; injection Hw as <-;
  [apply enc_u8_inv in He|apply enc_u16_inv in He|apply enc_u32_inv in He|apply enc_u64_inv in He];
  destruct He as (z & -> & Hz & ->); rewrite le_bytes_len in Hs; destruct Hs as [H1 H2];
  (exists z; split; [reflexivity|]; split; [exact Hz|]; split; [exact H1|symmetry; exact H2]).
Qed.
Lemma width_size t w : width t = Some w -> csize t = w.
Proof. destruct t; cbn; congruence. Qed.
Lemma elements_ok t w whole vs bss : width t = Some w -> Forall2 (encodes t) vs bss -> forall off, sits off (concat bss) whole ->
  forall i x, nth_error vs i = Some x -> unsigned_at w (off + i * w) whole x.
Proof.
  intros Hw. induction 1 as [|v b vs bss Hv HF IH]; intros off Hs i x Hi; [destruct i; discriminate|]. cbn [concat] in Hs.
  destruct i as [|i]; cbn in Hi.
  - injection Hi as ->. rewrite Nat.mul_0_l, Nat.add_0_r. eapply width_ok; [exact Hv|exact Hw|eapply sits_left; exact Hs].
  - replace (off + S i * w) with ((off + w) + i * w) by lia. apply IH; [|exact Hi].
    rewrite <- (width_size _ _ Hw), <- (proj1 (encodes_len t _ _ Hv)). eapply sits_right. exact Hs.
Qed.

(** ** The shipped structs *)
Definition top (s : strct) : list field :=
  if str_eqb (st_name s) (s_ "btrfs_extent_item") then extent_header
  else if str_eqb (st_name s) (s_ "btrfs_file_extent_item") then file_extent_header else st_fields s.
Lemma top_shipped s : In s STRUCTS -> (wf_items [] (st_fields s) = true /\ top s = st_fields s) \/ (s = btrfs_extent_item /\ top s = extent_header) \/
  (s = btrfs_file_extent_item /\ top s = file_extent_header).
Proof.
  intros H. unfold STRUCTS in H. cbn [In] in H.
  repeat (destruct H as [<-|H]; [first [left; split; reflexivity|right; left; split; reflexivity|right; right; split; reflexivity]|]). destruct H.
Qed.
Lemma sits_0 a b : sits 0 a (a ++ b).
Proof. exists [], b. auto. Qed.
Lemma head_extent : head_flat extent_header 0 = seq_flat extent_header 0. Proof. reflexivity. Qed.
Lemma head_file_extent : head_flat file_extent_header 0 = seq_flat file_extent_header 0. Proof. reflexivity. Qed.
Lemma top_ok oc s key bytes v : In s STRUCTS -> bytes_ok bytes -> from_bytes oc s key bytes = Ok v ->
  exists ms1 ms2, v = VStruct (st_name s) key (ms1 ++ ms2) /\ Forall2 (placed bytes) ms1 (head_flat (top s) 0).
Proof.
  intros Hs Hb H. destruct (top_shipped s Hs) as [[Hwf ->]|[[-> ->]|[-> ->]]].
  - pose proof (from_bytes_items oc s key bytes Hwf Hb) as HI. rewrite H in HI. destruct HI as (ms & bs & rest & -> & -> & He).
    destruct (flat_item _ _ _ _ He 0 (bs ++ rest) (sits_0 _ _)) as (ms1 & ms2 & -> & HF). eauto.
  - pose proof (extent_item_good oc key bytes Hb) as HI. rewrite H in HI. destruct HI as (ms & -> & He). inversion He; subst.
    exists hs, ms0. split; [reflexivity|]. rewrite head_extent. eapply flat_fields; [eassumption|apply sits_0].
  - pose proof (file_extent_good oc key bytes Hb) as HI. rewrite H in HI. destruct HI as (ms & -> & He). inversion He; subst.
    + exists hs, ls. split; [reflexivity|]. rewrite head_file_extent. eapply flat_fields; [eassumption|apply sits_0].
    + exists ms, []. split; [rewrite app_nil_r; reflexivity|]. rewrite head_file_extent. eapply flat_fields; [eassumption|apply sits_0].
Qed.

Definition eqw (a : option nat) (w : nat) : bool := match a with Some x => x =? w | None => false end.
Definition check (s : strct) (path : list str) (off w : nat) (count : option nat) : bool :=
  match locate (head_flat (top s) 0) path with
  | None => false
  | Some (t, o) => (o =? off) && match count, t with
                                 | None, t => eqw (width t) w
                                 | Some c, TArray t' n => (n =? c) && eqw (width t') w
                                 | _, _ => false
                                 end
  end.
Lemma eqw_ok a w : eqw a w = true -> a = Some w.
Proof. destruct a; cbn; [|discriminate]. intros H. apply Nat.eqb_eq in H. congruence. Qed.
Lemma check_ok oc s key bytes v path off w count : In s STRUCTS -> bytes_ok bytes -> from_bytes oc s key bytes = Ok v ->
  check s path off w count = true -> has_member v bytes path off w count.
Proof.
  intros Hs Hb H Hc. destruct (top_ok _ _ _ _ _ Hs Hb H) as (ms1 & ms2 & -> & HF). unfold check in Hc.
  destruct (locate _ path) as [[t o]|] eqn:El; [|discriminate].
  destruct (locate_ok _ _ (st_name s) key _ _ ms2 _ _ HF El) as (x & b & Hx & He & Hsit). apply andb_prop in Hc. destruct Hc as [Ho Hc].
  apply Nat.eqb_eq in Ho. subst o. unfold has_member. destruct count as [c|].
  - destruct t; try discriminate Hc. apply andb_prop in Hc. destruct Hc as [Hn Hw]. apply Nat.eqb_eq in Hn. apply eqw_ok in Hw. subst n.
    apply enc_array_inv in He. destruct He as (vs & bss & Hl & -> & HE & ->). exists vs. split; [exact Hx|]. split; [congruence|].
    eapply elements_ok; eassumption.
  - exists x. split; [exact Hx|]. eapply width_ok; [exact He| |exact Hsit]. apply eqw_ok. destruct t; exact Hc.
Qed.
Definition entry_ok (e : str * list str * nat * nat * option nat) : bool :=
  match e with (nm, path, off, w, count) =>
    existsb (fun s => str_eqb (st_name s) nm) STRUCTS &&
    forallb (fun s => negb (str_eqb (st_name s) nm) || check s path off w count) STRUCTS
  end.
Lemma table_ok : forallb entry_ok kernel_layout = true.
Proof. vm_compute. reflexivity. Qed.
Lemma layout_ok : forall nm path off w count, In (nm, path, off, w, count) kernel_layout ->
  (exists s, In s STRUCTS /\ st_name s = nm) /\
  forall oc s key bytes v, In s STRUCTS -> st_name s = nm -> bytes_ok bytes -> from_bytes oc s key bytes = Ok v ->
  has_member v bytes path off w count.
Proof.
  intros nm path off w count Hin. pose proof (proj1 (forallb_forall _ _) table_ok _ Hin) as Ht. unfold entry_ok in Ht.
  apply andb_prop in Ht. destruct Ht as [H1 H2]. split.
  - apply existsb_exists in H1. destruct H1 as (s & Hs & E). apply str_eqb_eq in E. eauto.
  - intros oc s key bytes v Hs Hnm Hb H. pose proof (proj1 (forallb_forall _ _) H2 s Hs) as Hc. cbn beta in Hc. rewrite Hnm, str_eqb_refl in Hc. cbn [negb orb] in Hc.
    eapply check_ok; eassumption.
Qed.
