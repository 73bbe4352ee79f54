(** C63: names, values and stripes. *)
From Verif Require Import Base Structs Definitions Value Lib Spec_Decode Proof_Decode Proof_Decode2 Spec_Layout Proof_Layout Proof_Fs.
Require Import Lia ZArith.
Arguments s_ s%string_scope.

Lemma item_named_inv acc n t fs ms bs : trails t = false -> enc_item acc ((Some n, t) :: fs) ms bs ->
  exists v b ms' bs', ms = (n, v) :: ms' /\ bs = b ++ bs' /\ encodes t v b /\ enc_item (acc ++ [(n, v)]) fs ms' bs'.
Proof. intros Ht H. inversion H; subst; try discriminate Ht. do 4 eexists. split; [reflexivity|]. split; [reflexivity|]. split; eassumption. Qed.
Lemma item_str_inv acc n len fs ms bs : enc_item acc ((Some n, TTrailStr len) :: fs) ms bs ->
  exists s ms' bs', ms = (n, VStr s) :: ms' /\ bs = s ++ bs' /\ assoc len acc = Some (VInt (zlen s)) /\ enc_item (acc ++ [(n, VStr s)]) fs ms' bs'.
Proof.
  intros H. inversion H; subst; [match goal with HH : encodes _ _ _ |- _ => apply encodes_solid in HH; discriminate HH end|].
  do 3 eexists. split; [reflexivity|]. split; [reflexivity|]. split; eassumption.
Qed.
Lemma item_types_inv acc n t cnt fs ms bs : enc_item acc ((Some n, TTrailTypes t cnt) :: fs) ms bs ->
  exists vs bss ms' bs', ms = (n, VArr vs false) :: ms' /\ bs = concat bss ++ bs' /\ assoc cnt acc = Some (VInt (zlen vs)) /\ Forall2 (encodes t) vs bss.
Proof.
  intros H. inversion H; subst; [match goal with HH : encodes _ _ _ |- _ => apply encodes_solid in HH; discriminate HH end|].
  do 4 eexists. split; [reflexivity|]. split; [reflexivity|]. split; eassumption.
Qed.
Lemma number_ok off whole z : sits off (le_bytes 2 z) whole -> (0 <= z < 2 ^ 16)%Z -> number_at off whole = Z.to_nat z.
Proof.
  intros Hs Hz. apply sits_read in Hs. rewrite le_bytes_len in Hs. destruct Hs as [_ Hs]. unfold number_at. cbn [le_bytes] in Hs.
  destruct (skipn off whole) as [|a [|b l]]; try discriminate. cbn [firstn] in Hs. injection Hs as -> ->. rewrite (Z.mod_small (z / 256)) by (change (2 ^ 16)%Z with 65536%Z in Hz; split; [apply Z.div_pos; lia|apply Z.div_lt_upper_bound; lia]).
  rewrite !Z_N_nat. pose proof (Z.mod_pos_bound z 256 ltac:(lia)). pose proof (Z.div_pos z 256 ltac:(lia) ltac:(lia)). pose proof (Z.div_mod z 256 ltac:(lia)). lia.
Qed.
(* the next member of a fixed type *)
Lemma next_named whole off acc n t fs ms bs : enc_item acc ((Some n, t) :: fs) ms bs -> trails t = false -> sits off bs whole ->
  exists v b ms' bs', ms = (n, v) :: ms' /\ encodes t v b /\ sits off b whole /\ enc_item (acc ++ [(n, v)]) fs ms' bs' /\ sits (off + csize t) bs' whole.
Proof.
  intros H Ht Hs. destruct (item_named_inv _ _ _ _ _ _ Ht H) as (v & b & ms' & bs' & -> & -> & He & Hi). exists v, b, ms', bs'.
  split; [reflexivity|]. split; [exact He|]. split; [eapply sits_left; exact Hs|]. split; [exact Hi|]. rewrite <- (proj1 (encodes_len t _ _ He)). eapply sits_right. exact Hs.
Qed.
Lemma next_str whole off acc n len fs ms bs : enc_item acc ((Some n, TTrailStr len) :: fs) ms bs -> sits off bs whole ->
  exists s ms' bs', ms = (n, VStr s) :: ms' /\ assoc len acc = Some (VInt (zlen s)) /\ (off + length s <= length whole /\ firstn (length s) (skipn off whole) = s) /\
    enc_item (acc ++ [(n, VStr s)]) fs ms' bs' /\ sits (off + length s) bs' whole.
Proof.
  intros H Hs. destruct (item_str_inv _ _ _ _ _ _ H) as (s & ms' & bs' & -> & -> & Ha & Hi). exists s, ms', bs'.
  split; [reflexivity|]. split; [exact Ha|]. split; [apply sits_read; eapply sits_left; exact Hs|]. split; [exact Hi|]. eapply sits_right. exact Hs.
Qed.
Lemma item_fields oc s key bytes v : wf_items [] (st_fields s) = true -> bytes_ok bytes -> from_bytes oc s key bytes = Ok v ->
  exists ms bs, v = VStruct (st_name s) key ms /\ enc_item [] (st_fields s) ms bs /\ sits 0 bs bytes.
Proof.
  intros Hwf Hb H. pose proof (from_bytes_items oc s key bytes Hwf Hb) as HI. rewrite H in HI. destruct HI as (ms & bs & rest & -> & -> & He).
  exists ms, bs. split; [reflexivity|]. split; [exact He|apply sits_0].
Qed.
Ltac named := match goal with Hi : enc_item _ ((Some _, _) :: _) _ ?bs0, Hs : sits _ ?bs0 _ |- _ =>
  apply (next_named _ _ _ _ _ _ _ _ Hi eq_refl) in Hs; clear Hi;
  let v := fresh "v" in let b := fresh "b" in let ms' := fresh "ms" in let bs := fresh "bs" in let He := fresh "He" in let Hp := fresh "Hp" in
  destruct Hs as (v & b & ms' & bs & -> & He & Hp & Hi & Hs) end.
Ltac trailing := match goal with Hi : enc_item _ ((Some _, TTrailStr _) :: _) _ ?bs0, Hs : sits _ ?bs0 _ |- _ =>
  apply (next_str _ _ _ _ _ _ _ _ Hi) in Hs; clear Hi;
  let v := fresh "str" in let ms' := fresh "ms" in let bs := fresh "bs" in let Ha := fresh "Ha" in let Hp := fresh "Hq" in
  destruct Hs as (v & ms' & bs & -> & Ha & Hp & Hi & Hs); cbn [app] in Ha end.
(* the length member of a string or array l *)
Ltac len_of Ha l :=
  match type of Ha with ?a = _ => let r := eval vm_compute in a in change a with r in Ha end;
  injection Ha as ->;
  match goal with He : encodes TU16 (VInt (zlen l)) ?b, Hp : sits ?o ?b ?w |- _ =>
    apply enc_u16_inv in He; let z := fresh "z" in let Hz := fresh "Hz" in let Hv := fresh in destruct He as (z & Hv & Hz & ->); injection Hv as <-;
    let Hn := fresh "Hn" in assert (Hn : number_at o w = length l) by (rewrite (number_ok _ _ _ Hp Hz); apply Nat2Z.id); cbn in Hn end.

Lemma find_struct nm s0 : find (fun s => str_eqb (st_name s) nm) STRUCTS = Some s0 -> forall s, In s STRUCTS -> st_name s = nm -> s = s0.
Proof. intros Hf s Hs <-. rewrite (in_find s Hs) in Hf. congruence. Qed.

Definition string_ok nm m fixed before len : Prop := forall oc s key bytes v, In s STRUCTS -> st_name s = nm -> bytes_ok bytes -> from_bytes oc s key bytes = Ok v ->
  has_string v bytes m fixed before len.
Ltac begin_with S := 
  let oc := fresh "oc" in let s := fresh "s" in let key := fresh "key" in let bytes := fresh "bytes" in let v := fresh "v" in let Hin := fresh in let Hnm := fresh in let Hb := fresh "Hb" in let H := fresh in
  intros oc s key bytes v Hin Hnm Hb H; rewrite (fun e => find_struct _ S e s Hin Hnm) in H by reflexivity; clear Hin Hnm;
  let ms := fresh "ms" in let bs := fresh "bs" in let Hi := fresh "Hi" in let Hs := fresh "Hs" in
  destruct (item_fields oc S key bytes v eq_refl Hb H) as (ms & bs & -> & Hi & Hs); clear H; unfold S in Hi; cbn [st_fields] in Hi; unfold fld in Hi.
Lemma inode_ref_name : string_ok (s_ "btrfs_inode_ref") (s_ "name") 10 [] 8.
Proof. begin_with btrfs_inode_ref. do 2 named. trailing. len_of Ha str. unfold has_string. cbn [map list_sum fold_right]. rewrite Hn. cbn [csize] in Hq. destruct Hq as [Hq1 Hq2]. split; [exact Hq1|]. cbn [member]. change (Some (VStr str) = Some (VStr (firstn (length str) (skipn 10 bytes)))). f_equal. f_equal. symmetry. exact Hq2. Qed.
Lemma inode_extref_name : string_ok (s_ "btrfs_inode_extref") (s_ "name") 18 [] 16.
Proof. begin_with btrfs_inode_extref. do 3 named. trailing. len_of Ha str. unfold has_string. cbn [map list_sum fold_right]. rewrite Hn. cbn [csize] in Hq. destruct Hq as [Hq1 Hq2]. split; [exact Hq1|]. cbn [member]. change (Some (VStr str) = Some (VStr (firstn (length str) (skipn 18 bytes)))). f_equal. f_equal. symmetry. exact Hq2. Qed.
Lemma root_ref_name : string_ok (s_ "btrfs_roof_ref") (s_ "name") 18 [] 16.
Proof. begin_with btrfs_roof_ref. do 3 named. trailing. len_of Ha str. unfold has_string. cbn [map list_sum fold_right]. rewrite Hn. cbn [csize] in Hq. destruct Hq as [Hq1 Hq2]. split; [exact Hq1|]. cbn [member]. change (Some (VStr str) = Some (VStr (firstn (length str) (skipn 18 bytes)))). f_equal. f_equal. symmetry. exact Hq2. Qed.
Lemma dir_name : string_ok (s_ "btrfs_dir_item") (s_ "name") 30 [] 27.
Proof. begin_with btrfs_dir_item. do 5 named. trailing. len_of Ha str. unfold has_string. cbn [map list_sum fold_right]. rewrite Hn. cbn [csize] in Hq. destruct Hq as [Hq1 Hq2]. split; [exact Hq1|]. cbn [member]. change (Some (VStr str) = Some (VStr (firstn (length str) (skipn 30 bytes)))). f_equal. f_equal. symmetry. exact Hq2. Qed.
Lemma dir_value : string_ok (s_ "btrfs_dir_item") (s_ "value") 30 [27] 25.
Proof. begin_with btrfs_dir_item. do 5 named. trailing. trailing. len_of Ha str. len_of Ha0 str0.
  unfold has_string. cbn [map list_sum fold_right]. rewrite Hn, Hn0. rewrite Nat.add_0_r. destruct Hq0 as [Hq1 Hq2]. split; [exact Hq1|]. cbn [member]. change (Some (VStr str0) = Some (VStr (firstn (length str0) (skipn (30 + length str) bytes)))). f_equal. f_equal. symmetry. exact Hq2.
Qed.

Lemma strings_ok : forall nm m fixed before len, In (nm, m, fixed, before, len) kernel_strings -> string_ok nm m fixed before len.
Proof.
  intros nm m fixed before len H. unfold kernel_strings in H. cbn [In] in H.
  destruct H as [H|[H|[H|[H|[H|[]]]]]]; injection H as <- <- <- <- <-; [apply inode_ref_name|apply inode_extref_name|apply root_ref_name|apply dir_name|apply dir_value].
Qed.
Lemma stripes_ok oc s key bytes v : In s STRUCTS -> st_name s = s_ "btrfs_chunk" -> bytes_ok bytes -> from_bytes oc s key bytes = Ok v -> has_stripes v bytes.
Proof.
  revert oc s key bytes v. begin_with btrfs_chunk. do 9 named. apply item_types_inv in Hi. destruct Hi as (vs & bss & ms' & bs' & -> & -> & Ha & HF). cbn [app] in Ha.
  len_of Ha vs. exists vs. split; [reflexivity|]. split; [symmetry; exact Hn|]. apply sits_left in Hs.
  match type of Hs with sits ?o _ _ => change o with 48 in Hs end. clear -HF Hs. revert Hs.
  assert (Hgen : forall off, sits off (concat bss) bytes -> forall i x, nth_error vs i = Some x ->
      has_member x bytes [s_ "devid"] (off + 32 * i) 8 None /\ has_member x bytes [s_ "offset"] (off + 32 * i + 8) 8 None /\ has_member x bytes [s_ "dev_uuid"] (off + 32 * i + 16) 1 (Some 16)).
  { induction HF as [|v b vs bss Hv HF IH]; intros off Hs i x Hi; [destruct i; discriminate|]. cbn [concat] in Hs. destruct i as [|i]; cbn [nth_error] in Hi.
    - injection Hi as ->. rewrite Nat.mul_0_r, Nat.add_0_r. apply sits_left in Hs. destruct (enc_struct_inv _ _ _ _ _ Hv) as (ms & -> & Hf).
      pose proof (flat_fields _ _ _ _ _ Hf Hs) as Hpl. rewrite <- (app_nil_r ms).
      assert (Hg : forall path off' w count, match locate (seq_flat (st_fields btrfs_stripe) off) path with
          | None => False
          | Some (t, o) => o = off' /\ match count, t with None, t => width t = Some w | Some c, TArray t' n => n = c /\ width t' = Some w | _, _ => False end end ->
          has_member (VStruct (st_name btrfs_stripe) None (ms ++ [])) bytes path off' w count).
      { intros path off' w count Hc. destruct (locate _ path) as [[t o]|] eqn:El; [|contradiction].
        destruct (locate_ok _ _ (st_name btrfs_stripe) None _ _ [] _ _ Hpl El) as (x & b' & Hx & He & Hsit). destruct Hc as [-> Hc]. unfold has_member. destruct count as [c|].
        - destruct t; try contradiction. destruct Hc as [-> Hw]. apply enc_array_inv in He. destruct He as (xs & bss' & Hl & -> & HE & ->). exists xs. split; [exact Hx|]. split; [congruence|]. eapply elements_ok; eassumption.
        - exists x. split; [exact Hx|]. eapply width_ok; [exact He| |exact Hsit]. destruct t; exact Hc. }
      split; [|split]; apply Hg; cbn; repeat split; lia.
    - replace (off + 32 * S i) with ((off + 32) + 32 * i) by lia. apply IH; [|exact Hi]. replace 32 with (length b) by (rewrite (proj1 (encodes_len _ _ _ Hv)); reflexivity). eapply sits_right. exact Hs. }
  apply Hgen.
Qed.
