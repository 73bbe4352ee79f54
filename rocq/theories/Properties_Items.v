(** C90: when bytes cannot be read as a struct, the error says exactly what is missing.
    Spec_Items gives the text, in terms of the on-disk format only. *)
From Verif Require Import Base Ast Structs Definitions Value Variables Fs Eval Errors Lib Demo Spec_Decode Spec_Items Spec_Fs Spec_Lang Spec_Errors Spec_Search
  Proof_Safe Proof_Search2 Proof_Decode Proof_Decode2 Proof_Items Proof_Items2 Proof_Errors Proof_Fs Properties_Errors.
Require Import Lia ZArith.
Import Spec_Search.
Arguments s_ s%string_scope.

(** Decoding fails with a text exactly when the specification explains it so, for every struct
    and all bytes. *)
Theorem C90_decoding_errors_say_what_is_missing :
  forall oc s key bytes m, In s STRUCTS -> bytes_ok bytes ->
  (exists er, from_bytes oc s key bytes = Err er /\ message er = Some m) <-> decode_fault s bytes m.
Proof. exact decode_errors. Qed.
Print Assumptions C90_decoding_errors_say_what_is_missing.

(** There is at most one explanation, and there is none exactly when the bytes decode. *)
Theorem C90_one_explanation :
  forall s bytes m1 m2, In s STRUCTS -> bytes_ok bytes -> decode_fault s bytes m1 -> decode_fault s bytes m2 -> m1 = m2.
Proof.
  intros s bytes m1 m2 Hs Hb H1 H2. apply (decode_errors true s None bytes m1 Hs Hb) in H1. apply (decode_errors true s None bytes m2 Hs Hb) in H2.
  destruct H1 as (e1 & H1 & M1), H2 as (e2 & H2 & M2). congruence.
Qed.
Print Assumptions C90_one_explanation.
Theorem C90_no_explanation_means_decoded :
  forall oc s key bytes, In s STRUCTS -> bytes_ok bytes ->
  (exists ms, from_bytes oc s key bytes = Ok (VStruct (st_name s) key ms)) <-> (forall m, ~ decode_fault s bytes m).
Proof.
  intros oc s key bytes Hs Hb. split.
  - intros (ms & H) m Hm. apply (decode_errors oc s key bytes m Hs Hb) in Hm. destruct Hm as (er & He & _). congruence.
  - intros H. destruct (decode_or_fault oc s key bytes Hs Hb) as [Hd|(m & Hm)]; [exact Hd|]. elim (H m Hm).
Qed.
Print Assumptions C90_no_explanation_means_decoded.

(** Where it shows: the cast of an address in an image whose bytes there do not decode. *)
Theorem C90_casts_report_it :
  forall E vs img s e w w' z bs m, In s STRUCTS -> bytes_ok img -> gives E vs (Some (FsImage img)) e w w' (Some (VInt z)) ->
  bytes_at img z (read_size s) bs -> decode_fault s bs m ->
  reports E vs (Some (FsImage img)) (ECast (EIdent (st_name s)) e) w w' (Some m).
Proof.
  intros E vs img s e w w' z bs m Hs Hi Hg Hat Hm.
  assert (Hbs : bytes_ok bs) by (eapply bytes_at_ok; eassumption).
  pose proof Hat as (pre & post & E1 & E2 & E3). pose proof Hi as [_ Hi2].
  assert (Hr : (0 <= z)%Z /\ (0 <= read_size s)%Z /\ (z + read_size s < 2 ^ 63)%Z).
  { rewrite E1 in Hi2. unfold zlen in *. rewrite !app_length in Hi2. lia. }
  destruct Hr as (H0 & Hsz & Hz). change (2 ^ 63)%Z with 9223372036854775808%Z in Hz.
  assert (Hcast : eval_cast E (Some (FsImage img)) (EIdent (st_name s)) (z mod 2 ^ 64) = from_bytes (overflow_checks E) s None bs).
  { unfold eval_cast. rewrite in_find by exact Hs. cbn [unwrap bind]. rewrite Z.mod_small by (change (2 ^ 64)%Z with 18446744073709551616%Z; lia). fold (read_size s). unfold usize_add.
    rewrite (proj2 (Z.ltb_lt _ _)) by (change (2 ^ 64)%Z with 18446744073709551616%Z; lia). cbn [bind get_bytes].
    rewrite (proj2 (get_range_some img z (read_size s) bs H0 Hsz)) by exact Hat. reflexivity. }
  apply (decode_errors (overflow_checks E) s None bs m Hs Hbs) in Hm. destruct Hm as (er & He & <-).
  eapply re_op; [reflexivity| |apply cp_cast; [exact H0|rewrite Hcast; exact He]]. econstructor; [exact Hg|constructor|constructor].
Qed.
Print Assumptions C90_casts_report_it.

(** A cast reads the fixed part only, so the name of an inode reference (index i, name of k
    bytes) is always missing. *)
Theorem C90_casts_leave_names_out :
  forall E vs img e w w' z i k, bytes_ok img -> gives E vs (Some (FsImage img)) e w w' (Some (VInt z)) ->
  (0 <= i < 2 ^ 64)%Z -> (0 < k < 2 ^ 16)%Z -> bytes_at img z 10 (le_bytes 8 i ++ le_bytes 2 k) ->
  reports E vs (Some (FsImage img)) (ECast (EIdent (s_ "btrfs_inode_ref")) e) w w'
    (Some (short_text (s_ "btrfs_inode_ref") (s_ " for string read") 10 (10 + k))).
Proof.
  intros E vs img e w w' z i k Hi Hg Hr Hk Hat.
  apply (C90_casts_report_it E vs img btrfs_inode_ref e w w' z (le_bytes 8 i ++ le_bytes 2 k)); [repeat (first [left; reflexivity|right])|exact Hi|exact Hg|exact Hat|].
  apply df_item. assert (Hl : zlen (le_bytes 8 i ++ le_bytes 2 k) = 10%Z) by (destruct Hat as (pre & post & _ & _ & H); exact H). rewrite Hl.
  change (st_fields btrfs_inode_ref) with [(Some (s_ "index"), TU64); (Some (s_ "name_len"), TU16); (Some (s_ "name"), TTrailStr (s_ "name_len"))].
  change (st_name btrfs_inode_ref) with (s_ "btrfs_inode_ref"). rewrite <- (app_nil_r (le_bytes 2 k)).
  eapply if_named; [apply enc_u64; exact Hr|]. eapply if_named; [apply enc_u16; lia|].
  pose proof (if_str_short 10 (s_ "btrfs_inode_ref") ([] ++ [(s_ "index", VInt i)] ++ [(s_ "name_len", VInt k)]) (s_ "name") (s_ "name_len") [] [] k) as H.
  cbn [zlen length] in H. change (10 - zlen (@nil N) + k)%Z with (10 + k)%Z in H. apply H; [reflexivity|unfold zlen; cbn; lia].
Qed.
Print Assumptions C90_casts_leave_names_out.

Lemma first_fault oc : forall items, Forall raw_item items -> forall w w' err, decode_chunks oc items w = (w', Err err) ->
  exists before c after s l m, items = before ++ c :: after /\ shown oc before l /\ In s STRUCTS /\
    st_km s (h_objectid (fst c)) (h_type (fst c)) (h_offset (fst c)) = true /\ message err = Some m /\ decode_fault s (snd c) m.
Proof.
  intros items HF. induction HF as [|c items Hc HF IH]; intros w w' err; cbn [decode_chunks]; [discriminate|]. destruct c as [h b].
  destruct (find (fun s => st_km s (h_objectid h) (h_type h) (h_offset h)) STRUCTS) as [s|] eqn:Hf.
  - destruct (find_first _ _ _ Hf) as (pre & post & Hs & Hno & Hyes). assert (Hin : In s STRUCTS) by (rewrite Hs; apply in_or_app; right; left; reflexivity).
    unfold mbind, mret. destruct (from_bytes oc s (Some (h_objectid h, h_type h, h_offset h)) b) as [v|e| |] eqn:Hd; try discriminate.
    + destruct (decode_chunks oc items w) as [w1 [vs|e| |]] eqn:Hr; try discriminate. intros [= <- <-].
      destruct (IH _ _ _ Hr) as (before & c & after & s' & l & m & -> & Hl & X). exists ((h, b) :: before), c, after, s', (v :: l), m.
      split; [reflexivity|]. split; [|exact X]. eapply shown_item; eassumption.
    + intros [= <- <-]. assert (Hb : bytes_ok b) by (destruct Hc as (_ & _ & _ & _ & [_ H1] & H2 & H3); cbn [fst snd] in *; split; [exact H3|rewrite <- H2; change (2 ^ 32)%Z with 4294967296%Z in H1; change (2 ^ 63)%Z with 9223372036854775808%Z; lia]).
      destruct (explained_all oc s (Some (h_objectid h, h_type h, h_offset h)) b Hin Hb) as [Hx _]. destruct (Hx e Hd) as (m & Hm & Hfault).
      exists [], (h, b), items, s, [], m. split; [reflexivity|]. split; [constructor|]. auto.
  - intros Hr. destruct (IH _ _ _ Hr) as (before & c & after & s' & l & m & -> & Hl & X). exists ((h, b) :: before), c, after, s', l, m.
    split; [reflexivity|]. split; [|exact X]. constructor; [|exact Hl]. intros s0 Hs0. exact (find_none _ _ Hf s0 Hs0).
Qed.

(** A search, on whatever the kernel answers, that received its items but does not give an
    array fails with the explanation of the first item that cannot be read. *)
Theorem C90_searches_report_it :
  forall K E vs fd e w tree key flds k w2 w1 items w' r, kernel_typed E ->
  calls_search K E vs (Some (FsMounted fd)) e w tree key w2 -> is_search_key key flds -> requested tree flds k ->
  fs_search K E (FsMounted fd) k w2 = (w1, Ok items) -> eval_expr K E vs (Some (FsMounted fd)) e w = (w', r) -> (forall v, r <> Ok v) ->
  exists before c after s l m err, items = before ++ c :: after /\ shown (overflow_checks E) before l /\
    In s STRUCTS /\ st_km s (h_objectid (fst c)) (h_type (fst c)) (h_offset (fst c)) = true /\
    r = Err err /\ message err = Some m /\ decode_fault s (snd c) m.
Proof.
  intros K E vs fd e w tree key flds k w2 w1 items w' r HE Hc Hs Hr Hf H Hn.
  assert (HI : Forall raw_item items). { unfold fs_search in Hf. destruct (search_loop_any E fd _ HE K k k [] 0 w2 w1 _ (Forall_nil _) (follow_up_refl k) Hf) as (_ & _ & X). exact X. }
  rewrite (calls_search_eq _ _ _ _ _ _ _ _ _ Hc), (eval_search_ok _ _ _ _ _ flds k) in H by assumption.
  unfold mbind at 1 in H. rewrite Hf in H. unfold mbind, mret in H.
  destruct (decode_chunks (overflow_checks E) items w1) as [w3 q] eqn:Hd. pose proof (decode_chunks_any _ _ HI _ _ _ Hd) as (_ & _ & HQ).
  destruct q as [l|err| |].
  - injection H as <- <-. elim (Hn (VArr l false)). reflexivity.
  - injection H as <- <-. destruct (first_fault _ _ HI _ _ _ Hd) as (before & c & after & s & l & m & H1 & H2 & H3 & H4 & H5 & H6).
    exists before, c, after, s, l, m, err. auto 10.
  - destruct HQ as [(? & Y)|(? & Y)]; discriminate.
  - destruct HQ as [(? & Y)|(? & Y)]; discriminate.
Qed.
Print Assumptions C90_searches_report_it.

(** A directory entry of 34 bytes whose name and value take 35; an extent item with a
    reference of kind 7, one that ends in the middle of a reference, a key of 16 bytes *)
Definition cut_dir_bytes : str := zeros 17 ++ zeros 8 ++ [2; 0; 3; 0; 1]%N ++ s_ "foo" ++ s_ "x".
Example C90_example :
  decode_fault btrfs_dir_item cut_dir_bytes (s_ "Cannot interpret 'struct btrfs_dir_item', not enough bytes provided for string read (34 < 35)") /\
  decode_fault btrfs_extent_item (zeros 24 ++ (176%N :: zeros 8) ++ [7%N; 7%N]) (s_ "Unknown btrfs_extent_inline_ref type: 7") /\
  decode_fault btrfs_extent_item (zeros 24 ++ (176%N :: zeros 8) ++ [178%N]) (s_ "Leftover data in btrfs_extent_item") /\
  decode_fault btrfs_key (zeros 16) (s_ "Cannot interpret 'struct btrfs_key', not enough bytes provided (16 < 17)") /\
  decode_fault btrfs_file_extent_item (zeros 20 ++ [1%N] ++ zeros 3) (s_ "Cannot interpret 'struct btrfs_file_extent_item', not enough bytes provided (24 < 53)") /\
  (exists m, message (ENotEnoughBytes (s_ "btrfs_dir_item") (s_ " for string read") 34 35) = Some m /\ decode_fault btrfs_dir_item cut_dir_bytes m).
Proof.
  assert (Hok : forall b : str, (length b < 100)%nat -> Forall (fun x => (x < 256)%N) b -> bytes_ok b).
  { intros b Hl Hf. split; [exact Hf|]. unfold zlen. change (2 ^ 63)%Z with 9223372036854775808%Z. lia. }
  assert (Hdir : decode_fault btrfs_dir_item cut_dir_bytes (s_ "Cannot interpret 'struct btrfs_dir_item', not enough bytes provided for string read (34 < 35)")).
  { apply (decode_errors true btrfs_dir_item None); [repeat (first [left; reflexivity|right])|apply Hok; [vm_compute; lia|repeat constructor]|].
    eexists. split; vm_compute; reflexivity. }
  split; [exact Hdir|]. split; [|split; [|split; [|split]]].
  - apply (df_kind btrfs_extent_item _ (zeros 24) (176%N :: zeros 8) 7%N [7%N]); [reflexivity|reflexivity|reflexivity| |reflexivity].
    change (176%N :: zeros 8) with ((176%N :: zeros 8) ++ []). eapply wr_cons; [reflexivity|reflexivity|constructor].
  - eapply (df_ref btrfs_extent_item _ (zeros 24) (176%N :: zeros 8) 178%N _ []); [reflexivity|reflexivity|reflexivity| |reflexivity|vm_compute; lia].
    change (176%N :: zeros 8) with ((176%N :: zeros 8) ++ []). eapply wr_cons; [reflexivity|reflexivity|constructor].
  - apply (df_short btrfs_key (zeros 16) 17); [reflexivity|vm_compute; lia].
  - apply (df_location btrfs_file_extent_item (zeros 20 ++ [1%N] ++ zeros 3) 1%N); [reflexivity|reflexivity|auto|vm_compute; lia].
  - eexists. split; [reflexivity|]. exact Hdir.
Qed.
