(** C22-C27, C61, C62: decoding on-disk structures.  [from_bytes oc s key bytes] is what search() and
    casts call to decode bytes as the struct s; oc says whether overflow checks are on. *)
From Verif Require Import Base Structs Definitions Value Lib Demo Spec_Decode Proof_Decode Proof_Decode2.
Require Import Lia.
Arguments s_ s%string_scope.

(** ** C22: decoding the encoding gives the value back, whatever follows it *)
Theorem C22_fixed_type_round_trip :
  forall oc t v bs rest, fixed_layout t = true -> bytes_ok (bs ++ rest) ->
  encodes t v bs -> to_value oc (dyn_struct oc) t (bs ++ rest) = Ok v.
Proof. intros. apply tv_complete; assumption. Qed.
Print Assumptions C22_fixed_type_round_trip.

Theorem C22_fixed_struct_round_trip :
  forall oc s key ms bs rest, fixed_layout (ty_of s) = true -> bytes_ok (bs ++ rest) ->
  encodes (ty_of s) (VStruct (st_name s) None ms) bs ->
  from_bytes oc s key (bs ++ rest) = Ok (VStruct (st_name s) key ms).
Proof. intros oc s key ms bs rest Hf Hb He. apply struct_fixed_ok; [exact Hf|exact Hb|]. apply enc_struct_inv in He. destruct He as (ms' & E & He). injection E as <-. exact He. Qed.
Print Assumptions C22_fixed_struct_round_trip.

(** and every long enough byte string is the encoding of what it decodes to *)
Theorem C22_fixed_struct_decodes :
  forall oc s key bytes, fixed_layout (ty_of s) = true -> bytes_ok bytes -> csize (ty_of s) <= length bytes ->
  exists ms, from_bytes oc s key bytes = Ok (VStruct (st_name s) key ms) /\
             encodes (ty_of s) (VStruct (st_name s) None ms) (firstn (csize (ty_of s)) bytes).
Proof.
  intros oc s key bytes Hf Hb Hl. pose proof (struct_fixed oc s key bytes Hf Hb) as H. rewrite (proj2 (Nat.leb_le _ _) Hl) in H.
  destruct H as (ms & H1 & H2). exists ms. split; [exact H1|constructor; exact H2].
Qed.
Print Assumptions C22_fixed_struct_decodes.

Definition demo_key_bytes : str := [5;1;0;0;0;0;0;0; 84; 255;255;255;255;255;255;255;255]%N.
Definition demo_key_members : list (str * value) :=
  [(s_ "objectid", VInt 261); (s_ "type", VInt 84); (s_ "offset", VInt 18446744073709551615)].
Lemma demo_key_encodes : encodes (ty_of btrfs_key) (VStruct (s_ "btrfs_key") None demo_key_members) demo_key_bytes.
Proof.
  constructor. unfold btrfs_key, demo_key_members. cbn [st_fields].
  change demo_key_bytes with (le_bytes 8 261 ++ le_bytes 1 84 ++ le_bytes 8 18446744073709551615 ++ []).
  constructor; [constructor; vm_compute; split; congruence|]. constructor; [constructor; vm_compute; split; congruence|].
  constructor; [constructor; vm_compute; split; congruence|]. constructor.
Qed.
Example C22_example : fixed_layout (ty_of btrfs_key) = true /\ bytes_ok (demo_key_bytes ++ [7%N]) /\
  from_bytes true btrfs_key None (demo_key_bytes ++ [7%N]) = Ok (VStruct (s_ "btrfs_key") None demo_key_members).
Proof. split; [reflexivity|]. split; [|reflexivity]. split; [repeat constructor|reflexivity]. Qed.
(** all but seven of the shipped structs have a fixed layout *)
Example C22_shipped : map st_name (filter (fun s => negb (fixed_layout (ty_of s))) STRUCTS) =
  map s_ ["btrfs_chunk"; "btrfs_extent_item"; "btrfs_inode_ref"; "btrfs_inode_extref"; "btrfs_dir_item"; "btrfs_roof_ref"; "btrfs_file_extent_item"]%string.
Proof. vm_compute. reflexivity. Qed.

(** ** C23: the k-th field is read at the sum of the preceding sizes *)
Theorem C23_field_offsets :
  forall oc s key bytes ms k n t, fixed_layout (ty_of s) = true -> bytes_ok bytes ->
  from_bytes oc s key bytes = Ok (VStruct (st_name s) key ms) ->
  nth_error (st_fields s) k = Some (Some n, t) ->
  let offset := list_sum (map (fun f => csize (snd f)) (firstn k (st_fields s))) in
  exists pre v post, ms = pre ++ (n, v) :: post /\
    encodes t v (firstn (csize t) (skipn offset bytes)) /\
    (* so if the name occurs once, this is what .n reads *)
    (NoDup (map fst ms) -> assoc n ms = Some v).
Proof.
  intros oc s key bytes ms k n t Hf Hb H Hk offset. pose proof (struct_fixed oc s key bytes Hf Hb) as HS.
  destruct (Nat.leb_spec (csize (ty_of s)) (length bytes)) as [Hl|Hl]; [|congruence].
  destruct HS as (ms' & HS & He). rewrite H in HS. injection HS as <-.
  destruct (enc_field_at _ _ _ _ _ _ He Hk) as (pre & v & post & -> & Hv). exists pre, v, post. split; [reflexivity|]. split.
  - replace (firstn (csize t) (skipn (fsize (firstn k (st_fields s))) (firstn (csize (ty_of s)) bytes)))
      with (firstn (csize t) (skipn offset bytes)) in Hv; [exact Hv|].
    apply firstn_nth_split in Hk. assert (Hsz : csize (ty_of s) = offset + (csize t + fsize (skipn (S k) (st_fields s)))).
    { change (csize (ty_of s)) with (fsize (st_fields s)). rewrite Hk at 1. unfold fsize. rewrite map_app, list_sum_app. reflexivity. }
    change (fsize (firstn k (st_fields s))) with offset. rewrite Hsz, skipn_firstn_comm, firstn_firstn.
    rewrite Nat.min_l by lia. reflexivity.
  - intros Hd. clear -Hd. induction pre as [|[m w] pre IH]; cbn [app assoc]; [rewrite (proj2 (str_eqb_eq _ _) eq_refl); reflexivity|].
    inversion Hd as [|? ? Hn Hd']; subst. destruct (str_eqb m n) eqn:E; [|apply IH; exact Hd'].
    apply str_eqb_eq in E. subst. exfalso. apply Hn. rewrite map_app. apply in_or_app. right. left. reflexivity.
Qed.
Print Assumptions C23_field_offsets.

Definition zeros (n : nat) : str := repeat 0%N n.
(** in the 160-byte inode item the mode is at offset 52: 5 u64 and 3 u32 before it *)
Example C23_example : nth_error (st_fields btrfs_inode_item) 8 = Some (Some (s_ "mode"), TU32) /\
  list_sum (map (fun f => csize (snd f)) (firstn 8 (st_fields btrfs_inode_item))) = 52 /\
  exists ms, from_bytes true btrfs_inode_item None (zeros 52 ++ [237; 65; 0; 0]%N ++ zeros 104) = Ok (VStruct (s_ "btrfs_inode_item") None ms) /\
             assoc (s_ "mode") ms = Some (VInt 16877).
Proof. split; [reflexivity|]. split; [reflexivity|]. eexists. split; [vm_compute; reflexivity|reflexivity]. Qed.

(** ** C24: decoding never panics, and too few bytes are an error *)
Theorem C24_decoding_is_total :
  forall oc s key bytes, In s STRUCTS -> bytes_ok bytes ->
  (exists ms, from_bytes oc s key bytes = Ok (VStruct (st_name s) key ms)) \/ (exists e, from_bytes oc s key bytes = Err e).
Proof. exact decode_total. Qed.
Print Assumptions C24_decoding_is_total.

Theorem C24_too_short_is_an_error :
  forall oc s key bytes n, In s STRUCTS -> bytes_ok bytes -> assoc (st_name s) fixed_part = Some n -> length bytes < n ->
  exists e, from_bytes oc s key bytes = Err e.
Proof. exact decode_short. Qed.
Print Assumptions C24_too_short_is_an_error.

(** the table covers every struct; every input below is decided one way or the other *)
Example C24_example :
  forallb (fun s => match assoc (st_name s) fixed_part with Some _ => true | None => false end) STRUCTS = true /\
  from_bytes true btrfs_root_item None (zeros 438) = Err (ENotEnoughBytes (s_ "btrfs_root_item") [] 438 439) /\
  (exists v, from_bytes true btrfs_root_item None (zeros 439) = Ok v).
Proof. split; [vm_compute; reflexivity|]. split; [vm_compute; reflexivity|]. eexists. vm_compute. reflexivity. Qed.

(** ** C25: trailing strings and arrays *)
(** For every shipped struct that is not laid out dynamically, decoding succeeds exactly
    when the bytes start with an encoding - whose trailing strings and arrays follow each
    other and have the length given by their length fields - and shows what it encodes. *)
Theorem C25_trailing_data :
  forall oc s key bytes, In s STRUCTS -> st_name s <> s_ "btrfs_extent_item" -> st_name s <> s_ "btrfs_file_extent_item" -> bytes_ok bytes ->
  (forall ms, from_bytes oc s key bytes = Ok (VStruct (st_name s) key ms) <->
              exists bs rest, bytes = bs ++ rest /\ enc_item [] (st_fields s) ms bs) /\
  ((forall ms bs rest, bytes = bs ++ rest -> ~ enc_item [] (st_fields s) ms bs) ->
   exists e, from_bytes oc s key bytes = Err e).
Proof.
  intros oc s key bytes Hs H1 H2 Hb. destruct (shipped_wf s Hs) as [Hwf|[->| ->]]; [|destruct H1; reflexivity|destruct H2; reflexivity].
  pose proof (from_bytes_items oc s key bytes Hwf Hb) as H. split.
  - intros ms. split.
    + intros E. rewrite E in H. destruct H as (ms' & bs & rest & Ev & Hbs & He). injection Ev as <-. eauto.
    + intros (bs & rest & -> & He). apply from_bytes_items_ok; assumption.
  - intros Hno. destruct (from_bytes oc s key bytes) as [v|e| |]; try contradiction; [|eauto].
    destruct H as (ms & bs & rest & _ & Hbs & He). exfalso. eapply Hno; eassumption.
Qed.
Print Assumptions C25_trailing_data.

(** a directory entry with a name of 3 and a value of 2 bytes, followed by more data *)
Definition demo_dir_bytes : str := demo_key_bytes ++ zeros 8 ++ [2; 0; 3; 0; 1]%N ++ s_ "foo" ++ s_ "xy".
Definition demo_dir : list (str * value) :=
  [(s_ "location", VStruct (s_ "btrfs_key") None demo_key_members); (s_ "transid", VInt 0); (s_ "data_len", VInt 2);
   (s_ "name_len", VInt 3); (s_ "type", VInt 1); (s_ "name", VStr (s_ "foo")); (s_ "value", VStr (s_ "xy"))].
Example C25_example : enc_item [] (st_fields btrfs_dir_item) demo_dir demo_dir_bytes /\
  from_bytes true btrfs_dir_item None (demo_dir_bytes ++ [9%N]) = Ok (VStruct (s_ "btrfs_dir_item") None demo_dir) /\
  from_bytes true btrfs_dir_item None (removelast demo_dir_bytes) = Err (ENotEnoughBytes (s_ "btrfs_dir_item") (s_ " for string read") 34 35).
Proof.
  split; [|split; vm_compute; reflexivity]. unfold demo_dir_bytes, demo_dir, btrfs_dir_item. cbn [st_fields].
  apply item_named; [exact demo_key_encodes|]. change (zeros 8) with (le_bytes 8 0). apply item_named; [constructor; vm_compute; split; congruence|].
  change ([2; 0; 3; 0; 1]%N ++ s_ "foo" ++ s_ "xy") with (le_bytes 2 2 ++ le_bytes 2 3 ++ le_bytes 1 1 ++ s_ "foo" ++ s_ "xy" ++ []).
  do 3 (apply item_named; [constructor; vm_compute; split; congruence|]).
  apply item_str; [reflexivity|]. apply item_str; [reflexivity|]. constructor.
Qed.

(** ** C26: extent items account for every byte *)
Theorem C26_extent_items :
  forall oc key bytes, bytes_ok bytes ->
  (forall v, from_bytes oc btrfs_extent_item key bytes = Ok v <->
             exists ms, v = VStruct (s_ "btrfs_extent_item") key ms /\ enc_extent_item ms bytes) /\
  ((forall ms, ~ enc_extent_item ms bytes) -> exists e, from_bytes oc btrfs_extent_item key bytes = Err e).
Proof.
  intros oc key bytes Hb. pose proof (extent_item_good oc key bytes Hb) as H. split.
  - intros v. split.
    + intros E. rewrite E in H. exact H.
    + intros (ms & -> & He). destruct (from_bytes oc btrfs_extent_item key bytes) as [v|e| |]; try contradiction.
      * destruct H as (ms' & -> & He'). f_equal. f_equal. eapply extent_det; eassumption.
      * exfalso. eapply H. exact He.
  - intros Hno. destruct (from_bytes oc btrfs_extent_item key bytes) as [v|e| |]; try contradiction; [|eauto].
    destruct H as (ms & _ & He). exfalso. eapply Hno. exact He.
Qed.
Print Assumptions C26_extent_items.

(** header, a tree block reference and a shared data reference; one byte more or less is an error *)
Definition demo_extent : str := le_bytes 8 2 ++ le_bytes 8 7 ++ le_bytes 8 1 ++ (176%N :: le_bytes 8 5) ++ (184%N :: le_bytes 8 4096 ++ le_bytes 4 3).
Example C26_example :
  (exists a b, from_bytes true btrfs_extent_item None demo_extent =
     Ok (VStruct (s_ "btrfs_extent_item") None
          [(s_ "refs", VInt 2); (s_ "generation", VInt 7); (s_ "flags", VInt 1); (s_ "inline_ref", a); (s_ "inline_ref", b)])) /\
  from_bytes true btrfs_extent_item None (demo_extent ++ [176%N]) = Err ELeftover /\
  from_bytes true btrfs_extent_item None (removelast demo_extent) = Err ELeftover /\
  from_bytes true btrfs_extent_item None (demo_extent ++ [177%N]) = Err (EUnknownInlineRef 177).
Proof. split; [do 2 eexists; vm_compute; reflexivity|]. split; [|split]; vm_compute; reflexivity. Qed.

(** ** C27: anonymous unions overlay their members *)
Theorem C27_unions_overlay :
  forall oc s key bytes ms pre nm us post, fixed_layout (ty_of s) = true -> bytes_ok bytes ->
  st_fields s = pre ++ (None, TUnion nm us) :: post ->
  from_bytes oc s key bytes = Ok (VStruct (st_name s) key ms) ->
  let start := list_sum (map (fun f => csize (snd f)) pre) in
  let size := list_max (map (fun f => csize (snd f)) us) in
  exists before overlaid after, ms = before ++ overlaid ++ after /\
    (* all members of the union are read at its start *)
    enc_overlay us overlaid (firstn size (skipn start bytes)) /\
    (forall n t, In (Some n, t) us -> exists v, In (n, v) overlaid /\ encodes t v (firstn (csize t) (skipn start bytes))) /\
    (* the fields after it start at the size of the largest one *)
    (exists last, enc_fields post after last /\ last = firstn (length last) (skipn (start + size) bytes)).
Proof.
  intros oc s key bytes ms pre nm us post Hf Hb Hs H start size. pose proof (struct_fixed oc s key bytes Hf Hb) as HS.
  destruct (Nat.leb_spec (csize (ty_of s)) (length bytes)) as [Hl|Hl]; [|congruence].
  destruct HS as (ms' & HS & He). rewrite H in HS. injection HS as <-. rewrite Hs in He.
  assert (Hsz : csize (ty_of s) = start + (size + fsize post)).
  { change (csize (ty_of s)) with (fsize (st_fields s)). rewrite Hs. unfold fsize. rewrite map_app, list_sum_app. reflexivity. }
  destruct (enc_union_at _ _ _ _ _ _ He) as (m1 & ov & m2 & -> & E1 & E2 & E3). exists m1, ov, m2. split; [reflexivity|].
  change (csize (TUnion nm us)) with size in *. change (fsize pre) with start in *. rewrite Hsz in E2, E3.
  assert (Es : forall a b, skipn a (firstn (a + b) bytes) = firstn b (skipn a bytes)).
  { intros a b. rewrite skipn_firstn_comm. f_equal. lia. }
  rewrite Es, firstn_firstn, Nat.min_l in E2 by lia. split; [exact E2|]. split.
  - intros n t Hin. destruct (overlay_at _ _ _ _ _ E2 Hin) as (v & Hv & Hev). exists v. split; [exact Hv|].
    rewrite firstn_firstn, Nat.min_l in Hev; [exact Hev|]. unfold size.
    assert (Hm : list_max (map (fun f : field => csize (snd f)) us) <= list_max (map (fun f : field => csize (snd f)) us)) by lia.
    apply list_max_le in Hm. rewrite Forall_forall in Hm. apply Hm. apply (in_map (fun f : field => csize (snd f)) us (Some n, t) Hin).
  - rewrite Nat.add_assoc, Es in E3. eexists. split; [exact E3|]. rewrite firstn_length, skipn_length, Nat.min_l by lia. reflexivity.
Qed.
Print Assumptions C27_unions_overlay.

Example C27_example : fixed_layout (ty_of btrfs_disk_balance_args) = true /\
  exists ms, from_bytes true btrfs_disk_balance_args None (zeros 8 ++ [1; 0; 0; 0; 2; 0; 0; 0]%N ++ le_bytes 8 77 ++ zeros 112) =
               Ok (VStruct (s_ "btrfs_disk_balance_args") None ms) /\
    firstn 5 ms = [(s_ "profiles", VInt 0); (s_ "usage", VInt 8589934593); (s_ "usage_min", VInt 1); (s_ "usage_max", VInt 2); (s_ "devid", VInt 77)].
Proof. split; [reflexivity|]. eexists. split; vm_compute; reflexivity. Qed.

(** ** C61: file extent items *)
Theorem C61_file_extent_items :
  forall oc key bytes, bytes_ok bytes ->
  (forall v, from_bytes oc btrfs_file_extent_item key bytes = Ok v <->
             exists ms, v = VStruct (s_ "btrfs_file_extent_item") key ms /\ enc_file_extent ms bytes) /\
  ((forall ms, ~ enc_file_extent ms bytes) -> exists e, from_bytes oc btrfs_file_extent_item key bytes = Err e).
Proof.
  intros oc key bytes Hb. pose proof (file_extent_good oc key bytes Hb) as H. split.
  - intros v. split.
    + intros E. rewrite E in H. exact H.
    + intros (ms & -> & He). destruct (from_bytes oc btrfs_file_extent_item key bytes) as [v|e| |]; try contradiction.
      * destruct H as (ms' & -> & He'). f_equal. f_equal. eapply file_extent_det; eassumption.
      * exfalso. eapply H. exact He.
  - intros Hno. destruct (from_bytes oc btrfs_file_extent_item key bytes) as [v|e| |]; try contradiction; [|eauto].
    destruct H as (ms & _ & He). exfalso. eapply Hno. exact He.
Qed.
Print Assumptions C61_file_extent_items.

(** an inline extent shows its header; a regular one too short for its location is an error *)
Example C61_example :
  (exists ms, from_bytes true btrfs_file_extent_item None (zeros 21 ++ s_ "inline data") = Ok (VStruct (s_ "btrfs_file_extent_item") None ms) /\ length ms = 6) /\
  (exists ms, from_bytes true btrfs_file_extent_item None (zeros 20 ++ [1%N] ++ zeros 32) = Ok (VStruct (s_ "btrfs_file_extent_item") None ms) /\ length ms = 10) /\
  from_bytes true btrfs_file_extent_item None (zeros 20 ++ [1%N] ++ zeros 31) = Err (ENotEnoughBytes (s_ "btrfs_file_extent_item") [] 52 53).
Proof. split; [eexists; split; vm_compute; reflexivity|]. split; [eexists; split; vm_compute; reflexivity|vm_compute; reflexivity]. Qed.

(** ** C62: the shipped definitions have the sizes of the kernel's structs, and no two have the same name *)
Theorem C62_shipped_sizes :
  forall s n, In s STRUCTS -> assoc (st_name s) fixed_part = Some n ->
  st_name s <> s_ "btrfs_extent_item" -> st_name s <> s_ "btrfs_file_extent_item" ->
  ty_size (ty_of s) = Z.of_nat n.
Proof. exact shipped_sizes. Qed.
Print Assumptions C62_shipped_sizes.
Theorem C62_names_are_unique : NoDup (map st_name STRUCTS).
Proof. exact shipped_names. Qed.
Print Assumptions C62_names_are_unique.
Example C62_example : In btrfs_root_item STRUCTS /\ assoc (st_name btrfs_root_item) fixed_part = Some 439.
Proof. split; [|vm_compute; reflexivity]. unfold STRUCTS. cbn [In]. tauto. Qed.
