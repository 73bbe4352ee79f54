(** C30, C39-C41: selecting a filesystem, casts, which operations work on which filesystem. *)
From Verif Require Import Base Ast Structs Definitions Value Variables Fs Eval Runtime Lib Demo Spec_Run Proof_Run Spec_Decode Proof_Decode Proof_Decode2 Properties_Decode Spec_Search Spec_Fs Proof_Fs.
From Coq Require Import Lia.
Arguments s_ s%string_scope.

(** ** C30.  Missing: paths with characters that displaying a string escapes. *)
Theorem C30_filesystem_opens_the_written_path_partial :
  forall E inter s e w p s' r,
  evals E s e w (Ok (VStr p)) -> Forall plain p ->
  runs E inter s (SFilesystem e) s' r ->
  (* one attempt to open exactly p *)
  w_log (e_w s') = w_log w ++ [EvOpen p] /\ w_out (e_w s') = w_out w /\ e_vars s' = e_vars s /\
  ((exists f, accepted (open_path E (tick w) p) f /\ e_fs s' = Some f /\ r = IOk) \/
   ((forall f, ~ accepted (open_path E (tick w) p) f) /\ e_fs s' = e_fs s /\ exists err, r = IErr err)).
Proof.
  intros E inter s e w p s' r He Hp Hr. apply (runs_filesystem _ _ _ _ _ _ _ _ He) in Hr. cbn [as_string] in Hr. rewrite escape_plain in Hr by exact Hp. cbv zeta in Hr.
  destruct Hr as [(f & Hf & -> & ->)|(Hn & -> & ->)]; cbn; (split; [reflexivity|]); (split; [reflexivity|]); (split; [reflexivity|]); [left; eauto|right; eauto].
Qed.
Print Assumptions C30_filesystem_opens_the_written_path_partial.

(** whatever the operand, a failure keeps the previous filesystem and reports an error *)
Theorem C30_failed_open_keeps_the_filesystem :
  forall E inter s e w v s' r,
  evals E s e w (Ok v) -> runs E inter s (SFilesystem e) s' r -> r <> IOk ->
  e_fs s' = e_fs s /\ e_vars s' = e_vars s /\ exists err, r = IErr err.
Proof.
  intros E inter s e w v s' r He Hr Hn. apply (runs_filesystem _ _ _ _ _ _ _ _ He) in Hr. cbv zeta in Hr.
  destruct (as_string true v); [destruct Hr as [(f & _ & _ & ->)|(_ & -> & ->)]; [congruence|]|destruct Hr as [-> ->]..]; cbn; eauto.
Qed.
Print Assumptions C30_failed_open_keeps_the_filesystem.

(** the path opened is p exactly when all characters of p are plain *)
Theorem C30_other_paths_are_not_opened_refuted :
  forall E inter s e w p s' r,
  evals E s e w (Ok (VStr p)) -> ~ Forall plain p ->
  runs E inter s (SFilesystem e) s' r ->
  exists p', p' <> p /\ w_log (e_w s') = w_log w ++ [EvOpen p'].
Proof.
  intros E inter s e w p s' r He Hp Hr. apply (runs_filesystem _ _ _ _ _ _ _ _ He) in Hr. cbn [as_string] in Hr. cbv zeta in Hr. exists (escape true p).
  split; [intros H; apply Hp, escape_id, H|]. destruct Hr as [(f & Hf & -> & ->)|(Hn & -> & ->)]; reflexivity.
Qed.
Print Assumptions C30_other_paths_are_not_opened_refuted.

Definition open_env (o : open_res) : env := mk_env true (fun _ _ _ => IoErr) (fun _ _ => o) (fun _ _ => SkOk) None.
Definition fs_state (f : option fs) : est := mk_est [[]] f w0.
Example C30_example : exists s1 s2 s3,
  runs (open_env (OpDir 4 (Some btrfs_type))) true (fs_state (Some (FsMounted 3))) (SFilesystem (EStr (s_ "/mnt/a b"))) s1 IOk /\ e_fs s1 = Some (FsMounted 4) /\ Forall plain (s_ "/mnt/a b") /\
  runs (open_env OpNone) true (fs_state (Some (FsMounted 3))) (SFilesystem (EStr (s_ "/mnt/a b"))) s2 (IErr (EOpen (OfNeither (s_ "/mnt/a b")))) /\ e_fs s2 = Some (FsMounted 3) /\
  runs (open_env OpNone) true (fs_state None) (SFilesystem (EStr (s_ "it's"))) s3 (IErr (EOpen (OfNeither (s_ "it\'s")))) /\ w_log (e_w s3) = [EvOpen (s_ "it\'s")] /\ ~ Forall plain (s_ "it's").
Proof.
  eexists _, _, _. split; [split; [discriminate|exists 9; reflexivity]|]. split; [reflexivity|]. split; [unfold plain; repeat constructor; discriminate|].
  split; [split; [discriminate|exists 9; reflexivity]|]. split; [reflexivity|].
  split; [split; [discriminate|exists 9; reflexivity]|]. split; [reflexivity|].
  intros H. inversion_clear H. inversion_clear H1. inversion_clear H2. destruct H1 as (_ & _ & H1 & _). apply H1. reflexivity.
Qed.

(** ** C41 *)
Theorem C41_only_btrfs_is_accepted :
  forall E path w w' r, fs_new E path w = (w', r) ->
  w' = log_event w (EvOpen path) /\
  (forall f, r = Ok f <-> accepted (open_path E (tick w) path) f) /\
  ((forall f, ~ accepted (open_path E (tick w) path) f) -> exists err, r = Err err).
Proof.
  intros E path w w' r H. destruct (fs_new_iff E path w) as (H1 & H2 & H3). rewrite H in *. cbn [fst snd] in *. split; [exact H1|]. split; [exact H2|]. intros N. eauto.
Qed.
Print Assumptions C41_only_btrfs_is_accepted.
(** the session starts on the filesystem of the working directory, if it is one *)
Theorem C41_initial_filesystem :
  forall E f, e_fs (eval_new E) = Some f <-> exists cwd, getcwd E = Some cwd /\ accepted (open_path E 0 cwd) f.
Proof.
  intros E f. unfold eval_new. destruct (getcwd E) as [cwd|]; [|split; [discriminate|intros (c & H & _); discriminate]].
  destruct (fs_new_iff E cwd (mk_world [] [])) as (H1 & H2 & H3). destruct (fs_new E cwd (mk_world [] [])) as [w' r]. cbn [fst snd e_fs] in *. change (tick (mk_world [] [])) with 0 in *. split.
  - intros H. exists cwd. split; [reflexivity|]. apply H2. destruct r; congruence.
  - intros (c & Hc & H). injection Hc as <-. apply H2 in H. subst r. reflexivity.
Qed.
Print Assumptions C41_initial_filesystem.
Definition tiny_image : str := repeat 0%N (Z.to_nat 65600) ++ s_ "_BHRfS_M" ++ [1; 2; 3]%N.
Example C41_example : carries_magic tiny_image /\ accepted (OpFile (Some tiny_image)) (FsImage tiny_image) /\
  (forall f, ~ accepted (OpFile (Some (repeat 0%N (Z.to_nat 100)))) f) /\ (forall f, ~ accepted (OpDir 3 (Some 61267%Z)) f).
Proof.
  assert (H : carries_magic tiny_image) by (exists (64 * 1024)%Z, (repeat 0%N (Z.to_nat 65600)), [1; 2; 3]%N; split; [cbn; tauto|split; [vm_compute; reflexivity|reflexivity]]).
  split; [exact H|]. split; [right; eauto|]. split.
  - intros f [(fd & H1 & _)|(img & H1 & H2 & _)]; [discriminate|]. injection H1 as <-. apply magic_iff in H2. vm_compute in H2. discriminate.
  - intros f [(fd & H1 & _)|(img & H1 & H2 & _)]; discriminate.
Qed.

(** ** C39.  Missing: addresses from 2^64 on and the end of the address space in a debug
    build (refuted below), and the three structs without a size, for which 1024 bytes are
    read (next theorem). *)
Theorem C39_cast_reads_the_addressed_bytes_partial :
  forall K E vs img e w s n w1, bytes_ok img ->
  casts K E vs (Some (FsImage img)) e w s n w1 -> st_size s <> 0%Z -> (n < 2 ^ 64)%Z ->
  (* inside the image: the struct at exactly these bytes, or an error if its trailing part
     does not fit *)
  (forall bs, bytes_at img n (st_size s) bs ->
     (forall v, eval_expr K E vs (Some (FsImage img)) e w = (w1, Ok v) <->
        exists ms used rest, v = VStruct (st_name s) None ms /\ bs = used ++ rest /\ enc_item [] (st_fields s) ms used) /\
     ((forall ms used rest, bs = used ++ rest -> ~ enc_item [] (st_fields s) ms used) ->
        exists err, eval_expr K E vs (Some (FsImage img)) e w = (w1, Err err))) /\
  (* negative or not inside the image: an error *)
  ((n < 0)%Z \/ (zlen img < n + st_size s)%Z /\ (overflow_checks E = false \/ n + st_size s < 2 ^ 64)%Z ->
     exists err, eval_expr K E vs (Some (FsImage img)) e w = (w1, Err err)).
Proof.
  intros K E vs img e w s n w1 Hi Hc Hz Hn. assert (Hin : In s STRUCTS) by (destruct Hc as (a & _ & H & _); exact H).
  assert (Hcs : cast_size s = st_size s) by (unfold cast_size; rewrite (proj2 (Z.eqb_neq _ _)) by exact Hz; reflexivity).
  pose proof (cast_sizes s Hin) as Hsz. rewrite Hcs in Hsz. split.
  - intros bs Hb. assert (H0 : (0 <= n)%Z) by (destruct Hb as (pre & post & _ & <- & _); apply zlen_nonneg).
    rewrite (casts_inside _ _ _ _ _ _ _ _ _ bs Hi Hc H0); [|rewrite Hcs; lia|rewrite Hcs; exact Hb].
    assert (N1 : st_name s <> s_ "btrfs_extent_item"). { intros H. apply Hz. rewrite (in_name_size s (s_ "btrfs_extent_item") Hin H). reflexivity. }
    assert (N2 : st_name s <> s_ "btrfs_file_extent_item"). { intros H. apply Hz. rewrite (in_name_size s (s_ "btrfs_file_extent_item") Hin H). reflexivity. }
    destruct (C25_trailing_data (overflow_checks E) s None bs Hin N1 N2 (bytes_at_ok _ _ _ _ Hi Hb)) as [T1 T2]. split.
    + intros v. split.
      * intros H. injection H as H. destruct (C24_decoding_is_total (overflow_checks E) s None bs Hin (bytes_at_ok _ _ _ _ Hi Hb)) as [(ms & Hd)|(er & Hd)]; [|congruence].
        rewrite Hd in H. injection H as <-. apply T1 in Hd. destruct Hd as (used & rest & -> & He). eauto 8.
      * intros (ms & used & rest & -> & -> & He). f_equal. apply T1. eauto.
    + intros N. destruct (T2 N) as (err & ->). eauto.
  - intros [H|[H1 H2]].
    + rewrite (casts_eq _ _ _ _ _ _ _ _ _ Hc), (proj2 (Z.ltb_lt _ _)) by exact H. eauto.
    + destruct (Z.lt_ge_cases n 0) as [H|H]; [rewrite (casts_eq _ _ _ _ _ _ _ _ _ Hc), (proj2 (Z.ltb_lt _ _)) by exact H; eauto|].
      rewrite (casts_outside _ _ _ _ _ _ _ _ _ Hi Hc) by (rewrite ?Hcs; lia). rewrite Hcs.
      destruct H2 as [Ho|Ho]; [rewrite Ho; cbn [andb]; eauto|]. rewrite (proj2 (Z.leb_gt _ _)) by exact Ho. rewrite andb_false_r. eauto.
Qed.
Print Assumptions C39_cast_reads_the_addressed_bytes_partial.

(** the structs without a size of their own: the first 1024 bytes at the address are taken *)
Theorem C39_unsized_structs_read_1024_bytes_partial :
  forall K E vs img e w s n w1 bs, bytes_ok img ->
  casts K E vs (Some (FsImage img)) e w s n w1 -> st_size s = 0%Z -> bytes_at img n 1024 bs ->
  In (st_name s) [s_ "btrfs_orphan_item"; s_ "btrfs_extent_item"; s_ "btrfs_file_extent_item"] /\
  forall v, eval_expr K E vs (Some (FsImage img)) e w = (w1, Ok v) <->
    exists ms, v = VStruct (st_name s) None ms /\
      (st_name s = s_ "btrfs_orphan_item" /\ ms = [] \/
       st_name s = s_ "btrfs_extent_item" /\ enc_extent_item ms bs \/
       st_name s = s_ "btrfs_file_extent_item" /\ enc_file_extent ms bs).
Proof.
  intros K E vs img e w s n w1 bs Hi Hc Hz Hb. assert (Hin : In s STRUCTS) by (destruct Hc as (a & _ & H & _); exact H).
  pose proof (unsized s Hin Hz) as Hu. split; [exact Hu|]. intros v.
  assert (Hcs : cast_size s = 1024%Z) by (unfold cast_size; rewrite Hz; reflexivity).
  assert (H0 : (0 <= n)%Z) by (destruct Hb as (pre & post & _ & <- & _); apply zlen_nonneg).
  rewrite (casts_inside _ _ _ _ _ _ _ _ _ bs Hi Hc H0); [|rewrite Hcs; lia|rewrite Hcs; exact Hb]. pose proof (bytes_at_ok _ _ _ _ Hi Hb) as Hbs.
  assert (Hs : forall x, In x STRUCTS -> st_name s = st_name x -> s = x).
  { intros x Hx En. pose proof (in_find s Hin) as F1. pose proof (in_find x Hx) as F2. rewrite En in F1. congruence. }
  assert (I1 : In btrfs_orphan_item STRUCTS) by (unfold STRUCTS; cbn [In]; tauto).
  assert (I2 : In btrfs_extent_item STRUCTS) by (unfold STRUCTS; cbn [In]; tauto).
  assert (I3 : In btrfs_file_extent_item STRUCTS) by (unfold STRUCTS; cbn [In]; tauto).
  destruct Hu as [Hu|[Hu|[Hu|[]]]].
  - rewrite (Hs btrfs_orphan_item I1) by (rewrite <- Hu; reflexivity).
    assert (Ho : from_bytes (overflow_checks E) btrfs_orphan_item None bs = Ok (VStruct (s_ "btrfs_orphan_item") None [])).
    { destruct (C25_trailing_data (overflow_checks E) btrfs_orphan_item None bs I1 ltac:(discriminate) ltac:(discriminate) Hbs) as [T _]. apply T. exists [], bs. split; [reflexivity|constructor]. }
    rewrite Ho. split.
    + intros H. injection H as <-. exists []. split; [reflexivity|]. left. split; reflexivity.
    + intros (ms & -> & [[_ ->]|[[H _]|[H _]]]); [reflexivity|discriminate|discriminate].
  - rewrite (Hs btrfs_extent_item I2) by (rewrite <- Hu; reflexivity). destruct (C26_extent_items (overflow_checks E) None bs Hbs) as [T _]. split.
    + intros H. injection H as H. apply T in H. destruct H as (ms & -> & He). exists ms. split; [reflexivity|]. right. left. split; [reflexivity|exact He].
    + intros (ms & -> & [[H _]|[[_ He]|[H _]]]); [discriminate| |discriminate]. f_equal. apply T. exists ms. split; [reflexivity|exact He].
  - rewrite (Hs btrfs_file_extent_item I3) by (rewrite <- Hu; reflexivity). destruct (C61_file_extent_items (overflow_checks E) None bs Hbs) as [T _]. split.
    + intros H. injection H as H. apply T in H. destruct H as (ms & -> & He). exists ms. split; [reflexivity|]. right. right. split; [reflexivity|exact He].
    + intros (ms & -> & [[H _]|[[H _]|[_ He]]]); [discriminate|discriminate|]. f_equal. apply T. exists ms. split; [reflexivity|exact He].
Qed.
Print Assumptions C39_unsized_structs_read_1024_bytes_partial.

(** addresses are taken modulo 2^64 instead of being rejected *)
Theorem C39_addresses_wrap_refuted :
  forall K E vs img e w s n w1 e' n', bytes_ok img ->
  casts K E vs (Some (FsImage img)) e w s n w1 -> casts K E vs (Some (FsImage img)) e' w s n' w1 ->
  (2 ^ 64 <= n)%Z -> n' = (n mod 2 ^ 64)%Z ->
  (zlen img < n)%Z /\ eval_expr K E vs (Some (FsImage img)) e w = eval_expr K E vs (Some (FsImage img)) e' w.
Proof.
  intros K E vs img e w s n w1 e' n' [_ Hi] Hc Hc' Hn Hn'. split; [change (2 ^ 63)%Z with 9223372036854775808%Z in *; change (2 ^ 64)%Z with 18446744073709551616%Z in *; lia|].
  eapply casts_wrap; try eassumption. change (2 ^ 64)%Z with 18446744073709551616%Z in *; lia.
Qed.
Print Assumptions C39_addresses_wrap_refuted.
(** at the end of the address space a debug build panics *)
Theorem C39_end_of_address_space_refuted :
  forall K E vs img e w s n w1, bytes_ok img -> overflow_checks E = true ->
  casts K E vs (Some (FsImage img)) e w s n w1 -> st_size s <> 0%Z -> (2 ^ 64 - st_size s <= n < 2 ^ 64)%Z ->
  eval_expr K E vs (Some (FsImage img)) e w = (w1, Panic PArith).
Proof.
  intros K E vs img e w s n w1 Hi Ho Hc Hz Hn. assert (Hin : In s STRUCTS) by (destruct Hc as (a & _ & H & _); exact H).
  assert (Hcs : cast_size s = st_size s) by (unfold cast_size; rewrite (proj2 (Z.eqb_neq _ _)) by exact Hz; reflexivity). pose proof (cast_sizes s Hin) as Hsz. rewrite Hcs in Hsz.
  destruct Hi as [Hi1 Hi2]. change (2 ^ 63)%Z with 9223372036854775808%Z in *. change (2 ^ 64)%Z with 18446744073709551616%Z in *.
  rewrite (casts_outside _ _ _ _ _ _ _ _ _ (conj Hi1 Hi2) Hc) by (rewrite ?Hcs; try change (2 ^ 64)%Z with 18446744073709551616%Z; try change (2 ^ 63)%Z with 9223372036854775808%Z; lia). rewrite Hcs, Ho. cbn [andb].
  rewrite (proj2 (Z.leb_le _ _)) by (change (2 ^ 64)%Z with 18446744073709551616%Z; lia). reflexivity.
Qed.
Print Assumptions C39_end_of_address_space_refuted.

Definition cast_image : str := [9; 9; 9]%N ++ demo_key_bytes ++ [7]%N.
Definition demo_cast (n : Z) : expr := ECast (EIdent (s_ "btrfs_key")) (EInt n).
Lemma demo_casts K E f n w : casts K E [[]] f (demo_cast n) w btrfs_key n w.
Proof. exists (EInt n). split; [reflexivity|]. split; [unfold STRUCTS; cbn [In]; tauto|reflexivity]. Qed.
Example C39_example :
  bytes_ok cast_image /\ st_size btrfs_key = 17%Z /\ bytes_at cast_image 3 17 demo_key_bytes /\
  casts 1 (demo_env true) [[]] (Some (FsImage cast_image)) (demo_cast 3) w0 btrfs_key 3 w0 /\
  eval_expr 1 (demo_env true) [[]] (Some (FsImage cast_image)) (demo_cast 3) w0 = (w0, Ok (VStruct (s_ "btrfs_key") None demo_key_members)) /\
  eval_expr 1 (demo_env true) [[]] (Some (FsImage cast_image)) (demo_cast 5) w0 = (w0, Err (EGetBytes (zlen cast_image))) /\
  eval_expr 1 (demo_env true) [[]] (Some (FsImage cast_image)) (demo_cast (2 ^ 64 + 3)) w0 = (w0, Ok (VStruct (s_ "btrfs_key") None demo_key_members)) /\
  eval_expr 1 (demo_env true) [[]] (Some (FsImage cast_image)) (demo_cast (2 ^ 64 - 17)) w0 = (w0, Panic PArith).
Proof.
  split; [split; [unfold cast_image, demo_key_bytes; cbn [app]; repeat constructor|reflexivity]|]. split; [reflexivity|].
  split; [exists [9; 9; 9]%N, [7]%N; repeat split; reflexivity|]. split; [apply demo_casts|]. repeat split; vm_compute; reflexivity.
Qed.

(** ** C40 *)
(** Without a mounted filesystem no expression ever asks the kernel (or writes anything). *)
Theorem C40_no_kernel_access_without_a_mounted_filesystem :
  forall K E vs f e w w' r, (forall fd, f <> Some (FsMounted fd)) ->
  eval_expr K E vs f e w = (w', r) -> w' = w.
Proof. intros K E vs f e w w' r Hf H. exact (eval_quiet K E vs f Hf e _ _ _ H). Qed.
Print Assumptions C40_no_kernel_access_without_a_mounted_filesystem.
(** search() on an image or without a filesystem is an error, whatever the arguments and
    whatever the image contains *)
Theorem C40_search_needs_a_mounted_filesystem :
  forall K E vs f e a b w v1 v2 wf w1 w2,
  (forall fd, f <> Some (FsMounted fd)) ->
  eval_expr K E vs f e w = (wf, Ok (VFun FSearch)) ->
  eval_expr K E vs f a wf = (w1, Ok v1) -> eval_expr K E vs f b w1 = (w2, Ok v2) ->
  exists err, eval_expr K E vs f (ECall e [a; b]) w = (w, Err err).
Proof.
  intros K E vs f e a b w v1 v2 wf w1 w2 Hf He Ha Hb. pose proof (eval_quiet K E vs f Hf) as Q.
  assert (wf = w) by exact (Q _ _ _ _ He). subst wf. assert (w1 = w) by exact (Q _ _ _ _ Ha). subst w1. assert (w2 = w) by exact (Q _ _ _ _ Hb). subst w2.
  cbn [eval_expr]. unfold mbind at 1. rewrite He. rewrite mbind_mret_ok || cbn [as_function]. unfold mbind at 1, mret at 1. cbn [as_function]. unfold mbind at 1. rewrite Ha. unfold mbind at 1, mret at 1.
  destruct v1; cbn [as_integer]; eauto. unfold mbind at 1. rewrite Hb. destruct (search_quiet K E f z v2 Hf) as [_ H]. apply H.
Qed.
Print Assumptions C40_search_needs_a_mounted_filesystem.
(** a cast with no filesystem selected is an error *)
Theorem C40_cast_needs_a_filesystem :
  forall K E vs e w s n w1, casts K E vs None e w s n w1 -> exists err, eval_expr K E vs None e w = (w1, Err err).
Proof. intros K E vs e w s n w1 Hc. rewrite (casts_eq _ _ _ _ _ _ _ _ _ Hc). destruct (n <? 0)%Z; eauto. Qed.
Print Assumptions C40_cast_needs_a_filesystem.
(** and on a mounted filesystem too, up to the panic below.  [w1] is the state after the
    operand: the cast itself does nothing. *)
Theorem C40_cast_needs_an_image_partial :
  forall K E vs fd e w s n w1, casts K E vs (Some (FsMounted fd)) e w s n w1 ->
  overflow_checks E = false \/ (n mod 2 ^ 64 < 2 ^ 64 - 1024)%Z ->
  exists err, eval_expr K E vs (Some (FsMounted fd)) e w = (w1, Err err).
Proof.
  intros K E vs fd e w s n w1 Hc Ho. rewrite (casts_eq _ _ _ _ _ _ _ _ _ Hc). destruct (n <? 0)%Z; [eauto|].
  assert (Hin : In s STRUCTS) by (destruct Hc as (a & _ & H & _); exact H). pose proof (cast_sizes s Hin) as Hsz.
  unfold usize_add. destruct (Z.ltb_spec (n mod 2 ^ 64 + cast_size s) (2 ^ 64)) as [H|H]; [cbn; eauto|].
  destruct Ho as [->|Ho]; [cbn; eauto|]. change (2 ^ 64)%Z with 18446744073709551616%Z in *. lia.
Qed.
Print Assumptions C40_cast_needs_an_image_partial.
Theorem C40_cast_on_mounted_can_panic_refuted :
  forall K E vs fd e w s n w1, casts K E vs (Some (FsMounted fd)) e w s n w1 -> overflow_checks E = true ->
  st_size s <> 0%Z -> (2 ^ 64 - st_size s <= n < 2 ^ 64)%Z ->
  eval_expr K E vs (Some (FsMounted fd)) e w = (w1, Panic PArith).
Proof.
  intros K E vs fd e w s n w1 Hc Ho Hz Hn. rewrite (casts_eq _ _ _ _ _ _ _ _ _ Hc).
  assert (Hin : In s STRUCTS) by (destruct Hc as (a & _ & H & _); exact H). pose proof (cast_sizes s Hin) as Hsz.
  assert (Hcs : cast_size s = st_size s) by (unfold cast_size; rewrite (proj2 (Z.eqb_neq _ _)) by exact Hz; reflexivity). rewrite Hcs in *.
  change (2 ^ 64)%Z with 18446744073709551616%Z in *. rewrite (proj2 (Z.ltb_ge _ _)) by lia. rewrite Z.mod_small by lia. unfold usize_add. change (2 ^ 64)%Z with 18446744073709551616%Z.
  rewrite (proj2 (Z.ltb_ge _ _)) by lia. rewrite Ho. reflexivity.
Qed.
Print Assumptions C40_cast_on_mounted_can_panic_refuted.
Definition demo_search_call : expr := ECall (EIdent (s_ "search")) [EInt 1; ECall (EIdent (s_ "key")) [EInt 1; EInt 2; EInt 3; EInt 4]].
Example C40_example :
  (forall fd, Some (FsImage cast_image) <> Some (FsMounted fd)) /\
  eval_expr 3 (demo_env true) (vars_new VInt VFun) (Some (FsImage cast_image)) demo_search_call w0 = (w0, Err EUnmountedSearch) /\
  eval_expr 3 (demo_env true) (vars_new VInt VFun) None demo_search_call w0 = (w0, Err ENoFilesystem) /\
  casts 1 (demo_env true) [[]] (Some (FsMounted 3)) (demo_cast 3) w0 btrfs_key 3 w0 /\
  eval_expr 1 (demo_env true) [[]] (Some (FsMounted 3)) (demo_cast 3) w0 = (w0, Err EMountedCast) /\
  eval_expr 1 (demo_env true) [[]] None (demo_cast 3) w0 = (w0, Err ENoFilesystem) /\
  eval_expr 1 (demo_env true) [[]] (Some (FsMounted 3)) (demo_cast (2 ^ 64 - 1)) w0 = (w0, Panic PArith).
Proof. split; [discriminate|]. split; [vm_compute; reflexivity|]. split; [vm_compute; reflexivity|]. split; [apply demo_casts|]. repeat split; vm_compute; reflexivity. Qed.
