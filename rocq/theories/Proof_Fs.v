(** Selecting filesystems, casts: fs.rs:102-160,288-298, eval.rs:264-309,501-514. *)
From Verif Require Import Base Ast Structs Definitions Value Variables Fs Eval Lib Spec_Run Proof_Run Spec_Decode Proof_Decode Proof_Decode2 Spec_Search Proof_Search2 Spec_Fs.
From Coq Require Import Lia.
Arguments s_ s%string_scope.

Lemma get_range_some {A} (l : list A) a n r : (0 <= a)%Z -> (0 <= n)%Z ->
  (get_range l a (a + n) = Some r <-> exists pre post, l = pre ++ r ++ post /\ zlen pre = a /\ zlen r = n).
Proof.
  intros Ha Hn. unfold get_range. split.
  - destruct (Z.leb_spec a (a + n)), (Z.leb_spec (a + n) (zlen l)); cbn [andb]; intros H1; try discriminate. injection H1 as <-.
    replace (a + n - a)%Z with n by lia. unfold zlen in *.
    exists (firstn (Z.to_nat a) l), (skipn (Z.to_nat n) (skipn (Z.to_nat a) l)). split; [rewrite !firstn_skipn; reflexivity|].
    split; [rewrite firstn_length; lia|]. rewrite firstn_length, skipn_length. lia.
  - intros (pre & post & -> & Hp & Hr). rewrite !zlen_app. pose proof (zlen_nonneg post). rewrite (proj2 (Z.leb_le _ _)), (proj2 (Z.leb_le _ _)) by lia. cbn [andb]. f_equal.
    replace (a + n - a)%Z with n by lia. unfold zlen in *. rewrite skipn_app_exact by lia. apply firstn_app_exact. lia.
Qed.
Lemma get_range_none {A} (l : list A) a n : (0 <= n)%Z -> (get_range l a (a + n) = None <-> (zlen l < a + n)%Z).
Proof. intros Hn. unfold get_range. destruct (Z.leb_spec a (a + n)), (Z.leb_spec (a + n) (zlen l)); cbn [andb]; split; intros; try lia; try discriminate; reflexivity. Qed.

Lemma magic_iff img : has_superblock_magic img = true <-> carries_magic img.
Proof.
  unfold has_superblock_magic, carries_magic. rewrite existsb_exists. change BTRFS_SUPERBLOCK_MAGIC with (s_ "_BHRfS_M"). split.
  - intros (loc & Hl & H). destruct (get_range img loc (loc + 8)) as [m|] eqn:G; [|discriminate]. apply str_eqb_eq in H. subst m.
    assert (Hloc : exists sb, In sb superblocks /\ loc = (sb + 64)%Z) by (cbn in Hl; destruct Hl as [<-|[<-|[<-|[]]]]; eexists; (split; [|symmetry; apply Z.sub_add]); cbn; tauto).
    destruct Hloc as (sb & Hsb & ->). exists sb. apply get_range_some in G; [|cbn in Hsb; lia|lia]. destruct G as (pre & post & -> & Hp & _). exists pre, post. auto.
  - intros (sb & pre & post & Hsb & Hp & ->). exists (sb + 64)%Z. split; [cbn in Hsb; cbn; lia|].
    assert (0 <= sb + 64)%Z by (cbn in Hsb; lia).
    destruct (get_range_some (pre ++ s_ "_BHRfS_M" ++ post) (sb + 64) 8 (s_ "_BHRfS_M") H ltac:(lia)) as [_ G].
    rewrite G by (exists pre, post; auto). apply str_eqb_refl.
Qed.
Lemma fs_new_iff E path w : fst (fs_new E path w) = log_event w (EvOpen path) /\
  (forall f, snd (fs_new E path w) = Ok f <-> accepted (open_path E (tick w) path) f) /\
  ((forall f, ~ accepted (open_path E (tick w) path) f) -> snd (fs_new E path w) = Err (EOpen (refusal path (open_path E (tick w) path)))).
Proof.
  unfold fs_new, accepted. cbn [fst snd]. split; [reflexivity|]. destruct (open_path E (tick w) path) as [fd [t|]|[img|]|]; cbn [ok_or bind].
  - unfold ensure. change BTRFS_FSTYPE with btrfs_type. destruct (Z.eqb_spec t btrfs_type) as [->|Hn]; cbn [bind].
    + split; [|intros H; elim (H (FsMounted fd)); left; eauto]. intros f. split; [intros H; injection H as <-; left; eauto|]. intros [(fd' & H & ->)|(img & H & _)]; [injection H as ->; reflexivity|discriminate].
    + split; [|reflexivity]. intros f. split; [discriminate|]. intros [(fd' & H & ->)|(img & H & _)]; [injection H as -> ->; congruence|discriminate].
  - split; [|reflexivity]. intros f. split; [discriminate|]. intros [(fd' & H & ->)|(img & H & _)]; discriminate.
  - unfold ensure. pose proof (magic_iff img) as M. destruct (has_superblock_magic img); cbn [bind].
    + split; [|intros H; elim (H (FsImage img)); right; exists img; tauto]. intros f. split; [intros H; injection H as <-; right; exists img; tauto|].
      intros [(fd' & H & _)|(img' & H & _ & ->)]; [discriminate|injection H as ->; reflexivity].
    + split; [|reflexivity]. intros f. split; [discriminate|]. intros [(fd' & H & _)|(img' & H & Hm & ->)]; [discriminate|]. injection H as <-. apply M in Hm. discriminate.
  - split; [|reflexivity]. intros f. split; [discriminate|]. intros [(fd' & H & ->)|(img & H & _)]; discriminate.
  - split; [|reflexivity]. intros f. split; [discriminate|]. intros [(fd' & H & ->)|(img & H & _)]; discriminate.
Qed.

(** ** The filesystem command *)
Lemma escape_plain ws s : Forall plain s -> escape ws s = s.
Proof.
  induction 1 as [|c s (Hr & H1 & H2 & H3) _ IH]; [reflexivity|]. unfold escape in *. cbn [flat_map]. rewrite IH.
  destruct (negb ws && is_ascii_ws c); [reflexivity|]. unfold escape_byte.
  destruct (N.eqb_spec c 9); [lia|]. destruct (N.eqb_spec c 13); [lia|]. destruct (N.eqb_spec c 10); [lia|]. destruct (N.eqb_spec c 39); [lia|].
  destruct (N.eqb_spec c 34); [lia|]. destruct (N.eqb_spec c 92); [lia|]. destruct (N.leb_spec 32 c), (N.leb_spec c 126); try lia. reflexivity.
Qed.
Lemma escape_byte_length c : (length (escape_byte c) = 1 <-> plain c) /\ 1 <= length (escape_byte c).
Proof.
  unfold escape_byte, plain. destruct (N.eqb_spec c 9); [cbn [length andb]; lia|]. destruct (N.eqb_spec c 13); [cbn [length andb]; lia|]. destruct (N.eqb_spec c 10); [cbn [length andb]; lia|]. destruct (N.eqb_spec c 39); [cbn [length andb]; lia|].
  destruct (N.eqb_spec c 34); [cbn [length andb]; lia|]. destruct (N.eqb_spec c 92); [cbn [length andb]; lia|]. destruct (N.leb_spec 32 c), (N.leb_spec c 126); cbn [length andb]; lia.
Qed.
Lemma escape_true_cons c s : escape true (c :: s) = escape_byte c ++ escape true s.
Proof. reflexivity. Qed.
Lemma escape_length s : length s <= length (escape true s).
Proof. induction s as [|c s IH]; [cbn; lia|]. rewrite escape_true_cons, app_length. cbn [length]. destruct (escape_byte_length c). lia. Qed.
Lemma escape_id s : escape true s = s -> Forall plain s.
Proof.
  intros H. apply (f_equal (@length N)) in H. induction s as [|c s IH]; [constructor|]. rewrite escape_true_cons, app_length in H. cbn [length] in H.
  destruct (escape_byte_length c) as [H1 H2]. pose proof (escape_length s) as H3. constructor; [apply H1; lia|apply IH; lia].
Qed.
Lemma runs_filesystem E inter s e w v s' r : evals E s e w (Ok v) ->
  (runs E inter s (SFilesystem e) s' r <->
   match as_string true v with
   | Ok path => let w' := log_event w (EvOpen path) in
                (exists f, accepted (open_path E (tick w) path) f /\ s' = mk_est (e_vars s) (Some f) w' /\ r = IOk) \/
                ((forall f, ~ accepted (open_path E (tick w) path) f) /\ s' = with_w s w' /\ r = IErr (EOpen (refusal path (open_path E (tick w) path))))
   | _ => s' = with_w s w /\ r = IErr (expected "string" v)
   end).
Proof.
  intros (_ & k0 & He). unfold runs.
  assert (G : forall n w1 r1, eval_expr n E (e_vars s) (e_fs s) e (e_w s) = (w1, r1) -> r1 <> Fuel -> w1 = w /\ r1 = Ok v).
  { intros n w1 r1 H1 Hf. pose proof (expr_up _ _ _ _ _ _ (Nat.max k0 n) _ _ H1 Hf ltac:(lia)) as H1'.
    pose proof (expr_up _ _ _ _ _ _ (Nat.max k0 n) _ _ He ltac:(discriminate) ltac:(lia)) as H0'. rewrite H0' in H1'. injection H1' as <- <-. auto. }
  assert (Step : forall n, eval_expr n E (e_vars s) (e_fs s) e (e_w s) = (w, Ok v) ->
    eval_stmt (S n) E inter s (SFilesystem e) =
      match as_string true v with
      | Ok path => let '(w', r) := fs_new E path w in match r with Ok f => (mk_est (e_vars s) (Some f) w', IOk) | _ => (with_w s w', ires_of r) end
      | r => (with_w s w, ires_of r) end).
  { intros n Hn. cbn [eval_stmt]. unfold with_expr. rewrite Hn. destruct (as_string true v); reflexivity. }
  assert (R : (r <> IFuel /\ exists n, eval_stmt n E inter s (SFilesystem e) = (s', r)) <->
    r <> IFuel /\ match as_string true v with
      | Ok path => let '(w', r) := fs_new E path w in match r with Ok f => (mk_est (e_vars s) (Some f) w', IOk) | _ => (with_w s w', ires_of r) end
      | r => (with_w s w, ires_of r) end = (s', r)).
  { split.
    - intros (Hr & n & Hn). split; [exact Hr|]. destruct n as [|n]; [cbn in Hn; congruence|].
      destruct (eval_expr n E (e_vars s) (e_fs s) e (e_w s)) as [w1 r1] eqn:H1. assert (Hf : r1 <> Fuel). { intros ->. cbn [eval_stmt] in Hn. unfold with_expr in Hn. rewrite H1 in Hn. cbn in Hn. congruence. }
      destruct (G _ _ _ H1 Hf) as [-> ->]. rewrite <- Step with (n := n); assumption.
    - intros [Hr H]. split; [exact Hr|]. exists (S k0). rewrite Step; assumption. }
  rewrite R. clear R G Step He. destruct v as [z|s0|b|vec h|g|nm ky fl]; cbn [as_string]; try (cbn [ires_of]; split; [intros [_ H]; injection H as <- <-; auto|intros [-> ->]; split; [discriminate|reflexivity]]).
  cbv zeta. destruct (fs_new_iff E (escape true s0) w) as (H1 & H2 & H3). destruct (fs_new E (escape true s0) w) as [w' q]. cbn [fst snd] in *. subst w'. split.
  - intros [Hr H]. destruct q as [f|er| |].
    + injection H as <- <-. left. exists f. split; [apply H2; reflexivity|auto].
    + right. assert (N : forall f, ~ accepted (open_path E (tick w) (escape true s0)) f) by (intros f Hf; apply H2 in Hf; discriminate). specialize (H3 N). injection H3 as ->. injection H as <- <-. auto.
    + assert (N : forall f, ~ accepted (open_path E (tick w) (escape true s0)) f) by (intros f Hf; apply H2 in Hf; discriminate). specialize (H3 N). discriminate.
    + assert (N : forall f, ~ accepted (open_path E (tick w) (escape true s0)) f) by (intros f Hf; apply H2 in Hf; discriminate). specialize (H3 N). discriminate.
  - intros [(f & Hf & -> & ->)|(Hn & -> & ->)].
    + apply H2 in Hf. subst q. split; [discriminate|reflexivity].
    + rewrite (H3 Hn). split; [discriminate|reflexivity].
Qed.

(** ** Expressions without a mounted filesystem never touch the kernel *)
Definition quiet {A} (m : M A) : Prop := forall w w' r, m w = (w', r) -> w' = w.
Lemma quiet_ret {A} (r : res A) : quiet (mret r).
Proof. intros w w' r' H. injection H as <- <-. reflexivity. Qed.
Lemma quiet_bind {A B} (m : M A) (g : A -> M B) : quiet m -> (forall a, quiet (g a)) -> quiet (mbind m g).
Proof.
  intros Hm Hg w w' r H. unfold mbind in H. destruct (m w) as [w1 [a|e|p|]] eqn:H1; apply Hm in H1; subst w1; try (injection H as <- <-; reflexivity). exact (Hg a _ _ _ H).
Qed.
Lemma search_quiet K E f tree key : (forall fd, f <> Some (FsMounted fd)) -> quiet (eval_search K E f tree key) /\ forall w, exists err, eval_search K E f tree key w = (w, Err err).
Proof.
  intros Hf. assert (H : forall w, exists err, eval_search K E f tree key w = (w, Err err)).
  { intros w. unfold eval_search, mbind, mret. destruct key; cbn [as_struct]; eauto. unfold ensure. destruct (str_eqb _ _); eauto.
    destruct f as [[fd|img]|]; [elim (Hf fd); reflexivity| |eauto]. destruct (search_args_err tree fields) as [(k & Hk)|(err & He & _)].
    - rewrite Hk. cbn. eauto.
    - rewrite He. eauto. }
  split; [|exact H]. intros w w' r E1. destruct (H w) as (err & E2). congruence.
Qed.
Lemma eval_quiet K E vs f : (forall fd, f <> Some (FsMounted fd)) -> forall e, quiet (eval_expr K E vs f e).
Proof.
  intros Hf. fix IH 1. intros e. destruct e as [x|z|b|s|e|e fld|e i|fe args|op l r|op e|t e]; cbn [eval_expr]; try apply quiet_ret.
  - apply IH.
  - apply quiet_bind; [apply IH|intros v]. apply quiet_bind; [apply quiet_ret|intros [[nm ky] fl]]. destruct fld; apply quiet_ret.
  - repeat (first [apply quiet_ret|apply quiet_bind; [first [apply IH|apply quiet_ret]|intros ?]]).
  - apply quiet_bind; [apply IH|intros fv]. apply quiet_bind; [apply quiet_ret|intros fn].
    destruct fn; repeat match goal with |- quiet match ?l with [] => _ | _ => _ end => destruct l end; try apply quiet_ret;
    repeat (first [apply quiet_ret|apply (proj1 (search_quiet K E f _ _ Hf))|apply quiet_bind; [first [apply IH|apply quiet_ret]|intros ?]]).
    destruct a0 as [[nm ky] fl]. destruct ky as [[[? ?] ?]|]; apply quiet_ret.
  - destruct op; repeat (first [apply quiet_ret|apply quiet_bind; [first [apply IH|apply quiet_ret]|intros ?]]);
    match goal with |- context [if ?x then _ else _] => destruct x end;
    repeat (first [apply quiet_ret|apply quiet_bind; [first [apply IH|apply quiet_ret]|intros ?]]).
  - apply quiet_bind; [apply IH|intros v; apply quiet_ret].
  - apply quiet_bind; [apply IH|intros v]. apply quiet_bind; [apply quiet_ret|intros z]. destruct (z <? 0)%Z; apply quiet_ret.
Qed.

(** ** Casts *)
Lemma in_find s : In s STRUCTS -> find (fun x => str_eqb (st_name x) (st_name s)) STRUCTS = Some s.
Proof.
  pose proof shipped_names as ND. revert ND. generalize STRUCTS as l. induction l as [|x l IH]; intros ND Hin; [destruct Hin|]. cbn [find]. inversion ND as [|y ys H1 H2]; subst.
  destruct (str_eqb (st_name x) (st_name s)) eqn:Hx.
  - apply str_eqb_eq in Hx. destruct Hin as [->|Hin]; [reflexivity|]. elim H1. rewrite Hx. apply in_map. exact Hin.
  - destruct Hin as [->|Hin]; [rewrite str_eqb_refl in Hx; discriminate|]. apply IH; assumption.
Qed.
Definition cast_size (s : strct) : Z := if (st_size s =? 0)%Z then 1024%Z else st_size s.
Lemma casts_eq K E vs f e w s n w1 : casts K E vs f e w s n w1 ->
  eval_expr K E vs f e w = (w1, if (n <? 0)%Z then Err (ENegativeBytenr n) else
    match f with
    | Some f => let* stop := usize_add (overflow_checks E) (n mod 2 ^ 64) (cast_size s) in
                let* b := get_bytes f (n mod 2 ^ 64) stop in
                from_bytes (overflow_checks E) s None b
    | None => Err ENoFilesystem end).
Proof.
  intros (a & -> & Hs & Ha). cbn [eval_expr]. unfold mbind. rewrite Ha. cbn [as_integer]. unfold mret. destruct (n <? 0)%Z; [reflexivity|].
  unfold eval_cast. rewrite in_find by exact Hs. reflexivity.
Qed.
Lemma casts_inside K E vs img e w s n w1 bs : bytes_ok img -> casts K E vs (Some (FsImage img)) e w s n w1 -> (0 <= n)%Z -> (0 <= cast_size s)%Z ->
  bytes_at img n (cast_size s) bs -> eval_expr K E vs (Some (FsImage img)) e w = (w1, from_bytes (overflow_checks E) s None bs).
Proof.
  intros [_ Hi] Hc Hn Hs Hb. rewrite (casts_eq _ _ _ _ _ _ _ _ _ Hc). rewrite (proj2 (Z.ltb_ge n 0)) by exact Hn.
  pose proof Hb as (pre & post & E1 & E2 & E3). assert (Hl : (n + cast_size s <= zlen img)%Z) by (rewrite E1, !zlen_app; pose proof (zlen_nonneg post); lia).
  change (2 ^ 63)%Z with 9223372036854775808%Z in Hi. rewrite Z.mod_small by (change (2 ^ 64)%Z with 18446744073709551616%Z; lia).
  unfold usize_add. rewrite (proj2 (Z.ltb_lt _ _)) by (change (2 ^ 64)%Z with 18446744073709551616%Z; lia). cbn [bind get_bytes].
  rewrite (proj2 (get_range_some img n (cast_size s) bs Hn Hs)) by exact Hb. reflexivity.
Qed.
Lemma casts_outside K E vs img e w s n w1 : bytes_ok img -> casts K E vs (Some (FsImage img)) e w s n w1 -> (0 <= n < 2 ^ 64)%Z -> (0 <= cast_size s < 2 ^ 63)%Z ->
  (zlen img < n + cast_size s)%Z ->
  eval_expr K E vs (Some (FsImage img)) e w = (w1, if overflow_checks E && (2 ^ 64 <=? n + cast_size s)%Z then Panic PArith else Err (EGetBytes (zlen img))).
Proof.
  intros [_ Hi] Hc Hn Hs Hl. rewrite (casts_eq _ _ _ _ _ _ _ _ _ Hc). rewrite (proj2 (Z.ltb_ge n 0)) by lia. rewrite Z.mod_small by lia. unfold usize_add.
  destruct (Z.ltb_spec (n + cast_size s) (2 ^ 64)) as [H|H].
  - rewrite (proj2 (Z.leb_gt _ _)) by exact H. rewrite andb_false_r. cbn [bind get_bytes]. rewrite (proj2 (get_range_none img n (cast_size s) ltac:(lia))) by exact Hl. reflexivity.
  - rewrite (proj2 (Z.leb_le _ _)) by exact H. rewrite andb_true_r. destruct (overflow_checks E); [reflexivity|]. cbn [bind get_bytes].
    assert (Hm : ((n + cast_size s) mod 2 ^ 64 = n + cast_size s - 2 ^ 64)%Z).
    { symmetry. apply (Z.mod_unique _ _ 1); [|lia]. left. change (2 ^ 64)%Z with 18446744073709551616%Z in *. change (2 ^ 63)%Z with 9223372036854775808%Z in *. lia. }
    rewrite Hm. unfold get_range. rewrite (proj2 (Z.leb_gt n _)) by (change (2 ^ 64)%Z with 18446744073709551616%Z in *; change (2 ^ 63)%Z with 9223372036854775808%Z in *; lia). reflexivity.
Qed.
Lemma casts_wrap K E vs f e w s n w1 : casts K E vs f e w s n w1 -> (0 <= n)%Z ->
  forall e' n', casts K E vs f e' w s n' w1 -> n' = (n mod 2 ^ 64)%Z -> eval_expr K E vs f e w = eval_expr K E vs f e' w.
Proof.
  intros H Hn e' n' H' ->. rewrite (casts_eq _ _ _ _ _ _ _ _ _ H), (casts_eq _ _ _ _ _ _ _ _ _ H'). rewrite (proj2 (Z.ltb_ge n 0)) by exact Hn.
  pose proof (Z.mod_pos_bound n (2 ^ 64) ltac:(reflexivity)). rewrite (proj2 (Z.ltb_ge (n mod 2 ^ 64) 0)) by lia. rewrite Z.mod_mod by discriminate. reflexivity.
Qed.
Lemma bytes_at_slice img n z : (0 <= n)%Z -> (0 <= z)%Z -> (n + z <= zlen img)%Z -> exists bs, bytes_at img n z bs.
Proof.
  intros Hn Hz Hl. destruct (get_range img n (n + z)) as [bs|] eqn:G; [|apply get_range_none in G; lia]. exists bs. apply get_range_some in G; assumption.
Qed.
Lemma bytes_at_fun img n z bs bs' : bytes_at img n z bs -> bytes_at img n z bs' -> bs = bs'.
Proof.
  intros H H'. assert (0 <= n /\ 0 <= z)%Z as [Hn Hz] by (destruct H as (pre & post & _ & <- & <-); split; apply zlen_nonneg).
  pose proof (proj2 (get_range_some img n z bs Hn Hz) H) as G. pose proof (proj2 (get_range_some img n z bs' Hn Hz) H') as G'. congruence.
Qed.
Lemma bytes_at_ok img n z bs : bytes_ok img -> bytes_at img n z bs -> bytes_ok bs.
Proof.
  intros [H1 H2] (pre & post & -> & _ & _). rewrite !Forall_app in H1. split; [tauto|]. rewrite !zlen_app in H2. pose proof (zlen_nonneg pre). pose proof (zlen_nonneg post). lia.
Qed.
Lemma cast_sizes s : In s STRUCTS -> (0 < cast_size s <= 1024)%Z.
Proof.
  intros H. assert (G : forallb (fun s => (0 <? cast_size s) && (cast_size s <=? 1024))%Z STRUCTS = true) by (vm_compute; reflexivity).
  rewrite forallb_forall in G. specialize (G s H). lia.
Qed.
Lemma in_name_size s nm : In s STRUCTS -> st_name s = nm -> st_size s = match find (fun x => str_eqb (st_name x) nm) STRUCTS with Some x => st_size x | None => 0%Z end.
Proof. intros H <-. rewrite in_find by exact H. reflexivity. Qed.
Lemma unsized s : In s STRUCTS -> st_size s = 0%Z -> In (st_name s) [s_ "btrfs_orphan_item"; s_ "btrfs_extent_item"; s_ "btrfs_file_extent_item"].
Proof.
  intros H Hz. assert (G : forallb (fun s => negb (st_size s =? 0)%Z || existsb (str_eqb (st_name s)) [s_ "btrfs_orphan_item"; s_ "btrfs_extent_item"; s_ "btrfs_file_extent_item"]) STRUCTS = true) by (vm_compute; reflexivity).
  rewrite forallb_forall in G. specialize (G s H). rewrite Hz in G. cbn [Z.eqb negb orb] in G. apply existsb_exists in G. destruct G as (x & Hx & E). apply str_eqb_eq in E. rewrite E. exact Hx.
Qed.
