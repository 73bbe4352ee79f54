(** C84: an error report says what went wrong.  Spec_Errors gives, for every expression and
    statement, the first thing that goes wrong in the order of evaluation and the text for it. *)
From Verif Require Import Base Ast Pom Parse Structs Definitions Value Variables Semantics Fs Eval Runtime Errors Lib Demo Spec_Vars Spec_Search Spec_Fs Spec_Run Spec_Lang Spec_Exec
  Spec_Errors Proof_Run Proof_Search2 Proof_Lang Proof_Exec Proof_Fs Proof_Hist Proof_Errors Proof_Errors2.
Require Import Lia ZArith.
Import Spec_Search.
Arguments s_ s%string_scope.

(** An expression ends with an error of this text, after these interactions, exactly when the
    rules report it. *)
Theorem C84_expressions :
  forall E s e w m, (exists er, evals E s e w (Err er) /\ message er = m) <-> reports E (e_vars s) (e_fs s) e (e_w s) w m.
Proof. exact evals_reports. Qed.
Print Assumptions C84_expressions.

(** So does a statement, with the state it leaves. *)
Theorem C84_statements :
  forall E inter s st s' m, (exists er, runs E inter s st s' (IErr er) /\ message er = m) <-> fails E inter s st s' m.
Proof. exact stmt_fails_iff. Qed.
Print Assumptions C84_statements.

(** So does a sequence of statements: the error is that of the first one that fails. *)
Theorem C84_sequences :
  forall E inter s l s' m, (exists er, runs_list E inter s l s' (IErr er) /\ message er = m) <-> fails_list E inter s l s' m.
Proof. exact list_fails_iff. Qed.
Print Assumptions C84_sequences.

(** There is at most one report. *)
Theorem C84_one_report :
  forall E vs f e w w1 w2 m1 m2, reports E vs f e w w1 m1 -> reports E vs f e w w2 m2 -> w1 = w2 /\ m1 = m2.
Proof. exact reports_fun. Qed.
Print Assumptions C84_one_report.

(** Casts: no filesystem, a mounted one, and an image that ends before the struct. *)
Definition no_filesystem_text : text := Some (s_ "No filesystem set, set a filesystem first with 'filesystem ""/path""'").
Definition read_size (s : strct) : Z := if (st_size s =? 0)%Z then 1024%Z else st_size s.
Theorem C84_casts :
  forall E vs f s e w w' z, In s STRUCTS -> gives E vs f e w w' (Some (VInt z)) -> (0 <= z)%Z -> (z + read_size s < 2 ^ 64)%Z ->
  let report := reports E vs f (ECast (EIdent (st_name s)) e) w w' in
  match f with
  | None => report no_filesystem_text
  | Some (FsMounted _) => report (Some (s_ "Cannot reinterpret bytes from mounted image"))
  | Some (FsImage img) => (zlen img < z + read_size s)%Z -> report (Some (s_ "Index out of range, max length is " ++ dec_Z (zlen img)))
  end.
Proof.
  intros E vs f s e w w' z Hs Hg H0 Hz. cbv zeta. assert (Hsz : (0 <= read_size s)%Z).
  { unfold read_size. destruct (Z.eqb_spec (st_size s) 0); [lia|]. pose proof (cast_sizes s Hs) as Hc. unfold cast_size in Hc. rewrite (proj2 (Z.eqb_neq _ _)) in Hc by assumption. lia. }
  assert (Hcast : eval_cast E f (EIdent (st_name s)) (z mod 2 ^ 64) = match f with
     | Some f => let* b := get_bytes f z (z + read_size s) in from_bytes (overflow_checks E) s None b | None => Err ENoFilesystem end).
  { unfold eval_cast. rewrite in_find by exact Hs. cbn [unwrap bind]. destruct f; [|reflexivity]. rewrite Z.mod_small by lia. fold (read_size s). unfold usize_add.
    rewrite (proj2 (Z.ltb_lt _ _)) by exact Hz. reflexivity. }
  assert (Hr : forall er, eval_cast E f (EIdent (st_name s)) (z mod 2 ^ 64) = Err er -> reports E vs f (ECast (EIdent (st_name s)) e) w w' (message er)).
  { intros er He. eapply re_op; [reflexivity| |apply cp_cast; [exact H0|exact He]]. econstructor; [exact Hg|constructor|constructor]. }
  destruct f as [[fd|img]|].
  - apply (Hr EMountedCast). rewrite Hcast. reflexivity.
  - intros Hl. apply (Hr (EGetBytes (zlen img))). rewrite Hcast. unfold get_bytes, get_range. rewrite (proj2 (Z.leb_gt (z + read_size s) (zlen img))) by exact Hl. rewrite andb_false_r. reflexivity.
  - apply (Hr ENoFilesystem). rewrite Hcast. reflexivity.
Qed.
Print Assumptions C84_casts.

(** Searches: a struct that is not a key, no filesystem, a tree number out of range, a key
    with a member that is not an integer or does not fit, and an image. *)
Theorem C84_searches :
  forall E vs f fe a b w w1 w2 w' tree nm key ms,
  gives E vs f fe w w1 (Some (VFun FSearch)) -> gives E vs f a w1 w2 (Some (VInt tree)) -> gives E vs f b w2 w' (Some (VStruct nm key ms)) ->
  let report := reports E vs f (ECall fe [a; b]) w w' in
  (nm <> s_ "_btrfs_ioctl_search_key" -> report (Some (s_ "Argument 2 of search() must be 'struct _btrfs_ioctl_search_key"))) /\
  (nm = s_ "_btrfs_ioctl_search_key" ->
   (f = None -> report no_filesystem_text) /\
   (f <> None -> ~ (0 <= tree < 2 ^ 64)%Z -> report conversion_text) /\
   (forall img k, f = Some (FsImage img) -> requested tree ms k -> report (Some (s_ "Cannot search() an unmounted filesystem")))).
Proof.
  intros E vs f fe a b w w1 w2 w' tree nm key ms G1 G2 G3. cbv zeta.
  assert (Hr : forall er, eval_search 0 E f tree (VStruct nm key ms) w' = (w', Err er) -> reports E vs f (ECall fe [a; b]) w w' (message er)).
  { intros er He. eapply re_call; [exact G1|reflexivity| |eapply cc_search; exact He]. econstructor; [exact G2|constructor|]. econstructor; [exact G3|constructor|constructor]. }
  split.
  - intros Hn. apply (Hr ESearchKeyType). unfold eval_search, mbind, mret. cbn [as_struct]. change (st_name btrfs_ioctl_search_key) with (s_ "_btrfs_ioctl_search_key").
    destruct (str_eqb nm (s_ "_btrfs_ioctl_search_key")) eqn:He; [apply str_eqb_eq in He; contradiction|]. reflexivity.
  - intros ->. split; [|split].
    + intros ->. apply (Hr ENoFilesystem). reflexivity.
    + intros Hf Ht. apply (Hr ETryFromInt). destruct f as [f|]; [|contradiction]. rewrite (eval_search_struct _ _ _ _ _ ms) by (exists key; reflexivity). unfold mbind, mret.
      unfold search_args, try_into_u. destruct (Z.leb_spec 0 tree); destruct (Z.ltb_spec tree (2 ^ 64)); try (exfalso; apply Ht; lia); reflexivity.
    + intros img k -> Hk. apply (Hr EUnmountedSearch). rewrite (eval_search_struct _ _ _ _ _ ms) by (exists key; reflexivity). unfold mbind, mret.
      apply search_args_ok in Hk. rewrite Hk. reflexivity.
Qed.
Print Assumptions C84_searches.

(** Selecting a filesystem: the text names the path. *)
Definition refusal_text (path : str) (o : open_res) : text :=
  match o with
  | OpDir _ (Some _) => Some (path ++ s_ " is not a btrfs filesystem")
  | OpFile (Some _) => Some (s_ "Failed to find valid superblock magic for: " ++ path)
  | OpNone => Some (path ++ s_ " is neither a mounted nor unmounted btrfs filesystem")
  | OpDir _ None | OpFile None => None   (* statfs or mmap failed *)
  end.
Theorem C84_filesystems :
  forall E inter s path m s', let o := open_path E (tick (e_w s)) (escape true (utf8 path)) in
  fails E inter s (SFilesystem (EStr path)) s' m <->
  (forall f, ~ accepted o f) /\ m = refusal_text (escape true (utf8 path)) o /\ s' = with_w s (log_event (e_w s) (EvOpen (escape true (utf8 path)))).
Proof.
  intros E inter s path m s'. cbv zeta. destruct (fs_new_iff E (escape true (utf8 path)) (e_w s)) as (H1 & H2 & H3).
  assert (Hval : has_value E s (EStr path) (e_w s) (VStr (utf8 path))) by constructor. split.
  - intros H. inversion H; subst.
    + match goal with HH : Spec_Errors.expr_fails _ _ _ _ _ _ |- _ => apply fails_any in HH; destruct HH as (er & [_ [k HH]] & _); discriminate HH end.
    + match goal with HH : has_value _ _ _ _ _ |- _ => destruct (gives_fun _ _ _ _ _ _ _ _ _ Hval HH) as [_ [= <-]] end. match goal with HH : forall p, _ <> VStr p |- _ => elim (HH _ eq_refl) end.
    + match goal with HH : has_value _ _ _ _ _ |- _ => destruct (gives_fun _ _ _ _ _ _ _ _ _ Hval HH) as [<- [= <-]] end.
      match goal with HH : fs_new _ _ _ = _ |- _ => rewrite HH in H1, H2, H3; cbn [fst snd] in H1, H2, H3 end. subst w'.
      assert (Hn : forall f, ~ accepted (open_path E (tick (e_w s)) (escape true (utf8 path))) f) by (intros f Hf; apply H2 in Hf; discriminate).
      split; [exact Hn|]. specialize (H3 Hn). injection H3 as ->. split; [|reflexivity]. destruct (open_path E (tick (e_w s)) (escape true (utf8 path))) as [fd [t|]|[img|]|]; reflexivity.
  - intros (Hn & -> & ->). specialize (H3 Hn). destruct (fs_new E (escape true (utf8 path)) (e_w s)) as [w' r] eqn:Ef. cbn [fst snd] in *. subst w' r.
    assert (Hm : refusal_text (escape true (utf8 path)) (open_path E (tick (e_w s)) (escape true (utf8 path))) = message (EOpen (refusal (escape true (utf8 path)) (open_path E (tick (e_w s)) (escape true (utf8 path))))))
      by (destruct (open_path E (tick (e_w s)) (escape true (utf8 path))) as [fd [t|]|[img|]|]; reflexivity).
    rewrite Hm. eapply fl_open; [exact Hval|exact Ef].
Qed.
Print Assumptions C84_filesystems.

(** Printing a histogram with a value that is not an integer: the text shows the first one. *)
Theorem C84_histograms :
  forall E inter s e w zs v vs t, has_value E s e w (VArr (map VInt zs ++ v :: vs) true) -> ~ has_kind KInt v -> described v t ->
  fails E inter s (SPrint e) (with_w s w) (Some (s_ "Found invalid value " ++ quoted t ++ s_ " when printing histogram")).
Proof.
  intros E inter s e w zs v vs t Hv Hn Hd. apply described_fun in Hd. subst t.
  assert (Hh : as_hist 0 (overflow_checks E) (map VInt zs ++ v :: vs) = Err (EHistValue (short_display v))).
  { unfold as_hist. assert (Hx : hist_vals (map VInt zs ++ v :: vs) = Err (EHistValue (short_display v))).
    { clear Hv. induction zs as [|z zs IH]; cbn [map app hist_vals]; [destruct v; try reflexivity; elim Hn; apply hk_int|rewrite IH; reflexivity]. }
    rewrite Hx. destruct zs; reflexivity. }
  change (Some (s_ "Found invalid value " ++ quoted (short_display v) ++ s_ " when printing histogram")) with (message (EHistValue (short_display v))).
  eapply fl_hist; [exact Hv|exact Hh].
Qed.
Print Assumptions C84_histograms.

(** [1 - (2 + "x")]: the inner error; [a[5]] of an array of length 3; [len(1) && y]: the left
    one; a loop whose second pass divides by zero reports that *)
Definition text_of (p : rt * eres) : option text := match snd p with RErr e => Some (message e) | _ => None end.
Example C84_example :
  (exists w, reports (demo_env true) [] None (EBin OMinus (EInt 1) (EParen (EBin OPlus (EInt 2) (EStr (s_ "x"))))) w0 w (Some (s_ "Cannot add types 'integer' and 'string'"))) /\
  text_of (demo_run true false "print 1 - (2 + ""x"");") = Some (Some (s_ "Cannot add types 'integer' and 'string'")) /\
  text_of (demo_run true false "a = hist() + 1 + 2 + 3; a[1 + 4] = len(a);") = Some (Some (s_ "Index 5 out of range, length is 3")) /\
  text_of (demo_run true false "y = 1; if len(1) == 2 && y { print 1; }") = Some (Some (s_ "Expected array, got '1'")) /\
  text_of (demo_run true false "for i in hist() + 1 + 0 { x = 170141183460469231731687303715884105727 / i; }") = Some (Some (s_ "Divide by zero")) /\
  text_of (demo_run true false "k = key(1, 2, 3, 4); k.nope = 1;") = Some (Some (s_ "Failed to find field 'nope' in 'struct _btrfs_ioctl_search_key'")) /\
  text_of (demo_run true false "print search(1, key(0,0,0,0));") = Some no_filesystem_text /\
  text_of (demo_run true false "filesystem ""/x"";") = Some (Some (s_ "/x is neither a mounted nor unmounted btrfs filesystem")).
Proof.
  split; [|vm_compute; repeat split; reflexivity]. exists w0. eapply re_operand; [reflexivity|]. eapply rf_later; [constructor|constructor|]. apply rf_fails. apply re_paren.
  eapply re_op; [reflexivity| |]. 1: econstructor; [constructor|constructor|econstructor; [constructor|constructor|constructor]].
  change (Some (s_ "Cannot add types 'integer' and 'string'")) with (Some (s_ "Cannot add types " ++ quoted (s_ "integer") ++ s_ " and " ++ quoted (s_ "string"))).
  apply cp_add; [intros H; inversion H|constructor|constructor].
Qed.
