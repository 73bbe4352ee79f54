(** C67: the value of a string literal. *)
From Verif Require Import Base Ast Pom Parse Structs Definitions Value Variables Semantics Fs Eval Runtime Lib Demo Spec_Run Spec_Session Spec_Grammar Spec_Render Spec_Utf8
  Proof_Vars Proof_Session Proof_Lang Proof_Syntax Proof_Text Proof_Complete Proof_Complete2 Proof_Complete3 Proof_Render Proof_Utf8.
From Coq Require Import Lia.
Arguments s_ s%string_scope.

Theorem C67_a_literal_is_its_text_in_utf8 :
  forall E s t, unicode t -> exists b, utf8_text t b /\ evals E s (EStr t) (e_w s) (Ok (VStr b)).
Proof.
  intros E s t H. exists (utf8 t). split; [apply utf8_text_of; exact H|]. split; [discriminate|]. exists 1. reflexivity.
Qed.
Print Assumptions C67_a_literal_is_its_text_in_utf8.

(** every text has one encoding, different texts have different ones, and they consist of bytes *)
Theorem C67_the_encoding_is_unique :
  forall t b, utf8_text t b ->
  (forall b', utf8_text t b' -> b = b') /\ (forall t', utf8_text t' b -> t = t') /\ Forall (fun x => (x < 256)%N) b.
Proof.
  intros t b H. split; [|split].
  - exact (utf8_text_fun t b H).
  - exact (utf8_text_inj t b H).
  - exact (utf8_text_bytes t b H).
Qed.
Print Assumptions C67_the_encoding_is_unique.

(** so comparing literals compares their texts *)
Theorem C67_equality_of_literals :
  forall E s t t', unicode t -> unicode t' ->
  exists b, evals E s (EBin OEquals (EStr t) (EStr t')) (e_w s) (Ok (VBool b)) /\ (b = true <-> t = t').
Proof.
  intros E s t t' H H'. exists (str_eqb (utf8 t) (utf8 t')). split.
  - split; [discriminate|]. exists 1. reflexivity.
  - split; [|intros ->; apply str_eqb_eq; reflexivity].
    intros He. apply str_eqb_eq in He. apply utf8_text_of in H. apply utf8_text_of in H'. rewrite He in H. exact (utf8_text_inj _ _ H _ H').
Qed.
Print Assumptions C67_equality_of_literals.

(** and adding literals appends their texts *)
Theorem C67_concatenation_of_literals :
  forall E s t t' w v, unicode t -> unicode t' ->
  (evals E s (EBin OPlus (EStr t) (EStr t')) w (Ok v) <-> evals E s (EStr (t ++ t')) w (Ok v)).
Proof.
  intros E s t t' w v H H'.
  assert (A : evals E s (EBin OPlus (EStr t) (EStr t')) (e_w s) (Ok (VStr (utf8 (t ++ t'))))) by (split; [discriminate|]; exists 1; rewrite utf8_app; reflexivity).
  assert (B : evals E s (EStr (t ++ t')) (e_w s) (Ok (VStr (utf8 (t ++ t'))))) by (split; [discriminate|]; exists 1; reflexivity).
  split; intros X.
  - destruct (Proof_Run.evals_fun _ _ _ _ _ _ _ X A) as [-> E1]. injection E1 as ->. exact B.
  - destruct (Proof_Run.evals_fun _ _ _ _ _ _ _ X B) as [-> E1]. injection E1 as ->. exact A.
Qed.
Print Assumptions C67_concatenation_of_literals.

(** Entering an assignment of a literal, in any spelling lit of the text t, at any time in a
    session stores the encoding of t. *)
Theorem C67_entering_a_literal :
  forall E h r n inter x lit t, session E h r ->
  identifier x -> (forall k, In k [s_ "true"; s_ "false"; s_ "print"; s_ "help"; s_ "quit"; s_ "break"; s_ "continue"] -> ~ begins k x) ->
  string_lit lit t -> unicode t ->
  exists r' b, rt_eval (S n) E inter r (x ++ s_ " = " ++ lit ++ s_ ";") = (r', ROk) /\
    utf8_text t b /\ vars_get x (e_vars (r_eval r')) = Some (VStr b) /\
    (forall y, y <> x -> vars_get y (e_vars (r_eval r')) = vars_get y (e_vars (r_eval r))) /\
    e_fs (r_eval r') = e_fs (r_eval r) /\ e_w (r_eval r') = e_w (r_eval r).
Proof.
  intros E h r n inter x lit t Hs Hi Hk Hl Ht. pose proof (conj Hi Hk : plain_name x) as Hx. apply session_inv in Hs. destruct Hs as [_ H1 H2 _].
  assert (P : parse (x ++ s_ " = " ++ lit ++ s_ ";") = Ok [SAssign (EIdent x) (EStr t)]).
  { change (s_ " = " ++ lit ++ s_ ";") with (s_ " =" ++ (s_ " " ++ lit) ++ s_ ";"). apply (assign_name x (s_ " " ++ lit) (EStr t) Hx). constructor; [apply ws_sp|].
    eapply g_lower; [apply g_str; exact Hl|apply Nat.le_0_l]. }
  unfold rt_eval. rewrite P. unfold analyze. cbn. unfold sem_insert. 
  pose proof (vars_insert_spec x tt (s_vars (r_sem r))) as I1. destruct (vars_insert x tt (s_vars (r_sem r))) as [v1|] eqn:E1; [clear I1|rewrite I1 in H1; discriminate].
  pose proof (vars_insert_spec x (VStr (utf8 t)) (e_vars (r_eval r))) as I2. cbn. unfold eval_prog. cbn. unfold with_expr. cbn. unfold est_insert. cbn.
  destruct (vars_insert x (VStr (utf8 t)) (e_vars (r_eval r))) as [v2|] eqn:E2; [clear I2|rewrite I2 in H2; discriminate]. cbn.
  eexists _, (utf8 t). split; [reflexivity|]. cbn. split; [apply utf8_text_of; exact Ht|]. split; [exact (vars_get_insert_eq _ _ _ _ E2)|].
  split; [intros y Hy; exact (vars_get_insert_neq _ _ _ _ _ Hy E2)|]. split; reflexivity.
Qed.
Print Assumptions C67_entering_a_literal.

(** A literal with a one-, two-, three- and four-byte character: a, U+E9, U+20AC, U+1F600. *)
Example C67_example : unicode [97; 0xE9; 0x20AC; 0x1F600]%N /\
  utf8_text [97; 0xE9; 0x20AC; 0x1F600]%N [97; 0xC3; 0xA9; 0xE2; 0x82; 0xAC; 0xF0; 0x9F; 0x98; 0x80]%N /\
  string_lit (34 :: [97; 0xE9; 0x20AC; 0x1F600] ++ [34])%N [97; 0xE9; 0x20AC; 0x1F600]%N /\
  demo_out (rt_eval 300 (demo_env true) true (rt_new (demo_env true)) (s_ "print " ++ [34; 97; 0xE9; 0x20AC; 34; 59]%N)) = s_ "a\xc3\xa9\xe2\x82\xac" ++ [10%N].
Proof.
  assert (U : unicode [97; 0xE9; 0x20AC; 0x1F600]%N) by (repeat constructor; reflexivity).
  split; [exact U|]. split; [exact (utf8_text_of _ U)|]. split; [exact (quote_lit [97; 0xE9; 0x20AC; 0x1F600]%N)|vm_compute; reflexivity].
Qed.
