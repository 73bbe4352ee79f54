(** C96: the kernel gets each search request as meant.  The layout that Rust gives the repr(C) structs, the
    bytes of the request and the request code are those of the kernel's interface; so for every request
    the program makes, in any run, the kernel finds the nine numbers, and no others, where it looks for them,
    and it is told the size of the buffer behind them. *)
From Verif Require Import Base Ast Pom Parse Structs Definitions Value Variables Semantics Fs Ioctl Eval Runtime Input Main Process Spec_Run Spec_Fs Spec_Decode Spec_Search Spec_Safe Spec_Ioctl
  Demo Proof_Decode Proof_Ioctl Properties_Process Demo_Search.
From Coq Require Import Lia.
Arguments s_ s%string_scope.

(** ** The structs *)
(** The members are where the kernel has them. *)
Theorem C96_layouts :
  map snd (layout search_key_fields) = map snd kernel_search_key /\ c_size (c_struct search_key_fields) = 104%Z /\
  (forall n off size, In (n, (off, size)) kernel_search_key -> In n (map fst request_members) -> assoc n (layout search_key_fields) = Some (off, size)) /\
  (forall b, map snd (layout (search_args_fields b)) = kernel_search_args b) /\
  map snd (layout search_header_fields) = kernel_search_header /\ c_size (c_struct search_header_fields) = 32%Z.
Proof.
  split; [reflexivity|]. split; [reflexivity|]. split; [|split; [|split; reflexivity]].
  - intros n off size H Hn. cbn in Hn. repeat destruct Hn as [<-|Hn]; try contradiction; cbn in H; repeat destruct H as [H|H]; try contradiction; injection H; intros; subst; try discriminate; reflexivity.
  - intros b. unfold layout, search_args_fields. cbn. rewrite ?Z.mul_1_l. f_equal. f_equal. f_equal. destruct b; reflexivity.
Qed.
Print Assumptions C96_layouts.
(** The kernel is told the size of the buffer as it is: what it may write ends where the memory of the request ends. *)
Theorem C96_buffer_fits : (112 + MAX_BUF_SIZE)%Z = c_size (c_struct (search_args_fields MAX_BUF_SIZE)).
Proof. reflexivity. Qed.
Print Assumptions C96_buffer_fits.
(** In the answer the program finds the headers as the kernel wrote them, at the offsets of its own struct too. *)
Theorem C96_header :
  forall b, Forall (fun x => (x < 256)%N) b -> length b = 32 ->
  let h := header_of b in
  (number_at b 0 8 (h_transid h) /\ number_at b 8 8 (h_objectid h) /\ number_at b 16 8 (h_offset h) /\ number_at b 24 4 (h_type h) /\ number_at b 28 4 (h_len h)) /\
  (forall name z, In (name, z) (header_members h) ->
     exists off size, assoc name (layout search_header_fields) = Some (off, size) /\ number_at b (Z.to_nat off) (Z.to_nat size) z).
Proof.
  intros b Hb L. cbv zeta. unfold number_at, header_of. cbn [h_transid h_objectid h_offset h_type h_len].
  assert (G : forall o n, o + n <= 32 -> firstn n (skipn o b) = le_bytes n (le (firstn n (skipn o b)))).
  { intros o n Ho. rewrite <- (le_bytes_le (firstn n (skipn o b))) at 1; [|apply firstn_bytes, skipn_bytes; exact Hb]. rewrite firstn_length_le by (rewrite skipn_length; lia). reflexivity. }
  split; [repeat apply conj; [exact (G 0 8 ltac:(lia))|exact (G 8 8 ltac:(lia))|exact (G 16 8 ltac:(lia))|exact (G 24 4 ltac:(lia))|exact (G 28 4 ltac:(lia))]|].
  intros name z H. unfold header_members in H. cbn [In h_transid h_objectid h_offset h_type h_len] in H.
  destruct H as [H|[H|[H|[H|[H|[]]]]]]; injection H as <- <-; do 2 eexists; (split; [reflexivity|]);
    [exact (G 0 8 ltac:(lia))|exact (G 8 8 ltac:(lia))|exact (G 16 8 ltac:(lia))|exact (G 24 4 ltac:(lia))|exact (G 28 4 ltac:(lia))].
Qed.
Print Assumptions C96_header.

(** ** The request code *)
(** The code is the kernel's, although the program's struct, with its buffer of 16 MB, is much bigger than the
    kernel's, which ends where the buffer begins. *)
Theorem C96_request_code : request_code = BTRFS_IOC_TREE_SEARCH_V2.
Proof. reflexivity. Qed.
Print Assumptions C96_request_code.
(** That is so because the size is cut to 14 bits: with another size of the buffer it
    is right if and only if the size, rounded up to a multiple of 8, is one of 16384. *)
Theorem C96_buffer_sizes : forall b, (0 <= b)%Z -> request_code_for b = BTRFS_IOC_TREE_SEARCH_V2 <-> ((b + 7) / 8 * 8 mod 16384 = 0)%Z.
Proof. exact code_correct. Qed.
Print Assumptions C96_buffer_sizes.

(** ** The requests *)
(** The kernel finds the request, no limit on the number of items, the size of the buffer and zeros
    in the unused members. *)
Theorem C96_the_kernel_finds_the_request : forall k, kernel_finds (request_bytes k) k (2 ^ 32 - 1) (2 ^ 24).
Proof. exact finds_request. Qed.
Print Assumptions C96_the_kernel_finds_the_request.
(** Every request of every run has numbers of the kernel's widths, so that what the kernel finds is nothing else. *)
Theorem C96_every_request :
  forall n E H m evs fd k, kernel_typed E -> In (EvIoctl fd k) (w_log (p_world (process n E H m evs))) ->
  request_ok k /\ forall k' nr size, request_ok k' -> kernel_finds (request_bytes k) k' nr size -> k' = k.
Proof.
  intros n E H m evs fd k HK HI. pose proof (process_neat E HK n H m evs) as F. rewrite Forall_forall in F. specialize (F _ HI). split; [exact F|].
  intros k' nr size Hk' Hf. exact (finds_inj _ _ _ _ _ _ _ Hk' F Hf (finds_request k)).
Qed.
Print Assumptions C96_every_request.
(** The same for a command in any state. *)
Theorem C96_every_request_of_a_command :
  forall n E inter r cmd r' q l fd k, kernel_typed E -> rt_eval n E inter r cmd = (r', q) -> w_log (e_w (r_eval r')) = w_log (e_w (r_eval r)) ++ l ->
  In (EvIoctl fd k) l -> request_ok k /\ forall k' nr size, request_ok k' -> kernel_finds (request_bytes k) k' nr size -> k' = k.
Proof.
  intros n E inter r cmd r' q l fd k HK He Hl HI. apply rt_eval_neat in He; [|exact HK]. destruct He as (m & A & B). rewrite A in Hl. apply app_inv_head in Hl. subst m.
  rewrite Forall_forall in B. specialize (B _ HI). split; [exact B|]. intros k' nr size Hk' Hf. exact (finds_inj _ _ _ _ _ _ _ Hk' B Hf (finds_request k)).
Qed.
Print Assumptions C96_every_request_of_a_command.
(** Different requests are different bytes. *)
Theorem C96_requests_differ : forall k k', request_ok k -> request_ok k' -> request_bytes k = request_bytes k' -> k = k'.
Proof. intros k k' H H' Hb. apply (finds_inj (request_bytes k) k k' U32_MAX MAX_BUF_SIZE U32_MAX MAX_BUF_SIZE H H'); [apply finds_request|rewrite Hb; apply finds_request]. Qed.
Print Assumptions C96_requests_differ.

(** ** Not vacuous *)
(** a run with two requests, the second of which goes on behind the last item of the first; a
    request with all its bytes; and a buffer of 1000 bytes, whose code no kernel knows *)
Definition two_pages : env :=
  mk_env true (fun i _ k => if (sk_min_offset k =? 0)%Z then IoOk 1 (le_bytes 8 7 ++ le_bytes 8 5 ++ le_bytes 8 6 ++ le_bytes 4 77 ++ le_bytes 4 0) else IoOk 0 [])
         (fun _ _ => OpDir 3 (Some btrfs_type)) (fun _ _ => SkOk) None.
Example C96_example :
  exists k, w_log (p_world (process 40 two_pages demo_host (MScript (Some (s_ "k = key(0, 0, 0, 0); k.max_type = 100; filesystem ""/mnt""; search(1, k);"))) []))
     = [EvOpen (s_ "/mnt"); EvIoctl 3 (mk_skey 1 0 (2 ^ 64 - 1) 0 100 0 (2 ^ 64 - 1) 0 (2 ^ 64 - 1)); EvIoctl 3 k; EvWarn 5 77 6] /\ sk_min_offset k = 7%Z /\
     firstn 16 (skipn 24 (request_bytes k)) = [7; 0; 0; 0; 0; 0; 0; 0; 255; 255; 255; 255; 255; 255; 255; 255]%N.
Proof. eexists. split; [vm_compute; reflexivity|]. split; reflexivity. Qed.
Example C96_example2 : request_code = 3228603409%Z /\ request_code_for 1000 <> BTRFS_IOC_TREE_SEARCH_V2 /\ request_code_for 65536 = BTRFS_IOC_TREE_SEARCH_V2.
Proof. repeat split; discriminate. Qed.
