(** The evaluator: /repo/src/lang/eval/eval.rs:15-840. *)
From Verif Require Import Base Ast Structs Definitions Value Variables Fs.

(** [*(key.field_mut(name)?) = v] (eval.rs:330-340,426-428) *)
Definition set_field (s n : str) (v : value) (fs : list (str * value)) : res (list (str * value)) :=
  match assoc_update n (fun _ => Ok v) fs with
  | Some r => r
  | None => Err (ENoSuchField n s)
  end.
Fixpoint set_fields (s : str) (l : list (str * value)) (fs : list (str * value)) : res (list (str * value)) :=
  match l with
  | [] => Ok fs
  | (n, v) :: l' => let* fs' := set_field s n v fs in set_fields s l' fs'
  end.
(** [vec![0; n]] *)
Definition zeros (n : Z) : str := repeat 0%N (Z.to_nat n).

(** eval.rs:74-244: operators on evaluated operands; [&&] and [||] are evaluated
    lazily in [eval_expr] *)
Definition eval_plus (l r : value) : res value :=                       (* eval.rs:76-100 *)
  match l, r with
  | VInt a, VInt b => let* z := ok_or (checked (a + b)) (EOverflow a (s_ "+") b) in Ok (VInt z)
  | VArr vs h, v => Ok (VArr (vs ++ [v]) h)
  | VStr a, VStr b => Ok (VStr (a ++ b))
  | _, _ => Err (ECannotAdd (type_str l) (type_str r))
  end.

(** eval.rs:101-243: integer operators *)
Definition eval_int_op (op : binop) (a b : Z) : res value :=
  match op with
  | OMinus => let* z := ok_or (checked (a - b)) (EOverflow a (s_ "-") b) in Ok (VInt z)
  | OMultiply => let* z := ok_or (checked (a * b)) (EOverflow a (s_ "*") b) in Ok (VInt z)
  | ODivide =>
    if (b =? 0)%Z then Err EDivideByZero
    else let* z := ok_or (checked_div a b) (EOverflow a (s_ "/") b) in Ok (VInt z)
  | OModulo =>
    if (b =? 0)%Z then Err EDivideByZero
    else let* z := ok_or (checked_rem a b) (EOverflow a (s_ "%") b) in Ok (VInt z)
  | OBitOr => Ok (VInt (Z.lor a b))
  | OBitAnd => Ok (VInt (Z.land a b))
  | OBitXor => Ok (VInt (Z.lxor a b))
  | OLeftShift =>
    let* n := try_into_u 32 b in
    let* z := ok_or (checked_shl a n) (EOverflow a (s_ "<<") b) in Ok (VInt z)
  | ORightShift =>
    let* n := try_into_u 32 b in
    let* z := ok_or (checked_shr a n) (EOverflow a (s_ ">>") b) in Ok (VInt z)
  | OLessThan => Ok (VBool (a <? b)%Z)
  | OLessThanEquals => Ok (VBool (a <=? b)%Z)
  | OGreaterThan => Ok (VBool (a >? b)%Z)
  | OGreaterThanEquals => Ok (VBool (a >=? b)%Z)
  | _ => Panic PExplicit   (* not an integer operator; never used *)
  end.

(** eval.rs:246-263 without Cast *)
Definition eval_unop (oc : bool) (op : unop) (v : value) : res value :=
  match op with
  | UBitNot => let* z := as_integer v in Ok (VInt (Z.lnot z))
  | UNot =>
    match v with
    | VInt z => Ok (VBool (z =? 0)%Z)
    | VBool b => Ok (VBool (negb b))
    | _ => Err (expected "integer or boolean" v)
    end
  | UMinus => let* z := as_integer v in let* r := i128_neg oc z in Ok (VInt r)
  end.

(** eval.rs:277-308: the cast of an address *)
Definition eval_cast (E : env) (f : option fs) (t : expr) (bytenr : Z) : res value :=
  match t with
  | EIdent x =>
    let* s := unwrap (find (fun s => str_eqb (st_name s) x) STRUCTS) in
    let size := if (st_size s =? 0)%Z then 1024%Z else st_size s in
    match f with
    | Some f =>
      let* stop := usize_add (overflow_checks E) bytenr size in
      let* b := get_bytes f bytenr stop in
      from_bytes (overflow_checks E) s None b
    | None => Err ENoFilesystem
    end
  | _ => Panic PExplicit
  end.

(** the arity errors: eval.rs:316,345,412,417,436,442,450 *)
Definition arity_error (fn : func) : error :=
  let q := s_ "'" ++ func_name fn ++ s_ "()'" in
  EArity (func_name fn)
    match fn with
    | FKey => q ++ s_ " requires 4 arguments"
    | FSearch => q ++ s_ " requires 2 arguments"
    | FTypeOf | FKeyOf | FLen => q ++ s_ " requires 1 argument"
    | FHist => q ++ s_ " takes no arguments"
    | FStr => func_name fn ++ s_ "() requires 1 argument"
    end.

(** eval.rs:327-342 *)
Definition make_search_key (oc : bool) (a b c d : value) : res value :=
  let* k := from_bytes oc btrfs_ioctl_search_key None (zeros (st_size btrfs_ioctl_search_key)) in
  let* s := as_struct k in
  let '(n, key, fs) := s in
  let* fs := set_fields n
    [(s_ "min_objectid", a); (s_ "max_objectid", VInt U64_MAX);
     (s_ "min_type", b); (s_ "max_type", VInt U8_MAX);
     (s_ "min_offset", c); (s_ "max_offset", VInt U64_MAX);
     (s_ "min_transid", d); (s_ "max_transid", VInt U64_MAX)] fs in
  Ok (VStruct n key fs).

(** eval.rs:423-430 *)
Definition make_disk_key (oc : bool) (oid ty off : Z) : res value :=
  let* k := from_bytes oc btrfs_key None (zeros (st_size btrfs_key)) in
  let* s := as_struct k in
  let '(n, key, fs) := s in
  let* fs := set_fields n [(s_ "objectid", VInt oid); (s_ "type", VInt ty); (s_ "offset", VInt off)] fs in
  Ok (VStruct n key fs).

(** [key.field(n)?.as_integer()?.try_into()?] (eval.rs:359-366) *)
Definition key_arg (fs : list (str * value)) (n : str) (bits : Z) : res Z :=
  let* v := get_field (st_name btrfs_ioctl_search_key) fs n in
  let* z := as_integer v in
  try_into_u bits z.

(** eval.rs:356-371: the nine arguments of [Fs::search], in evaluation order *)
Definition search_args (tree : Z) (fs : list (str * value)) : res skey :=
  let* t := try_into_u 64 tree in
  let* min_o := key_arg fs (s_ "min_objectid") 64 in
  let* max_o := key_arg fs (s_ "max_objectid") 64 in
  let* min_t := key_arg fs (s_ "min_type") 8 in
  let* max_t := key_arg fs (s_ "max_type") 8 in
  let* min_f := key_arg fs (s_ "min_offset") 64 in
  let* max_f := key_arg fs (s_ "max_offset") 64 in
  let* min_r := key_arg fs (s_ "min_transid") 64 in
  let* max_r := key_arg fs (s_ "max_transid") 64 in
  Ok (mk_skey t min_o max_o min_t max_t min_f max_f min_r max_r).

(** eval.rs:373-404: decode the returned items *)
Fixpoint decode_chunks (oc : bool) (cs : list chunk) : M (list value) := fun w =>
  match cs with
  | [] => (w, Ok [])
  | (h, bytes) :: cs' =>
    match find (fun s => st_km s (h_objectid h) (h_type h) (h_offset h)) STRUCTS with
    | Some s =>
      (do v <- mret (from_bytes oc s (Some (h_objectid h, h_type h, h_offset h)) bytes) ;;
       do vs <- decode_chunks oc cs' ;;
       mret (Ok (v :: vs))) w
    | None =>
      decode_chunks oc cs' (log_event w (EvWarn (h_objectid h) (h_type h) (h_offset h)))
    end
  end.

Section EvalExpr.
Variable k : nat.                 (* step budget of the search loop *)
Variable E : env.
Variable vs : vars value.
Variable f : option fs.

(** eval.rs:348-410 after the operands are evaluated *)
Definition eval_search (tree : Z) (key : value) : M value :=
  do s <- mret (as_struct key) ;;
  let '(n, _, flds) := s in
  do _ <- mret (ensure (str_eqb n (st_name btrfs_ioctl_search_key)) ESearchKeyType) ;;
  match f with
  | None => mret (Err ENoFilesystem)
  | Some fs =>
    do sk <- mret (search_args tree flds) ;;
    do cs <- fs_search k E fs sk ;;
    do vs <- decode_chunks (overflow_checks E) cs ;;
    mret (Ok (VArr vs false))
  end.

(** eval.rs:56-72,74-244,246-311,313-462,464-495 [eval_expr] *)
Fixpoint eval_expr (e : expr) : M value :=
  match e with
  | EIdent x => mret (ok_or (vars_get x vs) (EUnknownVariable x))          (* eval.rs:58-62 *)
  | EInt z => mret (Ok (VInt z))
  | EBool b => mret (Ok (VBool b))
  | EStr s => mret (Ok (VStr (utf8 s)))                                    (* eval.rs:67 *)
  | EParen e => eval_expr e
  | EField e fld =>                                                        (* eval.rs:467-479 *)
    do v <- eval_expr e ;;
    do s <- mret (as_struct v) ;;
    let '(nm, _, fs) := s in
    match fld with
    | EIdent i => mret (get_field nm fs i)
    | _ => mret (Err EFieldNotIdent)
    end
  | EIndex e i =>                                                          (* eval.rs:480-490 *)
    do v <- eval_expr e ;;
    do l <- mret (as_vec v) ;;
    do iv <- eval_expr i ;;
    do z <- mret (as_integer iv) ;;
    do u <- mret (try_into_u 64 z) ;;
    mret (if (u <? zlen l)%Z then ok_or (nth_error l (Z.to_nat u)) (EIndexOutOfRange z (zlen l))
          else Err (EIndexOutOfRange z (zlen l)))
  | ECall fe args =>                                                       (* eval.rs:313-462 *)
    do fv <- eval_expr fe ;;
    do fn <- mret (as_function fv) ;;
    match fn with
    | FKey =>                                                              (* eval.rs:315-343 *)
      match args with
      | [a; b; c; d] =>
        do va <- eval_expr a ;; do _ <- mret (as_integer va) ;;
        do vb <- eval_expr b ;; do _ <- mret (as_integer vb) ;;
        do vc <- eval_expr c ;; do _ <- mret (as_integer vc) ;;
        do vd <- eval_expr d ;; do _ <- mret (as_integer vd) ;;
        mret (make_search_key (overflow_checks E) va vb vc vd)
      | _ => mret (Err (arity_error FKey))
      end
    | FSearch =>                                                           (* eval.rs:344-410 *)
      match args with
      | [a; b] =>
        do va <- eval_expr a ;;
        do tree <- mret (as_integer va) ;;
        do key <- eval_expr b ;;
        eval_search tree key
      | _ => mret (Err (arity_error FSearch))
      end
    | FTypeOf =>                                                           (* eval.rs:411-415 *)
      match args with
      | [a] => do v <- eval_expr a ;; mret (Ok (VStr (type_str v)))
      | _ => mret (Err (arity_error FTypeOf))
      end
    | FKeyOf =>                                                            (* eval.rs:416-434 *)
      match args with
      | [a] =>
        do v <- eval_expr a ;;
        do s <- mret (as_struct v) ;;
        let '(_, key, _) := s in
        match key with
        | Some (oid, ty, off) => mret (make_disk_key (overflow_checks E) oid ty off)
        | None => mret (Err ENoKey)
        end
      | _ => mret (Err (arity_error FKeyOf))
      end
    | FLen =>                                                              (* eval.rs:435-440 *)
      match args with
      | [a] =>
        do v <- eval_expr a ;; do l <- mret (as_vec v) ;;
        (* [len().try_into()?] to i128: cannot fail for an array that fits in memory *)
        mret (let* z := ok_or (checked (zlen l)) ETryFromInt in Ok (VInt z))
      | _ => mret (Err (arity_error FLen))
      end
    | FHist =>                                                             (* eval.rs:441-448 *)
      match args with
      | [] => mret (Ok (VArr [] true))
      | _ => mret (Err (arity_error FHist))
      end
    | FStr =>                                                              (* eval.rs:449-460 *)
      match args with
      | [a] =>
        do v <- eval_expr a ;;
        mret (Ok (match v with VStr _ => v | _ => VStr (display v) end))
      | _ => mret (Err (arity_error FStr))
      end
    end
  | EBin op l r =>                                                         (* eval.rs:74-244 *)
    match op with
    | OPlus => do a <- eval_expr l ;; do b <- eval_expr r ;; mret (eval_plus a b)
    | OEquals => do a <- eval_expr l ;; do b <- eval_expr r ;; mret (Ok (VBool (value_eqb a b)))
    | ONotEquals =>
      do a <- eval_expr l ;; do b <- eval_expr r ;; mret (Ok (VBool (negb (value_eqb a b))))
    | OLogicalOr =>
      do a <- eval_expr l ;; do x <- mret (as_boolean a) ;;
      if x then mret (Ok (VBool true))
      else do b <- eval_expr r ;; do y <- mret (as_boolean b) ;; mret (Ok (VBool y))
    | OLogicalAnd =>
      do a <- eval_expr l ;; do x <- mret (as_boolean a) ;;
      if x then do b <- eval_expr r ;; do y <- mret (as_boolean b) ;; mret (Ok (VBool y))
      else mret (Ok (VBool false))
    | _ =>
      do a <- eval_expr l ;; do x <- mret (as_integer a) ;;
      do b <- eval_expr r ;; do y <- mret (as_integer b) ;;
      mret (eval_int_op op x y)
    end
  | EUn op e => do v <- eval_expr e ;; mret (eval_unop (overflow_checks E) op v)
  | ECast t e =>                                                           (* eval.rs:264-309 *)
    do v <- eval_expr e ;;
    do z <- mret (as_integer v) ;;
    if (z <? 0)%Z then mret (Err (ENegativeBytenr z))
    else mret (eval_cast E f t (as_usize z))
  end.
End EvalExpr.

(** ** Statements *)

(** eval.rs:21-30 [InternalEvalResult], plus panics and the step budget *)
Inductive ires : Type :=
| IOk | IQuit | IErr (e : error) | IBreak | IContinue | IPanic (p : panic) | IFuel.

(** early return of a failed [Result] as [InternalEvalResult::Err] *)
Definition ires_of {A} (r : res A) : ires :=
  match r with Ok _ => IOk | Err e => IErr e | Panic p => IPanic p | Fuel => IFuel end.

(** eval.rs:48-53 [Eval] *)
Record est : Type := mk_est { e_vars : vars value; e_fs : option fs; e_w : world }.
Definition with_w (s : est) (w : world) : est := mk_est (e_vars s) (e_fs s) w.
Definition with_vars (s : est) (v : vars value) : est := mk_est v (e_fs s) (e_w s).
Definition with_fs (s : est) (f : option fs) : est := mk_est (e_vars s) f (e_w s).

(** run an expression in a state; continue with its value *)
Definition with_expr (k : nat) (E : env) (s : est) (e : expr) (c : est -> value -> est * ires) : est * ires :=
  let '(w, r) := eval_expr k E (e_vars s) (e_fs s) e (e_w s) in
  let s' := with_w s w in
  match r with Ok v => c s' v | _ => (s', ires_of r) end.

(** [write!]/[writeln!] to the sink (eval.rs:530,746,804).  One call is one write. *)
Definition do_write (E : env) (s : est) (txt : str) : est * ires :=
  let w := e_w s in
  match sink E (tick w) txt with
  | SkOk => (with_w s (mk_world (w_log w ++ [EvWrite txt]) (w_out w ++ txt)), IOk)
  | SkErr n => (with_w s (mk_world (w_log w ++ [EvWrite txt]) (w_out w ++ firstn n txt)), IErr EWrite)
  end.

(** eval.rs:758-793: the help table *)
Definition help_table : list (str * str) :=
  [(s_ "Commands", s_ "");
   (s_ "--------------------", s_ "");
   (s_ "help", s_ "Print help");
   (s_ "quit", s_ "Exit debugger");
   (s_ "filesystem <string>",
    s_ "Debug <string> (<string> must be a path to a mounted btrfs filesystem)");
   (s_ "print <expression>", s_ "Evaluate <expression> and print result");
   (s_ "", s_ "");
   (s_ "Functions", s_ "");
   (s_ "--------------------", s_ "");
   (s_ "key(objectid, type, offset, transid)", s_ "Returns a key to be used in `search()`");
   (s_ "search(treeid, key)", s_ "Returns an array of search results based on `treeid` and `key`");
   (s_ "keyof(expr)", s_ "Returns the corresponding disk key (if any) of the expression");
   (s_ "typeof(expr)", s_ "Returns the type of `expr` as a string");
   (s_ "len(expr)", s_ "Returns the length of an array");
   (s_ "hist()", s_ "Returns a histogram (an array that `print()` will format)");
   (s_ "str(expr)", s_ "Returns `expr` in string representation")].
(** eval.rs:795-802 *)
Definition help_width : nat := fold_left Nat.max (map (fun p => List.length (fst p)) help_table) 0 + 4.
Definition help_text : str := flat_map (fun p => pad_right help_width (fst p) ++ snd p ++ nl) help_table.

(** eval.rs:517-528: the text [print] writes *)
Definition print_text (k : nat) (oc : bool) (v : value) : res str :=
  match v with
  | VArr vs true => as_hist k oc vs
  | VStr s => Ok (escape false s)
  | _ => Ok (display v)
  end.

(** eval.rs:641-687 [eval_lhs_assign] followed by the store of eval.rs:705: [g] is
    applied to the designated location.  The result is the new variable stack. *)
Fixpoint lhs_assign (k : nat) (E : env) (vs : vars value) (f : option fs) (e : expr)
         (g : value -> res value) : M (vars value) :=
  match e with
  | EIdent x =>
    mret (let* v := ok_or (vars_get x vs) (EUnknownVariable x) in
          let* v' := g v in
          unwrap (vars_replace x v' vs))
  | EField e fld =>
    match fld with
    | EIdent i =>
      lhs_assign k E vs f e (fun v =>
        match v with
        | VStruct n key fs =>
          match assoc_update i g fs with
          | Some r => let* fs' := r in Ok (VStruct n key fs')
          | None => Err (ENoSuchField i n)
          end
        | _ => Err (ELhs (s_ "Field access must be used on a struct"))
        end)
    | _ => mret (Err EFieldNotIdent)
    end
  | EIndex e i =>
    do iv <- eval_expr k E vs f i ;;
    do z <- mret (as_integer iv) ;;
    lhs_assign k E vs f e (fun v =>
      match v with
      | VArr l h =>
        let* u := try_into_u 64 z in
        if (u <? zlen l)%Z then
          let* x := ok_or (nth_error l (Z.to_nat u)) (EIndexOutOfRange z (zlen l)) in
          let* x' := g x in
          Ok (VArr (firstn (Z.to_nat u) l ++ x' :: skipn (S (Z.to_nat u)) l) h)
        else Err (EIndexOutOfRange z (zlen l))
      | _ => Err (ELhs (s_ "Array index must be used on an array"))
      end)
  | EInt _ | EBool _ | EStr _ | EParen _ => mret (Err (ELhs (s_ "Expected identifier in LHS of assignment")))
  | ECall _ _ => mret (Err (ELhs (s_ "Unexpected function call in LHS of assignment")))
  | EBin _ _ _ => mret (Err (ELhs (s_ "Unexpected binary expression in LHS of assignment")))
  | EUn _ _ | ECast _ _ => mret (Err (ELhs (s_ "Unexpected unary expression in LHS of assignment")))
  end.

(** eval.rs:555-565 and the like: run statements until one does not end normally *)
Definition run_list (ev : est -> stmt -> est * ires) : est -> list stmt -> est * ires :=
  fix go (s : est) (l : list stmt) : est * ires :=
    match l with
    | [] => (s, IOk)
    | x :: l' => match ev s x with
                 | (s', IOk) => go s' l'
                 | (s', r) => (s', r)
                 end
    end.

(** eval.rs:568-595 [eval_while]; [k] bounds the number of passes *)
Fixpoint while_loop (ev : est -> stmt -> est * ires) (ke : nat) (E : env) (k : nat)
         (c : expr) (body : list stmt) (s : est) : est * ires :=
  match k with
  | O => (s, IFuel)
  | S k' =>
    with_expr ke E s c (fun s v =>
      match as_boolean v with
      | Ok true =>
        match run_list ev s body with
        | (s', IOk) | (s', IContinue) => while_loop ev ke E k' c body s'
        | (s', IBreak) => (s', IOk)
        | (s', r) => (s', r)
        end
      | Ok false => (s, IOk)
      | r => (s, ires_of r)
      end)
  end.

(** [self.variables.insert(..)]; a failing assertion panics *)
Definition est_insert (x : str) (v : value) (s : est) : est * ires :=
  match vars_insert x v (e_vars s) with
  | Some vs => (with_vars s vs, IOk)
  | None => (s, IPanic PAssert)
  end.

(** eval.rs:622-635: the loop of [eval_for] over the evaluated range *)
Fixpoint for_loop (ev : est -> stmt -> est * ires) (x : str) (body : list stmt)
         (items : list value) (s : est) : est * ires :=
  match items with
  | [] => (s, IOk)
  | v :: items' =>
    match est_insert x v s with
    | (s1, IOk) =>
      match run_list ev s1 body with
      | (s', IOk) | (s', IContinue) => for_loop ev x body items' s'
      | (s', IBreak) => (s', IOk)
      | (s', r) => (s', r)
      end
    | (s1, r) => (s1, r)
    end
  end.

(** [push_scope] .. [pop_scope] around a block (eval.rs:712-732) *)
Definition in_scope (s : est) (b : est -> est * ires) : est * ires :=
  let '(s', r) := b (with_vars s (push_scope (e_vars s))) in
  match pop_scope (e_vars s') with
  | Some v => (with_vars s' v, r)
  | None => (s', IPanic PAssert)
  end.

(** eval.rs:497-566,597-638,689-755 [eval_statement], [eval_builtin], [eval_if].
    The step budget [n] bounds the nesting and all loops. *)
Fixpoint eval_stmt (n : nat) (E : env) (interactive : bool) (s : est) (st : stmt) : est * ires :=
  match n with
  | O => (s, IFuel)
  | S n' =>
    let ev := eval_stmt n' E interactive in
    match st with
    | SAssign lhs rhs =>                                              (* eval.rs:691-710 *)
      with_expr n' E s rhs (fun s v =>
        match lhs with
        | EIdent x => est_insert x v s
        | _ =>
          let '(w, r) := lhs_assign n' E (e_vars s) (e_fs s) lhs (fun _ => Ok v) (e_w s) in
          match r with
          | Ok vs => (mk_est vs (e_fs s) w, IOk)
          | _ => (with_w s w, ires_of r)
          end
        end)
    | SIf c tb fb =>                                                  (* eval.rs:540-566,712-718 *)
      in_scope s (fun s =>
        with_expr n' E s c (fun s v =>
          match as_boolean v with
          | Ok b => run_list ev s (if b then tb else fb)
          | r => (s, ires_of r)
          end))
    | SWhile c b => in_scope s (while_loop ev n' E n' c b)            (* eval.rs:719-725 *)
    | SFor i r b =>                                                   (* eval.rs:597-638,726-732 *)
      in_scope s (fun s =>
        match i with
        | EIdent x =>
          with_expr n' E s r (fun s v =>
            match as_vec v with
            | Ok items => for_loop ev x b items s
            | r => (s, ires_of r)
            end)
        | _ => (s, IErr EForIdent)
        end)
    | SBreak => (s, IBreak)
    | SContinue => (s, IContinue)
    | SHelp => do_write E s help_text                                 (* eval.rs:499,757-808 *)
    | SQuit => (s, IQuit)
    | SFilesystem e =>                                                (* eval.rs:501-514 *)
      with_expr n' E s e (fun s v =>
        match as_string true v with
        | Ok path =>
          let '(w, r) := fs_new E path (e_w s) in
          match r with
          | Ok f => (mk_est (e_vars s) (Some f) w, IOk)
          | _ => (with_w s w, ires_of r)
          end
        | r => (s, ires_of r)
        end)
    | SPrint e =>                                                     (* eval.rs:515-536 *)
      with_expr n' E s e (fun s v =>
        match print_text n' (overflow_checks E) v with
        | Ok txt => do_write E s (txt ++ nl)
        | r => (s, ires_of r)
        end)
    | SExpr e =>                                                      (* eval.rs:739-753 *)
      with_expr n' E s e (fun s v =>
        if interactive then do_write E s (display v ++ nl) else (s, IOk))
    end
  end.

(** eval.rs:15-19 [EvalResult] *)
Inductive eres : Type := ROk | RQuit | RErr (e : error) | RPanic (p : panic) | RFuel.
(** eval.rs:33-45 *)
Definition into_eval_result (r : ires) : eres :=
  match r with
  | IOk => ROk
  | IQuit => RQuit
  | IErr e => RErr e
  | IBreak => RErr EUnhandledControlFlow
  | IContinue => RErr EUnhandledControlFlow
  | IPanic p => RPanic p
  | IFuel => RFuel
  end.

(** eval.rs:830-839 [eval] *)
Definition eval_prog (n : nat) (E : env) (interactive : bool) (s : est) (l : list stmt) : est * eres :=
  let '(s', r) := run_list (eval_stmt n E interactive) s l in (s', into_eval_result r).

(** eval.rs:816-828 [Eval::new] *)
Definition eval_new (E : env) : est :=
  let w := mk_world [] [] in
  let vs := vars_new VInt VFun in
  match getcwd E with
  | Some cwd =>
    let '(w', r) := fs_new E cwd w in
    mk_est vs (match r with Ok f => Some f | _ => None end) w'
  | None => mk_est vs None w
  end.
