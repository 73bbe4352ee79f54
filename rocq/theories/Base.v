(** Common definitions: text and bytes, outcomes, machine integers.

    Models the parts of the Rust standard library the program relies on; there
    is no single /repo file behind it.  Each definition names the Rust item it
    stands for and the /repo lines that use it. *)
From Coq Require Export String Ascii.
From Coq Require Export List ZArith NArith Bool Lia.
Export ListNotations.
Global Open Scope list_scope.

(** Rust [String]/[&str]/[Vec<char>]/[Vec<u8>]/[&[u8]]: a list of numbers, code
    points for text and byte values for byte strings (/repo/src/lang/parse.rs:431,
    /repo/src/lang/eval/value.rs:18). *)
Definition str := list N.

(** String literals of the Rust sources (all are ASCII). *)
Definition s_ (s : string) : str := map N_of_ascii (list_ascii_of_string s).

(** [==] on strings (used throughout, e.g. value.rs:291, eval.rs:286). *)
Fixpoint str_eqb (a b : str) : bool :=
  match a, b with
  | [], [] => true
  | x :: a', y :: b' => N.eqb x y && str_eqb a' b'
  | _, _ => false
  end.

(** Reported errors ([anyhow::Error], [EvalResult::Err]): which message it is and the
    data the message shows.  The texts themselves are in Errors.v. *)
Inductive open_failure : Type :=
| OfNeither (path : str)    (* fs.rs:114-117 *)
| OfNotBtrfs (path : str)   (* fs.rs:123-127 *)
| OfNoMagic (path : str)    (* fs.rs:151-155 *)
| OfSystem                  (* the text of fstatfs's or mmap's own error, fs.rs:122,149 *).
Inductive error : Type :=
| EUnknownVariable (x : str)        (* "Unknown variable: {}" semantics.rs:30, eval.rs:61,647 *)
| EOverflow (a : Z) (op : str) (b : Z)   (* "{} + {} overflows" etc., eval.rs:84..183 *)
| EDivideByZero                     (* eval.rs:126,140 *)
| ECannotAdd (l r : str)            (* the two type names, eval.rs:98 *)
| EExpected (what got : str)        (* "Expected {}, got '{}'" value.rs:48..96, eval.rs:257 *)
| ETryFromInt                       (* std TryFromIntError, eval.rs:172,182,358.. fs.rs *)
| ENegativeBytenr (n : Z)           (* eval.rs:268 *)
| ENoFilesystem                     (* eval.rs:301,368 *)
| EArity (f msg : str)              (* "'{}()' requires n arguments" eval.rs:316.. *)
| ESearchKeyType                    (* eval.rs:350 *)
| ENoKey                            (* eval.rs:432 *)
| EFieldNotIdent                    (* eval.rs:475,655 semantics.rs:101 *)
| EIndexOutOfRange (i len : Z)      (* eval.rs:488,671 *)
| ENoSuchField (f s : str)          (* field, struct: value.rs:409,424 *)
| ELhs (msg : str)                  (* bad assignment target, eval.rs:648,660,674,678,681,684 *)
| EForIdent                         (* eval.rs:606 *)
| EForTemp                          (* semantics.rs:154 *)
| ENoLengthField (f : str)          (* value.rs:296 *)
| ENotEnoughBytes (s what : str) (have need : Z) (* struct, what is read: value.rs:308,329,350,475 definitions.rs:827,860,1211 *)
| EAnonymous (msg : str)            (* value.rs:340,369,498 *)
| ENotStatic                        (* value.rs:381 *)
| EUnknownInlineRef (t : Z)         (* definitions.rs:896 *)
| ELeftover                         (* definitions.rs:905 *)
| EHistValue (got : str)            (* value.rs:133 *)
| EHistPower (what : str) (z : Z)   (* value.rs:149,154 *)
| EUtf8                             (* value.rs:73 *)
| EUnmountedSearch                  (* fs.rs:180 *)
| EIoctl                            (* fs.rs:205 *)
| EShortRead (msg : str)            (* fs.rs:216,226 *)
| EKeyOverflow                      (* fs.rs:275 *)
| ECollisions (n : Z)               (* fs.rs:279 *)
| EGetBytes (len : Z)               (* fs.rs:295 *)
| EMountedCast                      (* fs.rs:296 *)
| EOpen (why : open_failure)        (* fs.rs:116,125,149,151 and fstatfs/mmap errors *)
| EWrite                            (* failed write to the sink, eval.rs:532,748,806 *)
| EUnknownType (s : str)            (* semantics.rs:80 *)
| EBadCastType                      (* semantics.rs:88 *)
| EJumpOutsideLoop (jump : str)     (* semantics.rs:221 *)
| EFilesystemArg                    (* semantics.rs:230 *)
| EParse                            (* runtime.rs:30: pom error *)
| EUnhandledControlFlow             (* eval.rs:39,42 *).

(** Reasons for a Rust panic. *)
Inductive panic : Type :=
| PArith          (* arithmetic overflow with overflow checks on *)
| PSlice          (* slice index out of range *)
| PUnwrap         (* unwrap()/expect() on None/Err *)
| PExplicit       (* panic!() *)
| PAssert         (* assert!/assert_eq! *).

(** Outcome of a fallible computation: [anyhow::Result] plus panics plus
    exhaustion of the model's step budget (see DESIGN.md). *)
Inductive res (A : Type) : Type :=
| Ok (a : A)
| Err (e : error)
| Panic (p : panic)
| Fuel.
Arguments Ok {A} _.
Arguments Err {A} _.
Arguments Panic {A} _.
Arguments Fuel {A}.

(** The [?] operator. *)
Definition bind {A B} (x : res A) (f : A -> res B) : res B :=
  match x with
  | Ok a => f a
  | Err e => Err e
  | Panic p => Panic p
  | Fuel => Fuel
  end.
Notation "'let*' x := e 'in' b" := (bind e (fun x => b))
  (at level 200, x pattern, e at level 100, b at level 200, right associativity).

(** [ensure!(c, e)] *)
Definition ensure (c : bool) (e : error) : res unit := if c then Ok tt else Err e.

(** [Option::ok_or_else(..)] *)
Definition ok_or {A} (o : option A) (e : error) : res A :=
  match o with Some a => Ok a | None => Err e end.

(** [Option::unwrap] / [Option::expect] *)
Definition unwrap {A} (o : option A) : res A :=
  match o with Some a => Ok a | None => Panic PUnwrap end.

(** [for x in l { acc = f(acc, x)? }] *)
Fixpoint fold_res {A B} (f : B -> A -> res B) (l : list A) (acc : B) : res B :=
  match l with
  | [] => Ok acc
  | x :: l' => let* acc' := f acc x in fold_res f l' acc'
  end.

(** ** Machine integers *)

(** [i128::MIN], [i128::MAX] *)
Definition I128_MIN : Z := - 2 ^ 127.
Definition I128_MAX : Z := 2 ^ 127 - 1.
Definition in_i128 (z : Z) : bool := (I128_MIN <=? z)%Z && (z <=? I128_MAX)%Z.

(** Two's complement truncation to 128 bits (release-mode arithmetic and [<<]). *)
Definition wrap128 (z : Z) : Z := ((z + 2 ^ 127) mod 2 ^ 128 - 2 ^ 127)%Z.

(** [i128::checked_add/sub/mul/..]: eval.rs:83,106,116. *)
Definition checked (z : Z) : option Z := if in_i128 z then Some z else None.

(** [i128::checked_div], [checked_rem] (eval.rs:130,144): None for a zero divisor and
    for [MIN / -1]. *)
Definition checked_div (a b : Z) : option Z :=
  if (b =? 0)%Z then None
  else if (a =? I128_MIN)%Z && (b =? -1)%Z then None else Some (Z.quot a b).
Definition checked_rem (a b : Z) : option Z :=
  if (b =? 0)%Z then None
  else if (a =? I128_MIN)%Z && (b =? -1)%Z then None else Some (Z.rem a b).

(** [i128::checked_shl], [checked_shr] (eval.rs:172,182; value.rs:209,217,232,234):
    only the shift amount is checked; [shl] drops high bits, [shr] is arithmetic. *)
Definition checked_shl (a n : Z) : option Z :=
  if (n <? 128)%Z then Some (wrap128 (Z.shiftl a n)) else None.
Definition checked_shr (a n : Z) : option Z :=
  if (n <? 128)%Z then Some (Z.shiftr a n) else None.

(** [TryInto] from i128 to an unsigned type of [bits] bits (eval.rs:172,358..366,485). *)
Definition try_into_u (bits : Z) (z : Z) : res Z :=
  if ((0 <=? z) && (z <? 2 ^ bits))%Z then Ok z else Err ETryFromInt.

(** [as usize] on a 64-bit target (eval.rs:274, value.rs:292). *)
Definition as_usize (z : Z) : Z := (z mod 2 ^ 64)%Z.

(** [+] on [usize]: panics with overflow checks (debug), wraps without (release). *)
Definition usize_add (oc : bool) (a b : Z) : res Z :=
  if (a + b <? 2 ^ 64)%Z then Ok (a + b)%Z
  else if oc then Panic PArith else Ok ((a + b) mod 2 ^ 64)%Z.
(** [*] on [usize]. *)
Definition usize_mul (oc : bool) (a b : Z) : res Z :=
  if (a * b <? 2 ^ 64)%Z then Ok (a * b)%Z
  else if oc then Panic PArith else Ok ((a * b) mod 2 ^ 64)%Z.
(** unary [-] on [i128] (eval.rs:262, value.rs:253). *)
Definition i128_neg (oc : bool) (a : Z) : res Z :=
  if in_i128 (- a) then Ok (- a)%Z
  else if oc then Panic PArith else Ok (wrap128 (- a)).

Definition U64_MAX : Z := 2 ^ 64 - 1.
Definition U8_MAX : Z := 255.
Definition U32_MAX : Z := 2 ^ 32 - 1.

(** [slice.len()] *)
Definition zlen {A} (l : list A) : Z := Z.of_nat (length l).

(** [&l[n..]]: panics when n > len. *)
Definition slice_from {A} (l : list A) (n : Z) : res (list A) :=
  if (n <=? zlen l)%Z then Ok (skipn (Z.to_nat n) l) else Panic PSlice.
(** [&l[a..b]]: panics when a > b or b > len. *)
Definition slice {A} (l : list A) (a b : Z) : res (list A) :=
  if ((a <=? b) && (b <=? zlen l))%Z
  then Ok (firstn (Z.to_nat (b - a)) (skipn (Z.to_nat a) l)) else Panic PSlice.
(** [l[i]]: panics when i >= len. *)
Definition index {A} (l : list A) (i : Z) : res A :=
  match nth_error l (Z.to_nat i) with Some a => Ok a | None => Panic PSlice end.
(** [l.get(a..b)]: None when a > b or b > len. *)
Definition get_range {A} (l : list A) (a b : Z) : option (list A) :=
  if ((a <=? b) && (b <=? zlen l))%Z
  then Some (firstn (Z.to_nat (b - a)) (skipn (Z.to_nat a) l)) else None.

(** [Iterator::find_map] / [find] *)
Fixpoint find_map {A B} (f : A -> option B) (l : list A) : option B :=
  match l with
  | [] => None
  | x :: l' => match f x with Some b => Some b | None => find_map f l' end
  end.

(** [" ".repeat(n)], ["@".repeat(n)] *)
Definition repeat_char (c : N) (n : nat) : str := repeat c n.
