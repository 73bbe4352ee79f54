(** Values, their display, and decoding from bytes:
    /repo/src/lang/eval/value.rs:10-556, /repo/src/lang/functions.rs:5-40. *)
From Verif Require Import Base Structs.
Arguments s_ s%string_scope.

(** functions.rs:5-14 *)
Inductive func : Type := FKey | FKeyOf | FSearch | FTypeOf | FLen | FHist | FStr.

(** value.rs:10-24 [Value] with [Array] (value.rs:118-125), [Struct]
    (value.rs:275-283) and [StructField] (value.rs:460-464) inlined. *)
Inductive value : Type :=
| VInt (z : Z)
| VStr (bytes : str)
| VBool (b : bool)
| VArr (vec : list value) (is_hist : bool)
| VFun (f : func)
| VStruct (name : str) (key : option (Z * Z * Z)) (fields : list (str * value)).

(** Induction principle with hypotheses for nested values. *)
Section ValueInd.
Variable P : value -> Prop.
Hypothesis HInt : forall z, P (VInt z).
Hypothesis HStr : forall s, P (VStr s).
Hypothesis HBool : forall b, P (VBool b).
Hypothesis HArr : forall vs h, Forall P vs -> P (VArr vs h).
Hypothesis HFun : forall f, P (VFun f).
Hypothesis HStruct : forall n k fs, Forall (fun f => P (snd f)) fs -> P (VStruct n k fs).
Fixpoint value_ind' (v : value) : P v :=
  match v with
  | VInt z => HInt z
  | VStr s => HStr s
  | VBool b => HBool b
  | VArr vs h =>
    HArr vs h ((fix go (l : list value) : Forall P l :=
                  match l with [] => Forall_nil _ | x :: l' => Forall_cons x (value_ind' x) (go l') end) vs)
  | VFun f => HFun f
  | VStruct n k fs =>
    HStruct n k fs ((fix go (l : list (str * value)) : Forall (fun f => P (snd f)) l :=
                  match l with [] => Forall_nil _ | x :: l' => Forall_cons x (value_ind' (snd x)) (go l') end) fs)
  end.
End ValueInd.

(** functions.rs:16-28 *)
Definition func_name (f : func) : str :=
  match f with
  | FKey => s_ "key" | FKeyOf => s_ "keyof" | FSearch => s_ "search" | FTypeOf => s_ "typeof"
  | FLen => s_ "len" | FHist => s_ "hist" | FStr => s_ "str"
  end.

(** functions.rs:30-40 *)
Definition FUNCTIONS : list func := [FKey; FSearch; FTypeOf; FKeyOf; FLen; FHist; FStr].

(** [derive(PartialEq)], value.rs:10, functions.rs:5 *)
Definition func_eqb (a b : func) : bool :=
  match a, b with
  | FKey, FKey | FKeyOf, FKeyOf | FSearch, FSearch | FTypeOf, FTypeOf
  | FLen, FLen | FHist, FHist | FStr, FStr => true
  | _, _ => false
  end.
Definition key_eqb (a b : option (Z * Z * Z)) : bool :=
  match a, b with
  | None, None => true
  | Some (x, y, z), Some (x', y', z') => (x =? x')%Z && (y =? y')%Z && (z =? z')%Z
  | _, _ => false
  end.
(** [derive(PartialEq)] on Value, Array, Struct, StructField: value.rs:10,118,275,460 *)
Fixpoint value_eqb (a b : value) {struct a} : bool :=
  match a, b with
  | VInt x, VInt y => (x =? y)%Z
  | VStr x, VStr y => str_eqb x y
  | VBool x, VBool y => eqb x y
  | VArr x h, VArr y h' =>
    (fix go (l l' : list value) {struct l} : bool :=
       match l, l' with
       | [], [] => true
       | u :: t, u' :: t' => value_eqb u u' && go t t'
       | _, _ => false
       end) x y && eqb h h'
  | VFun x, VFun y => func_eqb x y
  | VStruct n k f, VStruct n' k' f' =>
    str_eqb n n' && key_eqb k k' &&
    (fix go (l l' : list (str * value)) {struct l} : bool :=
       match l, l' with
       | [], [] => true
       | (m, u) :: t, (m', u') :: t' => str_eqb m m' && value_eqb u u' && go t t'
       | _, _ => false
       end) f f'
  | _, _ => false
  end.

(** value.rs:34-43 [type_str] *)
Definition type_str (v : value) : str :=
  match v with
  | VInt _ => s_ "integer"
  | VStr _ => s_ "string"
  | VBool _ => s_ "boolean"
  | VArr _ _ => s_ "array"
  | VFun _ => s_ "function"
  | VStruct n _ _ => s_ "struct " ++ n
  end.

(** ** Text *)

(** lower-case hexadecimal digit *)
Definition hex_digit (d : N) : N := if (d <? 10)%N then (48 + d)%N else (87 + d)%N.
(** [std::ascii::escape_default], value.rs:69 *)
Definition escape_byte (b : N) : str :=
  if (b =? 9)%N then [92; 116]%N
  else if (b =? 13)%N then [92; 114]%N
  else if (b =? 10)%N then [92; 110]%N
  else if (b =? 39)%N then [92; 39]%N
  else if (b =? 34)%N then [92; 34]%N
  else if (b =? 92)%N then [92; 92]%N
  else if ((32 <=? b) && (b <=? 126))%N then [b]
  else [92; 120; hex_digit (b / 16); hex_digit (b mod 16)]%N.
(** [u8::is_ascii_whitespace]: tab, LF, FF, CR, space *)
Definition is_ascii_ws (b : N) : bool := existsb (N.eqb b) [9; 10; 12; 13; 32]%N.
(** value.rs:59-77 [as_string] on a string.  [String::from_utf8] cannot fail: the
    bytes produced are ASCII (lemma [escape_ascii]). *)
Definition escape (esc_ws : bool) (s : str) : str :=
  flat_map (fun b => if negb esc_ws && is_ascii_ws b then [b] else escape_byte b) s.

(** UTF-8 encoding, [str::as_bytes] (eval.rs:67) *)
Definition utf8_char (c : N) : str :=
  (if c <? 128 then [c]
   else if c <? 2048 then [192 + c / 64; 128 + c mod 64]
   else if c <? 65536 then [224 + c / 4096; 128 + (c / 64) mod 64; 128 + c mod 64]
   else [240 + c / 262144; 128 + (c / 4096) mod 64; 128 + (c / 64) mod 64; 128 + c mod 64])%N.
Definition utf8 (s : str) : str := flat_map utf8_char s.

(** Decimal display of integers ([impl Display for i128/usize]). *)
Fixpoint uint_str (u : Decimal.uint) : str :=
  match u with
  | Decimal.Nil => []
  | Decimal.D0 u => 48%N :: uint_str u
  | Decimal.D1 u => 49%N :: uint_str u
  | Decimal.D2 u => 50%N :: uint_str u
  | Decimal.D3 u => 51%N :: uint_str u
  | Decimal.D4 u => 52%N :: uint_str u
  | Decimal.D5 u => 53%N :: uint_str u
  | Decimal.D6 u => 54%N :: uint_str u
  | Decimal.D7 u => 55%N :: uint_str u
  | Decimal.D8 u => 56%N :: uint_str u
  | Decimal.D9 u => 57%N :: uint_str u
  end.
Definition dec_N (n : N) : str := uint_str (N.to_uint n).
Definition dec_Z (z : Z) : str :=
  if (z <? 0)%Z then 45%N :: dec_N (Z.to_N (- z)) else dec_N (Z.to_N z).

(** [str::lines]: split at "\n" (dropping one "\r" before it); a final line without
    "\n" is kept as is, a final empty one is dropped.  Used by value.rs:192,440 and
    input.rs:29.  [cur] is the current line, reversed. *)
Fixpoint lines_from (cur s : str) : list str :=
  match s with
  | [] => match cur with [] => [] | _ => [rev cur] end
  | c :: r =>
    if (c =? 10)%N
    then (match cur with
          | 13%N :: cur' => rev cur'
          | _ => rev cur
          end) :: lines_from [] r
    else lines_from (c :: cur) r
  end.
Definition lines (s : str) : list str := lines_from [] s.

(** value.rs:428-430 [indent(1)] *)
Definition indent : str := s_ "    ".
Definition nl : str := [10%N].

(** [impl Display]: Value value.rs:101-116, Array value.rs:185-200, Struct
    value.rs:432-458.  [expect("Value has no display")] cannot fail because the
    text is never empty (lemma [lines_comma_nonempty]); the model uses no line there. *)
Fixpoint display (v : value) : str :=
  match v with
  | VInt z => dec_Z z
  | VStr s => escape true s
  | VBool b => if b then s_ "true" else s_ "false"
  | VArr vs _ =>
    s_ "[" ++ nl
    ++ flat_map (fun x => flat_map (fun l => indent ++ l ++ nl) (lines (display x ++ s_ ","))) vs
    ++ s_ "]"
  | VFun f => func_name f ++ s_ "()"
  | VStruct n _ fs =>
    s_ "struct " ++ n ++ s_ " {" ++ nl
    ++ flat_map (fun f =>
         match lines (display (snd f) ++ s_ ",") with
         | [] => []
         | l :: ls => indent ++ s_ "." ++ fst f ++ s_ " = " ++ l ++ nl
                      ++ flat_map (fun l => indent ++ l ++ nl) ls
         end) fs
    ++ s_ "}"
  end.

(** value.rs:26-32 [short_display] *)
Definition short_display (v : value) : str :=
  match v with
  | VArr vs _ => s_ "[][" ++ dec_Z (zlen vs) ++ s_ "]"
  | VStruct n _ _ => s_ "struct " ++ n
  | _ => display v
  end.
(** the error of the conversions below, value.rs:48,55,75,82,89,96 and eval.rs:257 *)
Definition expected (what : string) (v : value) : error := EExpected (s_ what) (short_display v).

(** value.rs:45-50 *)
Definition as_integer (v : value) : res Z :=
  match v with VInt z => Ok z | _ => Err (expected "integer" v) end.
(** value.rs:52-57 *)
Definition as_boolean (v : value) : res bool :=
  match v with VBool b => Ok b | _ => Err (expected "boolean" v) end.
(** value.rs:79-84 *)
Definition as_vec (v : value) : res (list value) :=
  match v with VArr vs _ => Ok vs | _ => Err (expected "array" v) end.
(** value.rs:86-91: name, key, fields *)
Definition as_struct (v : value) : res (str * option (Z * Z * Z) * list (str * value)) :=
  match v with VStruct n k fs => Ok (n, k, fs) | _ => Err (expected "struct" v) end.
(** value.rs:93-98 *)
Definition as_function (v : value) : res func :=
  match v with VFun f => Ok f | _ => Err (expected "function" v) end.
(** value.rs:59-77 *)
Definition as_string (esc_ws : bool) (v : value) : res str :=
  match v with VStr s => Ok (escape esc_ws s) | _ => Err (expected "string" v) end.

(** ** Histograms *)

(** value.rs:207-210 [while i <= x { i = i.checked_shl(1)? }]; outer [option] is the
    step budget, inner one the [?] *)
Fixpoint shl_while_le (k : nat) (x i : Z) : res (option Z) :=
  match k with
  | O => Fuel
  | S k' => if (i <=? x)%Z then
              match checked_shl i 1 with
              | Some i' => shl_while_le k' x i'
              | None => Ok None
              end
            else Ok (Some i)
  end.
(** value.rs:215-218 [while i > x { i = i.checked_shl(1)? }] *)
Fixpoint shl_while_gt (k : nat) (x i : Z) : res (option Z) :=
  match k with
  | O => Fuel
  | S k' => if (i >? x)%Z then
              match checked_shl i 1 with
              | Some i' => shl_while_gt k' x i'
              | None => Ok None
              end
            else Ok (Some i)
  end.
(** value.rs:203-223 *)
Definition previous_power_2 (k : nat) (x : Z) : res (option Z) :=
  if (x =? 0)%Z then Ok (Some 0%Z)
  else if (x >? 0)%Z then
    let* o := shl_while_le k x 1 in
    match o with Some i => Ok (Some (Z.shiftr i 1)) | None => Ok None end
  else shl_while_gt k x (-1).
(** value.rs:226-236 *)
Definition next_power_2 (k : nat) (x : Z) : res (option Z) :=
  if (x =? -1)%Z then Ok (Some 0%Z)
  else if (x =? 0)%Z then Ok (Some 1%Z)
  else if (x >? 0)%Z then
    let* o := previous_power_2 k x in
    match o with Some p => Ok (checked_shl p 1) | None => Ok None end
  else
    let* o := previous_power_2 k x in
    match o with Some p => Ok (checked_shr p 1) | None => Ok None end.

(** value.rs:243-273 *)
Definition num_bytes_to_pretty (k : nat) (oc : bool) (bytes : Z) : res str :=
  let* o := previous_power_2 k bytes in
  let* p := unwrap o in
  if negb (bytes =? p)%Z then Panic PAssert
  else if (bytes =? 0)%Z then Ok (s_ "0")
  else
    let neg := (bytes <? 0)%Z in
    let* b := if neg then i128_neg oc bytes else Ok bytes in
    let out :=
      if negb (Z.shiftr b 40 =? 0)%Z then dec_Z (Z.shiftr b 40) ++ s_ "T"
      else if negb (Z.shiftr b 30 =? 0)%Z then dec_Z (Z.shiftr b 30) ++ s_ "G"
      else if negb (Z.shiftr b 20 =? 0)%Z then dec_Z (Z.shiftr b 20) ++ s_ "M"
      else if negb (Z.shiftr b 10 =? 0)%Z then dec_Z (Z.shiftr b 10) ++ s_ "K"
      else dec_Z b in
    Ok (if neg then 45%N :: out else out).

(** value.rs:129-138: the integers of the array *)
Fixpoint hist_vals (vs : list value) : res (list Z) :=
  match vs with
  | [] => Ok []
  | VInt z :: vs' => let* r := hist_vals vs' in Ok (z :: r)
  | v :: _ => Err (EHistValue (short_display v))
  end.

(** [Iterator::min]/[max] of a non-empty list *)
Definition zmin (x : Z) (l : list Z) : Z := fold_left Z.min l x.
Definition zmax (x : Z) (l : list Z) : Z := fold_left Z.max l x.

(** value.rs:155 [filter(|v| v >= cur && v < next).count()] *)
Definition count_in (vals : list Z) (cur next : Z) : Z :=
  zlen (filter (fun v => (cur <=? v) && (v <? next))%Z vals).

(** value.rs:152-159: the bucket loop *)
Fixpoint hist_buckets (k : nat) (vals : list Z) (max cur : Z) : res (list (Z * Z * Z)) :=
  match k with
  | O => Fuel
  | S k' =>
    if (cur <? max)%Z then
      let* o := next_power_2 k' cur in
      let* next := ok_or o (EHistPower (s_ "next") cur) in
      let* rest := hist_buckets k' vals max next in
      Ok ((cur, next, count_in vals cur next) :: rest)
    else Ok []
  end.

(** [{:w}] on text (pad right) and on numbers (pad left) *)
Definition pad_right (w : nat) (s : str) : str := s ++ repeat_char 32 (w - List.length s).
Definition pad_left (w : nat) (s : str) : str := repeat_char 32 (w - List.length s) ++ s.

(** value.rs:164-178: one line of the diagram.  [count * 50] does not overflow: an
    array has fewer than 2^58 elements. *)
Definition hist_line (k : nat) (oc : bool) (n : Z) (b : Z * Z * Z) : res str :=
  let '(start, stop, count) := b in
  let* s := num_bytes_to_pretty k oc start in
  let* e := num_bytes_to_pretty k oc stop in
  let range := s_ "[" ++ s ++ s_ ", " ++ e ++ s_ ")" in
  let bar := repeat_char 64 (Z.to_nat (count * 50 / n)) in
  Ok (pad_right 17 range ++ pad_left 6 (dec_Z count) ++ s_ " |" ++ pad_right 50 bar ++ s_ "|" ++ nl).

Fixpoint hist_lines (k : nat) (oc : bool) (n : Z) (bs : list (Z * Z * Z)) : res str :=
  match bs with
  | [] => Ok []
  | b :: bs' =>
    let* l := hist_line k oc n b in
    let* r := hist_lines k oc n bs' in
    Ok (l ++ r)
  end.

(** value.rs:128-182 [as_hist].  All buckets are computed before drawing. *)
Definition as_hist (k : nat) (oc : bool) (vs : list value) : res str :=
  let* vals := hist_vals vs in
  match vals with
  | [] => Ok []
  | v :: vals' =>
    let min := zmin v vals' in
    let max := zmax v vals' in
    let* o := previous_power_2 k min in
    let* cur := ok_or o (EHistPower (s_ "previous") min) in
    let* bs := hist_buckets k vals max cur in
    hist_lines k oc (zlen vals) bs
  end.

(** ** Structs *)

(** value.rs:403-410 [field] *)
Fixpoint assoc {A} (k : str) (l : list (str * A)) : option A :=
  match l with
  | [] => None
  | (n, v) :: l' => if str_eqb n k then Some v else assoc k l'
  end.
Definition get_field (s : str) (fs : list (str * value)) (f : str) : res value :=
  ok_or (assoc f fs) (ENoSuchField f s).   (* [s] is the name of the struct *)

(** value.rs:412-425 [field_mut] followed by a store: the first field named [f]
    is passed through [g]; None when there is no such field *)
Fixpoint assoc_update {A} (k : str) (g : A -> res A) (l : list (str * A)) : option (res (list (str * A))) :=
  match l with
  | [] => None
  | (n, v) :: l' =>
    if str_eqb n k then Some (let* v' := g v in Ok ((n, v') :: l'))
    else match assoc_update k g l' with
         | None => None
         | Some r => Some (let* t := r in Ok ((n, v) :: t))
         end
  end.

(** value.rs:286-297 *)
Definition get_field_value (n : str) (processed : list (str * value)) : res Z :=
  match assoc n processed with
  | Some v => let* z := as_integer v in Ok (as_usize z)
  | None => Err (ENoLengthField n)
  end.

(** [uN::from_le_bytes]: little-endian value *)
Fixpoint le (bytes : str) : Z :=
  match bytes with [] => 0%Z | b :: r => (Z.of_N b + 256 * le r)%Z end.
(** [bytes[0..n].try_into()?], value.rs:514-516 *)
Definition le_int (n : Z) (bytes : str) : res value :=
  let* s := slice bytes 0 n in Ok (VInt (le s)).

Section Decode.
(** overflow checks on (debug build) *)
Variable oc : bool.
(** handling of a dynamic struct: name and key_match of the enclosing struct,
    callback, remaining bytes; gives the decoded fields and the size *)
Variable dyn : str -> (Z -> Z -> Z -> bool) -> (str -> res (list field)) -> str ->
               res (list (str * value) * Z).

(** value.rs:358-364; [ev] decodes one element of size [tsize] *)
Fixpoint trail_loop (ev : str -> res value) (tsize : Z) (count : nat) (bytes : str) (offset : Z)
  : res (list value * Z) :=
  match count with
  | O => Ok ([], offset)
  | S c =>
    let* stop := usize_add oc offset tsize in
    let* sl := slice bytes offset stop in
    let* v := ev sl in
    let* r := trail_loop ev tsize c bytes stop in
    Ok (v :: fst r, snd r)
  end.

Section Loops.
(** [Type::to_value] *)
Variable tv : ty -> str -> res value.

(** value.rs:474-503 [StructField::from_bytes] *)
Definition field_from_bytes (f : field) (bytes : str) : res (list (str * value)) :=
  let* _ := ensure (ty_size (snd f) <=? zlen bytes)%Z
              (ENotEnoughBytes (match fst f with Some n => n | None => s_ "(anon)" end) []
                               (zlen bytes) (ty_size (snd f))) in
  let* v := tv (snd f) bytes in
  match fst f with
  | Some n => Ok [(n, v)]
  | None => match v with VStruct _ _ fs => Ok fs | _ => Err (EAnonymous (s_ "Only structs can be used as anonymous fields")) end
  end.

(** value.rs:322-398: the loop over the fields of [Struct::from_bytes] *)
Fixpoint struct_loop (name : str) (km : Z -> Z -> Z -> bool) (fs : list field) (bytes : str)
         (offset : Z) (acc : list (str * value)) : res (list (str * value)) :=
  match fs with
  | [] => Ok acc
  | f :: fs' =>
    match snd f with
    | TTrailStr n =>                                        (* value.rs:325-345 *)
      let* len := get_field_value n acc in
      let* stop := usize_add oc len offset in
      let* _ := ensure (stop <=? zlen bytes)%Z (ENotEnoughBytes name (s_ " for string read") (zlen bytes) stop) in
      let* nm := ok_or (fst f) (EAnonymous (s_ "TrailingString can't be anonymous")) in
      let* s := slice bytes offset stop in
      let* offset' := usize_add oc offset len in
      struct_loop name km fs' bytes offset' (acc ++ [(nm, VStr s)])
    | TTrailTypes t n =>                                    (* value.rs:346-375 *)
      let* count := get_field_value n acc in
      let* total := usize_mul oc (ty_size t) count in
      let* stop := usize_add oc total offset in
      let* _ := ensure (stop <=? zlen bytes)%Z
                (ENotEnoughBytes name (s_ " for trailing types read") (zlen bytes) stop) in
      let* r := trail_loop (tv t) (ty_size t) (Z.to_nat count) bytes offset in
      let* nm := ok_or (fst f) (EAnonymous (s_ "TrailingTypes array can't be anonymous")) in
      struct_loop name km fs' bytes (snd r) (acc ++ [(nm, VArr (fst r) false)])
    | TDyn cb =>                                            (* value.rs:376-391 *)
      let* rest := slice_from bytes offset in
      let* r := dyn name km cb rest in
      let* offset' := usize_add oc offset (snd r) in
      struct_loop name km fs' bytes offset' (acc ++ fst r)
    | _ =>                                                  (* value.rs:392-396 *)
      let* rest := slice_from bytes offset in
      let* r := field_from_bytes f rest in
      let* offset' := usize_add oc offset (ty_size (snd f)) in
      struct_loop name km fs' bytes offset' (acc ++ r)
    end
  end.

(** value.rs:535-548: all fields of a union from the same offset *)
Fixpoint union_loop (fs : list field) (bytes : str) (acc : list (str * value)) : res (list (str * value)) :=
  match fs with
  | [] => Ok acc
  | f :: fs' =>
    let* r := field_from_bytes f bytes in
    union_loop fs' bytes (acc ++ r)
  end.
End Loops.

(** value.rs:520-531: array elements *)
Fixpoint array_loop (ev : str -> res value) (tsize : Z) (n : nat) (i : Z) (bytes : str) : res (list value) :=
  match n with
  | O => Ok []
  | S n' =>
    let* rest := slice_from bytes (i * tsize) in
    let* v := ev rest in
    let* r := array_loop ev tsize n' (i + 1) bytes in
    Ok (v :: r)
  end.

(** value.rs:511-556 [Type::to_value]; [Struct::from_bytes] (value.rs:303-401) inlined for
    nested structs *)
Fixpoint to_value (t : ty) (bytes : str) : res value :=
  match t with
  | TU8 => let* b := index bytes 0 in Ok (VInt (Z.of_N b))
  | TU16 => le_int 2 bytes
  | TU32 => le_int 4 bytes
  | TU64 => le_int 8 bytes
  | TArray t n =>
    let* vs := array_loop (to_value t) (ty_size t) n 0 bytes in Ok (VArr vs false)
  | TStruct nm km fs =>
    let* _ := ensure (ty_size (TStruct nm km fs) <=? zlen bytes)%Z
              (ENotEnoughBytes nm [] (zlen bytes) (ty_size (TStruct nm km fs))) in
    let* r := struct_loop to_value nm km fs bytes 0 [] in
    Ok (VStruct nm None r)
  | TUnion nm fs =>
    let* r := union_loop to_value fs bytes [] in
    Ok (VStruct nm None r)
  | TTrailStr _ => Panic PExplicit
  | TTrailTypes _ _ => Panic PExplicit
  | TDyn _ => Panic PExplicit
  end.

(** value.rs:303-401 [Struct::from_bytes] *)
Definition from_bytes_gen (s : strct) (key : option (Z * Z * Z)) (bytes : str) : res value :=
  let* _ := ensure (st_size s <=? zlen bytes)%Z (ENotEnoughBytes (st_name s) [] (zlen bytes) (st_size s)) in
  let* r := struct_loop to_value (st_name s) (st_km s) (st_fields s) bytes 0 [] in
  Ok (VStruct (st_name s) key r).
End Decode.

(** The dynamic case inside an already reified struct.  Unreachable, because a
    reified struct must be statically sized (value.rs:381-384). *)
Definition dyn_none : str -> (Z -> Z -> Z -> bool) -> (str -> res (list field)) -> str ->
                      res (list (str * value) * Z) := fun _ _ _ _ => Panic PExplicit.

(** value.rs:376-391: reify the struct from the bytes and decode it.  The Rust
    recursion is one level deep here: the inner decode meets no dynamic struct. *)
Definition dyn_struct (oc : bool) : str -> (Z -> Z -> Z -> bool) -> (str -> res (list field)) -> str ->
                      res (list (str * value) * Z) :=
  fun name km cb bytes =>
    let* fs := cb bytes in
    let reified := mk_strct name km fs in
    let* _ := ensure (st_static reified) ENotStatic in
    let* v := from_bytes_gen oc dyn_none reified None bytes in
    match v with
    | VStruct _ _ r => Ok (r, st_size reified)
    | _ => Panic PExplicit
    end.

(** value.rs:303-401 *)
Definition from_bytes (oc : bool) (s : strct) (key : option (Z * Z * Z)) (bytes : str) : res value :=
  from_bytes_gen oc (dyn_struct oc) s key bytes.
