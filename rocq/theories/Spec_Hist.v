(** What printing a histogram should show. *)
From Verif Require Import Base Value Spec_Grammar.
Arguments s_ s%string_scope.

(** 0 and the powers of two and their negatives *)
Definition power_of_two (z : Z) : Prop := z = 0%Z \/ exists j, (0 <= j)%Z /\ (z = 2 ^ j \/ z = - 2 ^ j)%Z.

(** number of values in [a, b) *)
Definition number_in (vals : list Z) (a b : Z) : nat :=
  length (filter (fun v => (a <=? v) && (v <? b))%Z vals).

(** contiguous ascending buckets (start, end, count) from a to b *)
Inductive buckets (vals : list Z) : Z -> list (Z * Z * Z) -> Z -> Prop :=
| buckets_nil a : power_of_two a -> buckets vals a [] a
| buckets_cons a b z bs :
    power_of_two a -> power_of_two b -> (a < b)%Z -> (forall p, power_of_two p -> (a < p)%Z -> (b <= p)%Z) ->
    buckets vals b bs z ->
    buckets vals a ((a, b, Z.of_nat (number_in vals a b)) :: bs) z.
Definition total (bs : list (Z * Z * Z)) : Z := fold_right (fun b acc => snd b + acc)%Z 0%Z bs.

(** labels: a sign, a decimal number and a suffix meaning a power of 1024 *)
Definition suffixes : list str := [s_ ""; s_ "K"; s_ "M"; s_ "G"; s_ "T"].
Inductive label : str -> Z -> Prop :=
| label_pos ds n i sfx : numeral ds n -> ds <> [] -> nth_error suffixes i = Some sfx -> label (ds ++ sfx) (n * 1024 ^ Z.of_nat i)
| label_neg ds n i sfx : numeral ds n -> ds <> [] -> nth_error suffixes i = Some sfx -> label (s_ "-" ++ ds ++ sfx) (- (n * 1024 ^ Z.of_nat i)).

(** the columns: a text filled up with spaces to (at least) w characters, behind it or before it *)
Definition spaces (n : nat) : str := repeat 32%N n.
Definition left_aligned (w : nat) (s : str) : str := s ++ spaces (w - length s).
Definition right_aligned (w : nat) (s : str) : str := spaces (w - length s) ++ s.

(** one line per bucket: "[start, end)", the count, and a bar of length 50 * count / n *)
Inductive diagram (n : Z) : list (Z * Z * Z) -> str -> Prop :=
| diagram_nil : diagram n [] []
| diagram_cons a b c bs la lb rest :
    label la a -> label lb b -> diagram n bs rest ->
    diagram n ((a, b, c) :: bs)
      (left_aligned 17 (s_ "[" ++ la ++ s_ ", " ++ lb ++ s_ ")") ++ right_aligned 6 (dec_Z c) ++
       s_ " |" ++ left_aligned 50 (repeat 64%N (Z.to_nat (c * 50 / n))) ++ s_ "|" ++ [10%N] ++ rest).
