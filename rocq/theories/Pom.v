(** The pom 3.2 parser combinators used by /repo/src/lang/parse.rs:36.

    A pom parser maps (input, start position) to a result and the next position
    or an error.  Here the position is represented by the remaining suffix of the
    input.  Error payloads are not modelled: parse.rs never uses [expect], so all
    errors backtrack in the same way.  [PFuel] marks exhaustion of the
    recursion budget (see Parse.v); it is never produced on real inputs, which
    is theorem [parse_terminates]. *)
From Verif Require Import Base.

Inductive pres (A : Type) : Type :=
| POk (a : A) (rest : str)
| PFail
| PFuel.
Arguments POk {A} _ _.
Arguments PFail {A}.
Arguments PFuel {A}.

Definition parser (A : Type) := str -> pres A.

(** [.map(f)] *)
Definition pmap {A B} (f : A -> B) (p : parser A) : parser B := fun i =>
  match p i with POk a r => POk (f a) r | PFail => PFail | PFuel => PFuel end.

(** [.convert(f)]: f may fail, which fails the parser *)
Definition pconvert {A B} (p : parser A) (f : A -> option B) : parser B := fun i =>
  match p i with
  | POk a r => match f a with Some b => POk b r | None => PFail end
  | PFail => PFail
  | PFuel => PFuel
  end.

(** [p + q]: both results *)
Definition pseq {A B} (p : parser A) (q : parser B) : parser (A * B) := fun i =>
  match p i with
  | POk a r => match q r with POk b r' => POk (a, b) r' | PFail => PFail | PFuel => PFuel end
  | PFail => PFail
  | PFuel => PFuel
  end.
(** [p * q]: result of q *)
Definition pright {A B} (p : parser A) (q : parser B) : parser B := pmap snd (pseq p q).
(** [p - q]: result of p *)
Definition pleft {A B} (p : parser A) (q : parser B) : parser A := pmap fst (pseq p q).

(** [p | q]: ordered choice *)
Definition palt {A} (p q : parser A) : parser A := fun i =>
  match p i with POk a r => POk a r | PFail => q i | PFuel => PFuel end.

(** [p.opt()] *)
Definition popt {A} (p : parser A) : parser (option A) := fun i =>
  match p i with POk a r => POk (Some a) r | PFail => POk None i | PFuel => PFuel end.

(** [p.repeat(0..)]: the budget n bounds the number of repetitions; [prep]
    starts it above the input length, so it only runs out if p succeeds
    without consuming input (where pom would loop forever). *)
Fixpoint prep_n {A} (n : nat) (p : parser A) (i : str) : pres (list A) :=
  match n with
  | O => PFuel
  | S n' =>
    match p i with
    | POk a r => match prep_n n' p r with
                 | POk l r' => POk (a :: l) r'
                 | PFail => PFail
                 | PFuel => PFuel
                 end
    | PFail => POk [] i
    | PFuel => PFuel
    end
  end.
Definition prep {A} (p : parser A) : parser (list A) := fun i => prep_n (S (length i)) p i.

(** [p.repeat(1..)] *)
Definition prep1 {A} (p : parser A) : parser (list A) :=
  pconvert (prep p) (fun l => match l with [] => None | _ => Some l end).

(** [p.repeat(n)]: exactly n times *)
Fixpoint ptimes {A} (n : nat) (p : parser A) : parser (list A) :=
  match n with
  | O => fun i => POk [] i
  | S n' => pmap (fun x => fst x :: snd x) (pseq p (ptimes n' p))
  end.

(** [.discard()] *)
Definition pdiscard {A} (p : parser A) : parser unit := pmap (fun _ => tt) p.

(** [p.collect()]: the consumed slice of the input *)
Definition pcollect {A} (p : parser A) : parser str := fun i =>
  match p i with
  | POk _ r => POk (firstn (length i - length r) i) r
  | PFail => PFail
  | PFuel => PFuel
  end.

(** [is_a(pred)] *)
Definition is_a (f : N -> bool) : parser N := fun i =>
  match i with c :: r => if f c then POk c r else PFail | [] => PFail end.
(** [sym(c)] *)
Definition sym (c : N) : parser N := is_a (N.eqb c).
(** membership in a literal character set *)
Definition mem_char (set : str) (c : N) : bool := existsb (N.eqb c) set.
(** [one_of(set)] *)
Definition one_of (set : str) : parser N := is_a (mem_char set).
(** [none_of(set)] *)
Definition none_of (set : str) : parser N := is_a (fun c => negb (mem_char set c)).

(** [tag(s)] *)
Fixpoint strip_prefix (s i : str) : option str :=
  match s, i with
  | [], _ => Some i
  | c :: s', d :: i' => if N.eqb c d then strip_prefix s' i' else None
  | _ :: _, [] => None
  end.
Definition tag (s : str) : parser str := fun i =>
  match strip_prefix s i with Some r => POk s r | None => PFail end.

(** [list(p, sep)]: zero or more p separated by sep; a separator not followed
    by p is not consumed *)
Definition plist {A B} (p : parser A) (sep : parser B) : parser (list A) := fun i =>
  match p i with
  | POk a r =>
    match prep (pright sep p) r with
    | POk l r' => POk (a :: l) r'
    | PFail => PFail
    | PFuel => PFuel
    end
  | PFail => POk [] i
  | PFuel => PFuel
  end.

(** [end()] *)
Definition pend : parser unit := fun i =>
  match i with [] => POk tt [] | _ => PFail end.
