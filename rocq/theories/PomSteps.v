(** The parser combinators of Pom.v with a step counter: the result together with the number
    of parser invocations (every call of a combinator or primitive is one step, as every one
    is one call of a boxed closure in pom).  Erasing the counter gives Pom.v back
    (Proof_Steps.v).  [lexical]: with [tok = true] a whole token (white space, a name, a
    constant, a string, a cast prefix) counts as one step. *)
From Verif Require Import Base Pom.

Definition cparser (A : Type) := str -> pres A * Z.

(** a primitive ([is_a], [sym], [tag], [end] of Pom.v) is one step *)
Definition cprim {A} (p : parser A) : cparser A := fun i => (p i, 1%Z).
(** a token *)
Definition lexical {A} (tok : bool) (p : cparser A) : cparser A := fun i =>
  let (x, c) := p i in (x, if tok then 1%Z else c).

(** [.map(f)] *)
Definition cmap {A B} (f : A -> B) (p : cparser A) : cparser B := fun i =>
  match p i with (POk a r, c) => (POk (f a) r, c + 1)%Z | (PFail, c) => (PFail, c + 1)%Z | (PFuel, c) => (PFuel, c + 1)%Z end.
(** [.convert(f)] *)
Definition cconvert {A B} (p : cparser A) (f : A -> option B) : cparser B := fun i =>
  match p i with
  | (POk a r, c) => (match f a with Some b => POk b r | None => PFail end, c + 1)%Z
  | (PFail, c) => (PFail, c + 1)%Z
  | (PFuel, c) => (PFuel, c + 1)%Z
  end.
(** [p + q] *)
Definition cseq {A B} (p : cparser A) (q : cparser B) : cparser (A * B) := fun i =>
  match p i with
  | (POk a r, c) => match q r with
                    | (POk b r', c') => (POk (a, b) r', c + c' + 1)%Z
                    | (PFail, c') => (PFail, c + c' + 1)%Z
                    | (PFuel, c') => (PFuel, c + c' + 1)%Z
                    end
  | (PFail, c) => (PFail, c + 1)%Z
  | (PFuel, c) => (PFuel, c + 1)%Z
  end.
(** [p * q], [p - q] *)
Definition cright {A B} (p : cparser A) (q : cparser B) : cparser B := cmap snd (cseq p q).
Definition cleft {A B} (p : cparser A) (q : cparser B) : cparser A := cmap fst (cseq p q).
(** [p | q] *)
Definition calt {A} (p q : cparser A) : cparser A := fun i =>
  match p i with
  | (POk a r, c) => (POk a r, c + 1)%Z
  | (PFail, c) => let (x, c') := q i in (x, c + c' + 1)%Z
  | (PFuel, c) => (PFuel, c + 1)%Z
  end.
(** [p.opt()] *)
Definition copt {A} (p : cparser A) : cparser (option A) := fun i =>
  match p i with (POk a r, c) => (POk (Some a) r, c + 1)%Z | (PFail, c) => (POk None i, c + 1)%Z | (PFuel, c) => (PFuel, c + 1)%Z end.
(** [p.repeat(0..)]: one step for every round *)
Fixpoint crep_n {A} (n : nat) (p : cparser A) (i : str) : pres (list A) * Z :=
  match n with
  | O => (PFuel, 1%Z)
  | S n' =>
    match p i with
    | (POk a r, c) => match crep_n n' p r with
                      | (POk l r', c') => (POk (a :: l) r', c + c' + 1)%Z
                      | (PFail, c') => (PFail, c + c' + 1)%Z
                      | (PFuel, c') => (PFuel, c + c' + 1)%Z
                      end
    | (PFail, c) => (POk [] i, c + 1)%Z
    | (PFuel, c) => (PFuel, c + 1)%Z
    end
  end.
Definition crep {A} (p : cparser A) : cparser (list A) := fun i => crep_n (S (length i)) p i.
(** [p.repeat(1..)] *)
Definition crep1 {A} (p : cparser A) : cparser (list A) :=
  cconvert (crep p) (fun l => match l with [] => None | _ => Some l end).
(** [p.repeat(n)] *)
Fixpoint ctimes {A} (n : nat) (p : cparser A) : cparser (list A) :=
  match n with
  | O => fun i => (POk [] i, 1%Z)
  | S n' => cmap (fun x => fst x :: snd x) (cseq p (ctimes n' p))
  end.
(** [.discard()] *)
Definition cdiscard {A} (p : cparser A) : cparser unit := cmap (fun _ => tt) p.
(** [p.collect()] *)
Definition ccollect {A} (p : cparser A) : cparser str := fun i =>
  match p i with
  | (POk _ r, c) => (POk (firstn (length i - length r) i) r, c + 1)%Z
  | (PFail, c) => (PFail, c + 1)%Z
  | (PFuel, c) => (PFuel, c + 1)%Z
  end.
(** [list(p, sep)] *)
Definition clist {A B} (p : cparser A) (sep : cparser B) : cparser (list A) := fun i =>
  match p i with
  | (POk a r, c) =>
    match crep (cright sep p) r with
    | (POk l r', c') => (POk (a :: l) r', c + c' + 1)%Z
    | (PFail, c') => (PFail, c + c' + 1)%Z
    | (PFuel, c') => (PFuel, c + c' + 1)%Z
    end
  | (PFail, c) => (POk [] i, c + 1)%Z
  | (PFuel, c) => (PFuel, c + 1)%Z
  end.
