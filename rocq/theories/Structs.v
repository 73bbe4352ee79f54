(** Type descriptors: /repo/src/btrfs/structs.rs:12-135. *)
From Verif Require Import Base.

(** structs.rs:12-37 [Type], with [Field] (structs.rs:72-79) as a pair of an
    optional name and a type, [Union] (structs.rs:88-92) and [Struct]
    (structs.rs:111-121) inlined.  [TDyn] holds the Rust callback. *)
Inductive ty : Type :=
| TU8 | TU16 | TU32 | TU64
| TArray (t : ty) (n : nat)
| TStruct (name : str) (km : Z -> Z -> Z -> bool) (fields : list (option str * ty))
| TUnion (name : str) (fields : list (option str * ty))
| TTrailStr (len_field : str)
| TTrailTypes (t : ty) (count_field : str)
| TDyn (cb : str -> res (list (option str * ty))).

Definition field : Type := option str * ty.

(** structs.rs:111-121 *)
Record strct : Type := mk_strct {
  st_name : str;
  st_km : Z -> Z -> Z -> bool;
  st_fields : list field
}.

(** structs.rs:41-58 [Type::size], with [Struct::size] (structs.rs:127-129) and
    [Union::size] (structs.rs:98-103) inlined.  Simplification: [usize] overflow
    of sizes is not modelled; sizes come from the descriptors in
    definitions.rs, all below 1024 (lemma [shipped_sizes_small]). *)
Fixpoint ty_size (t : ty) : Z :=
  match t with
  | TU8 => 1
  | TU16 => 2
  | TU32 => 4
  | TU64 => 8
  | TArray t n => ty_size t * Z.of_nat n
  | TStruct _ _ fs => fold_left (fun acc f => acc + ty_size (snd f)) fs 0
  | TUnion _ fs => fold_left (fun acc f => Z.max acc (ty_size (snd f))) fs 0
  | TTrailStr _ => 0
  | TTrailTypes _ _ => 0
  | TDyn _ => 0
  end%Z.

(** structs.rs:61-69, and 106-108, 132-134 *)
Fixpoint is_static_sized (t : ty) : bool :=
  match t with
  | TU8 | TU16 | TU32 | TU64 => true
  | TArray t _ => is_static_sized t
  | TStruct _ _ fs => forallb (fun f => is_static_sized (snd f)) fs
  | TUnion _ fs => forallb (fun f => is_static_sized (snd f)) fs
  | TTrailStr _ | TTrailTypes _ _ | TDyn _ => false
  end.

(** structs.rs:127-129 *)
Definition st_size (s : strct) : Z := fold_left (fun acc f => acc + ty_size (snd f))%Z (st_fields s) 0%Z.
(** structs.rs:132-134 *)
Definition st_static (s : strct) : bool := forallb (fun f => is_static_sized (snd f)) (st_fields s).

(** Induction principle with hypotheses for nested fields. *)
Section TyInd.
Variable P : ty -> Prop.
Hypothesis HU8 : P TU8.
Hypothesis HU16 : P TU16.
Hypothesis HU32 : P TU32.
Hypothesis HU64 : P TU64.
Hypothesis HArray : forall t n, P t -> P (TArray t n).
Hypothesis HStruct : forall nm km fs, Forall (fun f => P (snd f)) fs -> P (TStruct nm km fs).
Hypothesis HUnion : forall nm fs, Forall (fun f => P (snd f)) fs -> P (TUnion nm fs).
Hypothesis HTrailStr : forall l, P (TTrailStr l).
Hypothesis HTrailTypes : forall t l, P t -> P (TTrailTypes t l).
Hypothesis HDyn : forall cb, P (TDyn cb).
Fixpoint ty_ind' (t : ty) : P t :=
  match t with
  | TU8 => HU8 | TU16 => HU16 | TU32 => HU32 | TU64 => HU64
  | TArray t n => HArray t n (ty_ind' t)
  | TStruct nm km fs =>
    HStruct nm km fs
      ((fix go (l : list field) : Forall (fun f => P (snd f)) l :=
          match l with [] => Forall_nil _ | f :: l' => Forall_cons f (ty_ind' (snd f)) (go l') end) fs)
  | TUnion nm fs =>
    HUnion nm fs
      ((fix go (l : list field) : Forall (fun f => P (snd f)) l :=
          match l with [] => Forall_nil _ | f :: l' => Forall_cons f (ty_ind' (snd f)) (go l') end) fs)
  | TTrailStr l => HTrailStr l
  | TTrailTypes t l => HTrailTypes t l (ty_ind' t)
  | TDyn cb => HDyn cb
  end.
End TyInd.
