(** What bit streams, latencies and losses should be. *)
From Coq Require Import QArith Reals.
From Verif Require Import Base.
Set Implicit Arguments.
Unset Strict Implicit.
Local Open Scope nat_scope.

(** a/b rounded up. *)
Definition ceil_div (a b : nat) : nat := (a + b - 1) / b.

(** [out] holds every bit of [bits] for its bit time 1/b, sampled with rate s. *)
Definition holds_bits {A} (bits : list A) (b s : nat) (out : list A) : Prop :=
  length out = ceil_div (length bits * s) b /\
  forall k, k < length out -> nth_error out k = nth_error bits (k * b / s).

(** z is the whole number nearest to q (the larger one if there are two). *)
Definition nearest (z : Z) (q : Q) : Prop := (q - (1 # 2) < inject_Z z <= q + (1 # 2))%Q.

(** z is the whole number after the one nearest to q (the nearest one itself if there are two). *)
Definition next_nearest (z : Z) (q : Q) : Prop := (q + (1 # 2) <= inject_Z z < q + (3 # 2))%Q.

(** Number of elements of a list with a property. *)
Definition number {A} (f : A -> bool) (l : list A) : nat := length (filter f l).

(** Mean value over the elements of a list; [None] (nan) if it has none. *)
Definition sum_of {A} (f : A -> R) (l : list A) : R := fold_right (fun a s => (f a + s)%R) 0%R l.
Definition average {A} (f : A -> R) (l : list A) : option R :=
  if length l =? 0 then None else Some (sum_of f l / INR (length l))%R.

(** The whole numbers i with a <= i < b. *)
Definition from_to (a b : nat) : list nat := seq a (b - a).

(** All (wavelength, detector, batch) triples. *)
Definition all_places (nw nd nb : nat) : list (nat * nat * nat) :=
  list_prod (list_prod (from_to 0 nw) (from_to 0 nd)) (from_to 0 nb).

(** The samples of the target that have a partner [l] samples later in the prediction, after [w]
    samples, both [n] samples long. *)
Definition compared (n w : nat) (l : Z) : list nat := from_to w (Nat.min n (Z.to_nat (Z.of_nat n - l))).
