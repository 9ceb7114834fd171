(** Unitary matrices, and the components of a mesh of interferometers. *)
From Verif Require Import Base NetModel SimModel SimAlg SimSpec.
Set Implicit Arguments.
Local Open Scope nat_scope.

Section Spec.
Variables (K : Type) (k0 k1 : K) (kadd kmul ksub : K -> K -> K) (kopp : K -> K).
Notation cx := (prod K K).
Notation net := (net K).
Notation c0 := (c0 k0).
Notation c1 := (c1 k0 k1).
Notation cadd := (cadd kadd).
Notation cmul := (cmul kadd kmul ksub).
Notation csum := (lsum c0 cadd).

Definition cbar (z : cx) : cx := (fst z, kopp (snd z)).

(** T*T = 1 = TT* for an N x N matrix. *)
Definition unitary (N : nat) (T : nat -> nat -> cx) : Prop := forall i j, i < N -> j < N ->
  csum (fun k => cmul (cbar (T k i)) (T k j)) (seq 0 N) = (if i =? j then c1 else c0) /\
  csum (fun k => cmul (T i k) (cbar (T j k))) (seq 0 N) = (if i =? j then c1 else c0).

(** A lossless guide from port 0 to port 1. *)
Definition guides (c : net) (w : nat) : Prop :=
  b_S c 1 1 w = c0 /\ cmul (cbar (b_S c 1 0 w)) (b_S c 1 0 w) = c1.

(** Transfer from ports 0 and 3 to ports 1 and 2. *)
Definition transfer (c : net) (w i j : nat) : cx := b_S c (if i =? 0 then 1 else 2) (if j =? 0 then 0 else 3) w.
(** A lossless mixer: light entering at ports 0 and 3 leaves at ports 1 and 2 without loss, light
    entering at ports 1 and 2 does not. *)
Definition mixes (c : net) (w : nat) : Prop :=
  (forall i j, 1 <= i <= 2 -> 1 <= j <= 2 -> b_S c i j w = c0) /\ unitary 2 (transfer c w).

(** Ports 0 and 3 are on one side, ports 1 and 2 on the other; light never returns to the side it came from. *)
Definition inward (k : nat) : bool := (k =? 0) || (k =? 3).
Definition two_way (c : net) (w : nat) : Prop :=
  forall i j, i < b_np c -> j < b_np c -> inward i = inward j -> b_S c i j w = c0.

(** A source or detector that reflects nothing. *)
Definition absorbs (c : net) (w : nat) : Prop := b_S c 0 0 w = c0.

End Spec.
