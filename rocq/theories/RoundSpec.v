(** Distances between fields, computed simulations and rounded arithmetic, without proofs. *)
From Coq Require Import QArith Reals.
From Verif Require Import Base NetModel SimModel SimAlg SimSpec CircuitSpec.
Set Implicit Arguments.
Local Open Scope R_scope.

(** Square root of the power of the waves [x] at the places below [n], and the distance of two of them. *)
Definition size (n : nat) (x : nat -> R * R) : R := sqrt (power_all 0 Rplus Rmult n x).
Definition gap (n : nat) (x y : nat -> R * R) : R := size n (fun i => csub Rminus (x i) (y i)).
(** One wavelength and batch entry of a field. *)
Definition column (x : field R) (w c : nat) : nat -> R * R := fun i => at_ x w i c.

(** The buffer of depth [D] before step [t], if the steps before have computed [M 0], [M 1], ... *)
Fixpoint memory (D : nat) (M : nat -> field R) (t : nat) : list (field R) :=
  match t with
  | O => repeat (zero_field 0) D
  | S t' => M t' :: removelast (memory D M t')
  end.

(** Rounding of every operation to a set of numbers with relative error [u] and, where numbers
    become too small, absolute error [eta].  No overflow. *)
Record rounding (u eta : R) (rnd : R -> R) : Prop := {
  rnd_u : 0 <= u;
  rnd_eta : 0 <= eta;
  rnd_error : forall x, Rabs (rnd x - x) <= u * Rabs x + eta;
  rnd_twice : forall x, rnd (rnd x) = rnd x;
  rnd_0 : rnd 0 = 0
}.
Definition radd (rnd : R -> R) (x y : R) : R := rnd (x + y).
Definition rsub (rnd : R -> R) (x y : R) : R := rnd (x - y).
Definition rmul (rnd : R -> R) (x y : R) : R := rnd (x * y).

(** Two complex numbers up to [d] in each part. *)
Definition close (d : R) (x y : R * R) : Prop := Rabs (fst x - fst y) <= d /\ Rabs (snd x - snd y) <= d.

(** The stored matrices [m'] are those of [m] up to [d], for the same nodes and delays. *)
Definition close_init (d : R) (w : nat) (m m' : init R) : Prop :=
  length (i_mc m') = length (i_mc m) /\ i_depth m' = i_depth m
  /\ (forall t i, i_mask m' t i = i_mask m t i)
  /\ (forall i j, (i < length (i_mc m))%nat -> (j < length (i_mc m))%nat -> close d (i_S m' w i j) (i_S m w i j))
  /\ (forall i j, (i < length (i_mc m))%nat -> (j < length (i_mc m))%nat ->
        close d (fst (i_C m' w) i j, snd (i_C m' w) i j) (fst (i_C m w) i j, snd (i_C m w) i j)).

(** Sum of the sizes of the sources up to and including step [t]. *)
Definition sent_sizes (ns : nat) (source : nat -> field R) (w c T : nat) : R :=
  lsum 0 Rplus (fun t => size ns (column (source t) w c)) (seq 0 T).

(** What one step of [n] nodes can lose in rounded arithmetic: per unit of light, and in any case. *)
Definition per_light (n : nat) (u d : R) : R := 4 * (INR n * INR n) * ((1 + u) ^ S (S n) * (1 + d) - 1).
Definition per_step (n : nat) (u eta : R) : R := 2 * INR n * (4 * INR n + 1) * eta * (1 + u) ^ S n.
(** After step [t], if [l] has been sent in so far. *)
Definition rounding_bound (n t : nat) (l u eta d : R) : R :=
  ((1 + per_light n u d) ^ (3 * S t) - 1) * l
  + INR (S t) * (((1 + per_light n u d) ^ 2 + (1 + per_light n u d) + 1) * per_step n u eta) * (1 + per_light n u d) ^ (3 * S t).

(** How large numbers can get: a rounded number, a sum of [n] products that are at most [x], and a step from a buffer and
    a source whose numbers are at most [x], with stored matrices that are [d] off. *)
Definition after_rounding (u eta x : R) : R := (1 + u) * x + eta.
Definition dot_limit (n : nat) (u eta x : R) : R := (1 + u) ^ S (S n) * (INR (S n) * x) + 2 * INR (S n) * eta * (1 + u) ^ S n.
Definition step_limit (n : nat) (u eta d x : R) : R :=
  let scattered := after_rounding u eta (2 * dot_limit n u eta ((1 + d) * x)) in
  2 * dot_limit n u eta ((1 + d) * after_rounding u eta (scattered + x)).

(** The main loop and the detectors in rounded arithmetic, with stored matrices [m'].  Sums in the
    order of the model (torch may sum in another one). *)
Definition rounded_outs (rnd : R -> R) (A : Type) (act : A -> nat -> field R -> A * field R) (b : net R) (m' : init R)
    (s0 : A) (source : nat -> field R) (T : nat) : list (field R) :=
  map (fun r => detect (det_start (length (i_mc m')) (num_det b)) (snd r))
      (run 0 (radd rnd) (rmul rnd) (rsub rnd) act b m' (node_source 0 (num_src b) source) T 0 s0 (repeat (zero_field 0) (i_depth m'))).
(** The matrices of [m] rounded for storing. *)
Definition round_init (rnd : R -> R) (m : init R) : init R :=
  {| i_mc := i_mc m; i_S := fun w i j => (rnd (fst (i_S m w i j)), rnd (snd (i_S m w i j)));
     i_C := fun w => (fun i j => rnd (fst (i_C m w) i j), fun i j => rnd (snd (i_C m w) i j));
     i_mask := i_mask m; i_depth := i_depth m; i_delay := i_delay m |}.

(** Binary numbers with [p] digits and exponents not below [-q] (and no largest one): single
    precision has [p = 24], [q = 149], double precision [p = 53], [q = 1074].  [rnd] takes one of
    the nearest. *)
Definition binary (p q : nat) (x : R) : Prop :=
  exists m k : Z, (Z.abs m <= 2 ^ Z.of_nat p)%Z /\ (- Z.of_nat q <= k)%Z /\ x = IZR m * powerRZ 2 k.
Definition nearest (p q : nat) (rnd : R -> R) : Prop :=
  forall x, binary p q (rnd x) /\ forall y, binary p q y -> Rabs (rnd x - x) <= Rabs (y - x).
