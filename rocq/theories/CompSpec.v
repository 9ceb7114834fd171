(** What the components should do, without their definitions. *)
From Coq Require Import QArith Reals Qreals.
From Verif Require Import Base NetModel SimModel SimAlg SimSpec CircuitSpec CompModel.
Set Implicit Arguments.
Local Open Scope R_scope.

(** Power of the waves [x] at ports [0..n-1], and the waves leaving component [b]. *)
Notation rpower := (power_all 0 Rplus Rmult).
Notation rscatter := (scatter 0 Rplus Rmult Rminus).
Notation rcmul := (cmul Rplus Rmult Rminus).
Notation rcadd := (cadd Rplus).

(** For all incoming waves, the fraction [g] of their power leaves. *)
Definition keeps (g : R) (b : net R) (w : nat) : Prop := forall x, rpower (b_np b) (rscatter b w x) = g * rpower (b_np b) x.

(** An m x n complex matrix does not lengthen vectors; it keeps their length. *)
Definition apply_mat (n : nat) (W : nat -> nat -> R * R) (x : nat -> R * R) (i : nat) : R * R :=
  lsum (0, 0) rcadd (fun j => rcmul (W i j) (x j)) (seq 0 n).
Definition contraction (m n : nat) (W : nat -> nat -> R * R) : Prop := forall x, rpower m (apply_mat n W x) <= rpower n x.
Definition isometry (m n : nat) (W : nat -> nat -> R * R) : Prop := forall x, rpower m (apply_mat n W x) = rpower n x.
Definition transposed (W : nat -> nat -> R * R) : nat -> nat -> R * R := fun i j => W j i.

(** All ports have the same delay. *)
Definition one_delay (b : net R) (d : Q) : Prop := forall i, (i < b_np b)%nat -> b_del b i = d.

(** [exp(i a)] with modulus [r]. *)
Definition polar (r a : R) : R * R := (r * cos a, r * sin a).

Section Builtin.
Variable c : Q.
Variable wl : nat -> R.
(** The built-in passive components, with parameters in their documented ranges. *)
Inductive builtin : net R -> Prop :=
| B_connection : builtin connection
| B_waveguide g ph : 0 <= g_loss g * Q2R (g_length g) -> builtin (waveguide c wl g ph)
| B_mirror Rf : 0 <= Rf <= 1 -> builtin (mirror Rf)
| B_grating Tmax bandwidth wl0 : 0 <= Tmax <= 1 -> builtin (grating_coupler wl 0 0 Tmax bandwidth wl0)
| B_coupler k : 0 <= k <= 1 -> builtin (directional_coupler k)
| B_coupler_length g ph k : 0 <= g_loss g * Q2R (g_length g) -> 0 <= k <= 1 -> builtin (coupler_with_length c g ph k)
| B_realistic p : builtin (realistic_coupler wl p)
| B_mmi m n W : contraction m n W -> builtin (mmi m n W)
| B_mzi g phi theta : builtin (mzi c wl g phi theta).
(** Those that have no loss. *)
Inductive ideal : net R -> Prop :=
| I_connection : ideal connection
| I_waveguide g ph : g_loss g = 0 -> ideal (waveguide c wl g ph)
| I_mirror Rf : 0 <= Rf <= 1 -> ideal (mirror Rf)
| I_coupler k : 0 <= k <= 1 -> ideal (directional_coupler k)
| I_coupler_length g ph k : g_loss g = 0 -> 0 <= k <= 1 -> ideal (coupler_with_length c g ph k)
| I_realistic p : ideal (realistic_coupler wl p)
| I_mmi m n W : isometry m n W -> isometry n m (transposed W) -> ideal (mmi m n W)
| I_mzi g phi theta : ideal (mzi c wl g phi theta).
(** Terminations (terms.py). *)
Inductive ending : net R -> Prop := E_term : ending term | E_source : ending source | E_detector : ending detector.
End Builtin.
