(** The number of grid points in floating point arithmetic: C46, C47. *)
From Coq Require Import SpecFloat Reals Lra.
From Verif Require Import Base FloatModel.
Set Implicit Arguments.
Unset Strict Implicit.

(** num_wl=51 with the default bounds 1.5e-6 and 1.6e-6 gives 50 wavelengths in binary64. *)
Theorem C47_float_refuted : exists n, (0 < n)%Z /\
  fcount_num (flit 15 10000000) (flit 16 10000000) n = Some (n - 1)%Z.
Proof. exists 51%Z. split; [reflexivity|]. vm_compute. reflexivity. Qed.

(** t1=0.3 with dt=0.1 gives 2 time steps. *)
Theorem C46_float_refuted : fcount (fint 0) (flit 3 10) (flit 1 10) = Some 2%Z.
Proof. vm_compute. reflexivity. Qed.

Example C47_float_example :
  fcount_num (flit 15 10000000) (flit 16 10000000) 50 = Some 50%Z /\
  fcount_num (flit 15 10000000) (flit 16 10000000) 102 = Some 101%Z.
Proof. split; vm_compute; reflexivity. Qed.

Local Open Scope R_scope.

Section Rounding.
(** Rounding with relative error at most [u]. *)
Variable (rnd : R -> R) (u : R).
Hypothesis u_pos : 0 <= u < 1.
Hypothesis rounded : forall x, exists d, Rabs d <= u /\ rnd x = x * (1 + d).

Lemma Rabs_between : forall x a, Rabs x <= a -> - a <= x <= a.
Proof. intros x a. unfold Rabs. destruct (Rcase_abs x); lra. Qed.

Lemma near : forall n v x e, Rabs e <= u -> 0 < n -> n * (v + u) < 1 - u ->
  forall d, Rabs d <= v -> x = n * (1 + d) / (1 + e) -> n - 1 < x < n + 1.
Proof.
  intros n v x e He Hn Hs d Hd ->.
  assert (A : - u <= e <= u) by (apply Rabs_between; exact He).
  assert (B : - v <= d <= v) by (apply Rabs_between; exact Hd).
  assert (P : 0 < 1 + e) by lra.
  assert (Q1 : n * (d - e) <= n * (v + u)).
  { apply Rmult_le_compat_l; lra. }
  assert (Q2 : n * (- (v + u)) <= n * (d - e)).
  { apply Rmult_le_compat_l; lra. }
  assert (E : n * (1 + d) / (1 + e) = n + n * (d - e) / (1 + e)) by (field; lra).
  rewrite E.
  assert (L : -1 < n * (d - e) / (1 + e)).
  { apply (Rmult_lt_reg_r (1 + e)); [exact P|].
    replace (n * (d - e) / (1 + e) * (1 + e)) with (n * (d - e)) by (field; lra). lra. }
  assert (U : n * (d - e) / (1 + e) < 1).
  { apply (Rmult_lt_reg_r (1 + e)); [exact P|].
    replace (n * (d - e) / (1 + e) * (1 + e)) with (n * (d - e)) by (field; lra). lra. }
  lra.
Qed.

Lemma count_near : forall n z x, IZR n - 1 < x < IZR n + 1 -> IZR z <= x < IZR z + 1 ->
  z = n \/ z = (n - 1)%Z.
Proof.
  intros n z x A B.
  assert (z < n + 1)%Z. { apply lt_IZR. rewrite plus_IZR. lra. }
  assert (n - 1 < z + 1)%Z. { apply lt_IZR. rewrite plus_IZR, minus_IZR. lra. }
  lia.
Qed.

(** num_wl=n (n points asked for, D the rounded distance of the ends, not 0): the code makes n or
    n-1 of them - for binary64 (u = 2^-53) whenever n < 2^51. *)
Theorem C47_float_count : forall D n z, D <> 0 -> (0 < n)%Z ->
  IZR n * (2 * u) < 1 - u ->
  let step := rnd (D / IZR n) in let q := rnd (D / step) in
  IZR z <= q < IZR z + 1 -> z = n \/ z = (n - 1)%Z.
Proof.
  intros D n z HD Hn Hs step q Hz.
  assert (N : 0 < IZR n) by (apply IZR_lt; exact Hn).
  destruct (rounded (D / IZR n)) as (e & He & Ee). fold step in Ee.
  destruct (rounded (D / step)) as (d & Hd & Ed). fold q in Ed.
  assert (A : - u <= e <= u) by (apply Rabs_between; exact He).
  apply (@count_near n z q); [|exact Hz].
  assert (Hs' : IZR n * (u + u) < 1 - u) by lra.
  apply (@near (IZR n) u q e He N Hs' d Hd). rewrite Ed, Ee. field. repeat split; lra.
Qed.

(** t0=0, t1=n*dt, both arguments rounded to floats: n or n-1 time steps. *)
Theorem C46_float_count : forall dt n z, dt <> 0 -> (0 < n)%Z ->
  IZR n * (3 * u + u * u) < 1 - u ->
  let q := rnd (rnd (IZR n * dt) / rnd dt) in
  IZR z <= q < IZR z + 1 -> z = n \/ z = (n - 1)%Z.
Proof.
  intros dt n z HD Hn Hs q Hz.
  assert (N : 0 < IZR n) by (apply IZR_lt; exact Hn).
  destruct (rounded dt) as (e & He & Ee).
  destruct (rounded (IZR n * dt)) as (d & Hd & Ed).
  destruct (rounded (rnd (IZR n * dt) / rnd dt)) as (g & Hg & Eg). fold q in Eg.
  assert (A : - u <= e <= u) by (apply Rabs_between; exact He).
  apply (@count_near n z q); [|exact Hz].
  assert (V : Rabs (d + g + d * g) <= 2 * u + u * u).
  { eapply Rle_trans; [apply Rabs_triang|].
    assert (Rabs (d + g) <= u + u).
    { eapply Rle_trans; [apply Rabs_triang|]. lra. }
    assert (Rabs (d * g) <= u * u).
    { rewrite Rabs_mult. apply Rmult_le_compat; try apply Rabs_pos; assumption. }
    lra. }
  assert (Hs' : IZR n * (2 * u + u * u + u) < 1 - u).
  { replace (2 * u + u * u + u) with (3 * u + u * u) by ring. exact Hs. }
  apply (@near (IZR n) (2 * u + u * u) q e He N Hs' _ V). rewrite Eg, Ed, Ee.
  field. split; lra.
Qed.

End Rounding.

(** The hypotheses hold, for example, for a rounding that always errs upwards by 1 percent, and 30
    points. *)
Example C47_float_hypotheses : exists (rnd : R -> R) (u : R), 0 <= u < 1 /\
  (forall x, exists d, Rabs d <= u /\ rnd x = x * (1 + d)) /\ 30 * (2 * u) < 1 - u /\
  rnd 1 <> 1.
Proof.
  exists (fun x => x * (1 + / 100)), (/ 100). split; [lra|]. split; [|split; lra].
  intros x. exists (/ 100). split; [rewrite Rabs_right; lra|reflexivity].
Qed.

Print Assumptions C47_float_refuted.
Print Assumptions C46_float_refuted.
Print Assumptions C47_float_count.
Print Assumptions C46_float_count.
