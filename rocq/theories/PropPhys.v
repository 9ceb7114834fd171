(** Properties C91 and C92: the wavelength dependence of RealisticDirectionalCoupler and the rate
    equation of AgrawalSoa, compared with the physics they stand for.  C35_roles: what terms do. *)
From Coq Require Import QArith Reals Qreals Lra Lia Psatz.
From Verif Require Import Base NetModel SimModel CompModel ActModel.
Set Implicit Arguments.
Unset Strict Implicit.
Local Open Scope R_scope.

(** * C35 *)
(** Terms end a waveguide: one free port without delay that scatters nothing; a source and a detector
    are terms that emit or measure, and do nothing else. *)
Definition ends (b : net R) (emits measures : bool) : Prop :=
  b_np b = 1%nat /\ free_ports b = [0%nat] /\ b_src b 0 = emits /\ b_det b 0 = measures /\ b_act b 0 = false
  /\ b_del b 0 = 0%Q /\ (forall w, b_S b 0 0 w = (0, 0)) /\ check_buf false b = Ok b.
Theorem C35_roles : ends term false false /\ ends source true false /\ ends detector false true.
Proof. repeat split. Qed.
Print Assumptions C35_roles.

(** * C91 *)
(** [f] has value [v], first derivative [d1] at [x0] and second derivative [d2] everywhere. *)
Definition expansion (f : R -> R) (v d1 d2 x0 : R) : Prop := exists f' : R -> R,
  f x0 = v /\ f' x0 = d1 /\ (forall x, derivable_pt_lim f x (f' x)) /\ (forall x, derivable_pt_lim f' x d2).

Lemma flat (g : R -> R) : (forall x, derivable_pt_lim g x 0) -> forall x y, g x = g y.
Proof.
  intros H x y. assert (pr : derivable g) by (intro z; exists 0; apply H).
  apply (null_derivative_1 g pr). intro z. apply derive_pt_eq. apply H.
Qed.

Lemma same_slope (f g : R -> R) (f' : R -> R) x0 : (forall x, derivable_pt_lim f x (f' x)) ->
  (forall x, derivable_pt_lim g x (f' x)) -> f x0 = g x0 -> forall x, f x = g x.
Proof.
  intros Hf Hg H0 x.
  assert (Hd : forall z, derivable_pt_lim (f - g)%F z 0).
  { intro z. replace 0 with (f' z - f' z) by ring. apply derivable_pt_lim_minus; auto. }
  generalize (flat Hd x x0). unfold minus_fct. lra.
Qed.

Lemma line_slope d1 d2 x0 x : derivable_pt_lim (fun z => d1 + d2 * (z - x0)) x d2.
Proof.
  cut (derivable_pt_lim (fun z => d1 + d2 * (z - x0)) x (0 + d2 * (1 - 0))).
  { replace (0 + d2 * (1 - 0)) with d2 by ring. auto. }
  apply (derivable_pt_lim_plus (fun _ => d1) (fun z => d2 * (z - x0))).
  - apply derivable_pt_lim_const.
  - apply (derivable_pt_lim_scal (fun z => z - x0)).
    apply (derivable_pt_lim_minus (fun z => z) (fun _ => x0)).
    + apply derivable_pt_lim_id.
    + apply derivable_pt_lim_const.
Qed.

Lemma parabola_slope v d1 d2 x0 x :
  derivable_pt_lim (fun z => v + d1 * (z - x0) + 5 / 10 * d2 * (z - x0) ^ 2) x (d1 + d2 * (x - x0)).
Proof.
  assert (Hs : derivable_pt_lim (fun z => z - x0) x (1 - 0)).
  { apply (derivable_pt_lim_minus (fun z => z) (fun _ => x0)).
    - apply derivable_pt_lim_id.
    - apply derivable_pt_lim_const. }
  replace (d1 + d2 * (x - x0)) with ((0 + d1 * (1 - 0)) + 5 / 10 * d2 * (INR 2 * (x - x0) ^ pred 2 * (1 - 0)))
    by (simpl; field).
  apply (derivable_pt_lim_plus (fun z => v + d1 * (z - x0)) (fun z => 5 / 10 * d2 * (z - x0) ^ 2)).
  - apply (derivable_pt_lim_plus (fun _ => v) (fun z => d1 * (z - x0))).
    + apply derivable_pt_lim_const.
    + apply (derivable_pt_lim_scal (fun z => z - x0)). exact Hs.
  - apply (derivable_pt_lim_scal (fun z => (z - x0) ^ 2)).
    apply (derivable_pt_lim_comp (fun z => z - x0) (fun y => y ^ 2) x); [exact Hs|].
    apply derivable_pt_lim_pow.
Qed.

Lemma expansion_eq f v d1 d2 x0 : expansion f v d1 d2 x0 ->
  forall x, f x = v + d1 * (x - x0) + 5 / 10 * d2 * (x - x0) ^ 2.
Proof.
  intros (f' & Hv & H1 & Hf & Hf') x.
  assert (El : forall z, f' z = d1 + d2 * (z - x0)).
  { apply (same_slope (f' := fun _ => d2) (x0 := x0)); auto.
    - intro z. apply line_slope.
    - rewrite H1. ring. }
  apply (same_slope (g := fun z => v + d1 * (z - x0) + 5 / 10 * d2 * (z - x0) ^ 2) (f' := f') (x0 := x0)); auto.
  - intro z. rewrite El. apply parabola_slope.
  - rewrite Hv. field.
Qed.

(** Light that enters at one side of a coupler beats between the two guides: the even and the odd
    mode, whose indices differ by [n], are out of phase by [2 PI n L / wl] after the length [L]; to
    half of that the coupling [k] in the bends is added.  All four paths are as in an ideal coupler,
    and nothing else is scattered. *)
Theorem C91_realistic (wl : nat -> R) (p : bend) (k n : R -> R) w :
  expansion k (r_k0 p) (r_de1_k0 p) (r_de2_k0 p) (r_wl0 p) ->
  expansion n (r_n0 p) (r_de1_n0 p) (r_de2_n0 p) (r_wl0 p) -> wl w <> 0 ->
  let theta := k (wl w) + / 2 * (2 * PI * n (wl w) * r_length p / wl w) in
  let S := fun i j => b_S (realistic_coupler wl p) i j w in
  forall i j, (i < 4)%nat -> (j < 4)%nat -> S i j =
    match i, j with
    | 0, 1 | 1, 0 | 2, 3 | 3, 2 => (cos theta, 0%R)
    | 0, 2 | 2, 0 | 1, 3 | 3, 1 => (0%R, (- sin theta)%R)
    | _, _ => (0%R, 0%R)
    end%nat.
Proof.
  intros Hk Hn Hw theta S.
  assert (E : bend_angle wl p w = theta).
  { subst theta. rewrite (expansion_eq Hk), (expansion_eq Hn). unfold bend_angle. field. exact Hw. }
  subst S. cbn beta. intros i j Hi Hj.
  destruct i as [|[|[|[|i]]]]; destruct j as [|[|[|[|j]]]]; try lia;
    unfold realistic_coupler, simple, component, both_im, both_re, put_im, put_re, zero_S, b_S;
    cbn [fst snd Nat.eqb andb]; rewrite ?E; reflexivity.
Qed.
Print Assumptions C91_realistic.

(** At the wavelength it is defined for, the power coupling is that of the given numbers. *)
Theorem C91_center (wl : nat -> R) (p : bend) w : wl w = r_wl0 p -> r_wl0 p <> 0 ->
  b_S (realistic_coupler wl p) 0 2 w = (0, - sin (r_k0 p + PI * r_n0 p * r_length p / r_wl0 p)).
Proof.
  intros Ew H0. cbn. unfold bend_angle. rewrite Ew. f_equal. f_equal. f_equal. field. exact H0.
Qed.
Print Assumptions C91_center.

Example C91_ex : expansion (fun z => 1 + 2 * (z - 3) + 5 / 10 * 4 * (z - 3) ^ 2) 1 2 4 3.
Proof.
  exists (fun z => 2 + 4 * (z - 3)). repeat split; try lra.
  - intro x. apply parabola_slope.
  - intro x. apply line_slope.
Qed.

(** * C92 *)
(** A semiconductor optical amplifier with [N] carriers per volume: they come from the current [I],
    disappear with lifetime [tc], and one is used for every photon that is added to the light:
      V dN/dt = I / q - V N / tc - (Pout - Pin) / (h c / wl).
    The material gain per length is [a (N - N0)], of which the fraction [gamma] is seen by the mode,
    so that light of power [P] leaves with power [P exp g] where [g = gamma a (N - N0) L]. *)
Definition carriers (L N0 a gamma g : R) : R := N0 + g / (gamma * a * L).
Definition carrier_rate (q hc V I tc wl N Pin Pout : R) : R :=
  (I / q - V * N / tc - (Pout - Pin) / (hc / wl)) / V.

Theorem C92_carriers L W H N0 a I tc gamma wl c (g A : R * R) :
  L <> 0 -> W <> 0 -> H <> 0 -> N0 <> 0 -> a <> 0 -> tc <> 0 -> gamma <> 0 -> wl <> 0 -> c <> 0 ->
  let p := agrawal_params L W H N0 a I tc gamma wl c in
  let Pin := fst A ^ 2 + snd A ^ 2 in
  fst (agrawal_dhdt p g A) =
    gamma * a * L * carrier_rate (16 / 10 ^ 20) (6626 / 10 ^ 37 * c) (L * W * H) I tc wl
      (carriers L N0 a gamma (fst g)) Pin (Pin * exp (fst g)).
Proof.
  intros HL HW HH HN Ha Ht Hg Hw Hc. cbv zeta.
  set (q := 16 / 10 ^ 20). set (h := 6626 / 10 ^ 37).
  assert (Hq : q <> 0) by (unfold q; lra). assert (Hh : h <> 0) by (unfold h; lra).
  unfold agrawal_dhdt, agrawal_params, carrier_rate, carriers. cbn [fst snd ag_tc ag_g0L ag_Psat].
  fold q h. generalize (fst A ^ 2 + snd A ^ 2). intro P. generalize (exp (fst g)). intro x.
  field. repeat split; assumption.
Qed.
Print Assumptions C92_carriers.

(** One step of the state therefore moves the number of carriers by one Euler step of the balance. *)
Theorem C92_step L W H N0 a I tc gamma wl c dt (x : fieldv) (h : fieldv) y out w b :
  L <> 0 -> W <> 0 -> H <> 0 -> N0 <> 0 -> a <> 0 -> tc <> 0 -> gamma <> 0 -> wl <> 0 -> c <> 0 ->
  let p := agrawal_params L W H N0 a I tc gamma wl c in
  let Pin := fst (x w b) ^ 2 + snd (x w b) ^ 2 in
  let N := fun g : R => carriers L N0 a gamma g in
  soa_action dt (agrawal_dhdt p) [x; h; y] [] = Ok out ->
  exists x' h' y', out = [x'; h'; y'] /\ x' = x
  /\ N (fst (h' w b)) = N (fst (h w b)) + dt * carrier_rate (16 / 10 ^ 20) (6626 / 10 ^ 37 * c) (L * W * H) I tc wl
       (N (fst (h w b))) Pin (Pin * exp (fst (h w b)))
  /\ fst (y' w b) ^ 2 = fst (x w b) ^ 2 * exp (fst (h w b)).
Proof.
  intros HL HW HH HN Ha Ht Hg Hw Hc. cbv zeta. generalize (fun g A => C92_carriers I g A HL HW HH HN Ha Ht Hg Hw Hc). cbv zeta.
  generalize (agrawal_dhdt (agrawal_params L W H N0 a I tc gamma wl c)). intros f Hf.
  unfold soa_action. intros E. injection E as <-.
  do 3 eexists. split; [reflexivity|]. split; [reflexivity|]. cbn [fst snd].
  rewrite Hf. clear Hf. split.
  - generalize (carrier_rate (16 / 10 ^ 20) (6626 / 10 ^ 37 * c) (L * W * H) I tc wl
      (carriers L N0 a gamma (fst (h w b))) (fst (x w b) ^ 2 + snd (x w b) ^ 2)
      ((fst (x w b) ^ 2 + snd (x w b) ^ 2) * exp (fst (h w b)))).
    intro r. unfold carriers. field. repeat split; assumption.
  - rewrite Rpow_mult_distr. f_equal. simpl. rewrite Rmult_1_r, <- exp_plus. f_equal. lra.
Qed.
Print Assumptions C92_step.

(** Without light the carriers settle where the current replaces what is lost. *)
Theorem C92_dark L W H N0 a I tc gamma wl c :
  L <> 0 -> W <> 0 -> H <> 0 -> N0 <> 0 -> a <> 0 -> tc <> 0 -> gamma <> 0 -> wl <> 0 -> c <> 0 ->
  let p := agrawal_params L W H N0 a I tc gamma wl c in
  carriers L N0 a gamma (ag_g0L p) = I * tc / (16 / 10 ^ 20 * (L * W * H)).
Proof.
  intros HL HW HH HN Ha Ht Hg Hw Hc. cbv zeta. unfold carriers, agrawal_params. cbn [ag_g0L].
  set (q := 16 / 10 ^ 20). assert (Hq : q <> 0) by (unfold q; lra). field. repeat split; assumption.
Qed.
Print Assumptions C92_dark.

(** The light that leaves has the power of the balance only if it is real: of an imaginary input
    nothing is amplified, although the carriers for it are used ([C44_agrawal_refuted]). *)
Theorem C92_output_refuted p dt : exists (x h y : fieldv) x' h' y',
  soa_action dt (agrawal_dhdt p) [x; h; y] [] = Ok [x'; h'; y']
  /\ fst (y' 0%nat 0%nat) ^ 2 + snd (y' 0%nat 0%nat) ^ 2
     <> (fst (x 0%nat 0%nat) ^ 2 + snd (x 0%nat 0%nat) ^ 2) * exp (fst (h 0%nat 0%nat)).
Proof.
  exists (fun _ _ => (0, 1)), (fun _ _ => (1, 0)), (fun _ _ => (0, 0)). do 3 eexists. split; [reflexivity|].
  cbn [fst snd]. rewrite Rmult_0_r, exp_0. generalize (exp_ineq1 1 ltac:(lra)). lra.
Qed.
Print Assumptions C92_output_refuted.

(** The default amplifier (soas.py:192-206) in natural units is covered. *)
Example C92_ex : exists out, soa_action 1 (agrawal_dhdt (agrawal_params 5 2 2 1 27 1 3 3 1 3)) [fun _ _ => (1, 0); fun _ _ => (2, 0); fun _ _ => (0, 0)] [] = Ok out.
Proof. eexists. reflexivity. Qed.
