(** Proofs about the components. *)
From Coq Require Import QArith Reals Qreals Lra Lia Psatz.
From Verif Require Import Base NetModel NetSpec SimModel SimAlg SimSpec CircuitSpec CompModel CompSpec.
Set Implicit Arguments.
Unset Strict Implicit.
Local Open Scope R_scope.
Local Open Scope nat_scope.

(** ** Angles *)
Lemma period_Z x (k : Z) : (cos (x + 2 * PI * IZR k) = cos x /\ sin (x + 2 * PI * IZR k) = sin x)%R.
Proof.
  assert (P : forall n y, (cos (y + 2 * PI * INR n) = cos y /\ sin (y + 2 * PI * INR n) = sin y)%R).
  { intros n y. replace (y + 2 * PI * INR n)%R with (y + 2 * INR n * PI)%R by ring. split; [apply cos_period|apply sin_period]. }
  destruct (Z_le_gt_dec 0 k) as [H|H].
  - rewrite <- (Z2Nat.id k H), <- INR_IZR_INZ. apply P.
  - specialize (P (Z.to_nat (- k)) (x + 2 * PI * IZR k)%R).
    rewrite INR_IZR_INZ, Z2Nat.id in P by lia. rewrite opp_IZR in P.
    replace (x + 2 * PI * IZR k + 2 * PI * - IZR k)%R with x in P by ring. destruct P as [-> ->]. auto.
Qed.

Lemma mod_trig x y : (cos (Rmod x (2 * PI) + y) = cos (x + y) /\ sin (Rmod x (2 * PI) + y) = sin (x + y))%R.
Proof.
  unfold Rmod. set (k := Int_part _). replace (x - 2 * PI * IZR k + y)%R with (x + y + 2 * PI * IZR (- k))%R.
  - apply period_Z.
  - rewrite opp_IZR. ring.
Qed.

Lemma polar_mod r x y : polar r (Rmod x (2 * PI) + y) = polar r (x + y).
Proof. unfold polar. destruct (mod_trig x y) as [-> ->]. reflexivity. Qed.

Lemma polar_mul r s x y : rcmul (polar r x) (polar s y) = polar (r * s)%R (x + y)%R.
Proof. unfold cmul, polar. cbn [fst snd]. rewrite cos_plus, sin_plus. f_equal; ring. Qed.

Lemma trig1 x : (cos x * cos x + sin x * sin x = 1)%R.
Proof. generalize (sin2_cos2 x). unfold Rsqr. lra. Qed.

Lemma Rmod_range x y : (0 < y -> 0 <= Rmod x y < y)%R.
Proof.
  intros Hy. unfold Rmod. destruct (base_Int_part (x / y)) as [H1 H2].
  assert (E : (x = y * (x / y))%R) by (field; lra). set (k := IZR (Int_part (x / y))) in *.
  set (z := (x / y)%R) in *. clearbody z k. subst x.
  replace (y * z - y * k)%R with (y * (z - k))%R by ring. split.
  - apply Rmult_le_pos; lra.
  - apply (Rlt_le_trans _ (y * 1)); [apply Rmult_lt_compat_l|]; lra.
Qed.

(** ** Two and four ports *)
Ltac ports i := repeat (destruct i as [|i]; [|try lia]).
Lemma two_ports (b : net R) w (P T U Q : R * R) : b_np b = 2 ->
  b_S b 0 0 w = P -> b_S b 0 1 w = T -> b_S b 1 0 w = U -> b_S b 1 1 w = Q ->
  forall x, rpower (b_np b) (rscatter b w x) =
    (norm2 Rplus Rmult (rcadd (rcmul P (x 0%nat)) (rcmul T (x 1%nat)))
     + norm2 Rplus Rmult (rcadd (rcmul U (x 0%nat)) (rcmul Q (x 1%nat))))%R
  /\ rpower (b_np b) x = (norm2 Rplus Rmult (x 0%nat) + norm2 Rplus Rmult (x 1%nat))%R.
Proof.
  intros N E0 E1 E2 E3 x. unfold power_all, scatter. rewrite N. cbn [seq]. rewrite !lsum_cons, !lsum_nil, E0, E1, E2, E3.
  unfold norm2, cadd, c0. cbn [fst snd]. split; ring.
Qed.

Lemma two_keeps (b : net R) w (P T U Q : R * R) g : b_np b = 2 ->
  b_S b 0 0 w = P -> b_S b 0 1 w = T -> b_S b 1 0 w = U -> b_S b 1 1 w = Q ->
  (fst P * fst P + snd P * snd P + (fst U * fst U + snd U * snd U) = g)%R ->
  (fst T * fst T + snd T * snd T + (fst Q * fst Q + snd Q * snd Q) = g)%R ->
  (fst P * fst T + snd P * snd T + (fst U * fst Q + snd U * snd Q) = 0)%R ->
  (snd P * fst T - fst P * snd T + (snd U * fst Q - fst U * snd Q) = 0)%R ->
  keeps g b w.
Proof.
  intros N E0 E1 E2 E3 H0 H1 H2 H3 x. destruct (two_ports N E0 E1 E2 E3 x) as [-> ->].
  destruct P as [p p'], T as [t t'], U as [u u'], Q as [q q'], (x 0%nat) as [a a'], (x 1%nat) as [c c'].
  unfold norm2, cadd, cmul. cbn [fst snd] in *.
  transitivity ((p * p + p' * p' + (u * u + u' * u')) * (a * a + a' * a') + (t * t + t' * t' + (q * q + q' * q')) * (c * c + c' * c')
    + 2 * (a * c + a' * c') * (p * t + p' * t' + (u * q + u' * q')) + 2 * (a * c' - a' * c) * (p' * t - p * t' + (u' * q - u * q')))%R; [ring|].
  rewrite H0, H1, H2, H3. ring.
Qed.

Lemma four_keeps (b : net R) w (A B C D : R * R) g : b_np b = 4 ->
  (forall i j, i < 4 -> j < 4 -> b_S b i j w =
     match i, j with
     | 0, 1 | 1, 0 => A | 0, 2 | 2, 0 => B | 1, 3 | 3, 1 => C | 2, 3 | 3, 2 => D | _, _ => (0, 0)%R
     end) ->
  (fst A * fst A + snd A * snd A + (fst B * fst B + snd B * snd B) = g)%R ->
  (fst A * fst A + snd A * snd A + (fst C * fst C + snd C * snd C) = g)%R ->
  (fst D * fst D + snd D * snd D + (fst B * fst B + snd B * snd B) = g)%R ->
  (fst D * fst D + snd D * snd D + (fst C * fst C + snd C * snd C) = g)%R ->
  (fst A * fst B + snd A * snd B + (fst C * fst D + snd C * snd D) = 0)%R ->
  (snd A * fst B - fst A * snd B + (snd C * fst D - fst C * snd D) = 0)%R ->
  (fst A * fst C + snd A * snd C + (fst B * fst D + snd B * snd D) = 0)%R ->
  (snd A * fst C - fst A * snd C + (snd B * fst D - fst B * snd D) = 0)%R ->
  keeps g b w.
Proof.
  intros N E H1 H2 H3 H4 H5 H6 H7 H8 x. unfold power_all, scatter. rewrite N. cbn [seq]. rewrite !lsum_cons, !lsum_nil.
  rewrite !E by lia. cbv iota.
  destruct A as [a a'], B as [k k'], C as [c c'], D as [d d'].
  destruct (x 0%nat) as [x0 y0], (x 1%nat) as [x1 y1], (x 2%nat) as [x2 y2], (x 3%nat) as [x3 y3].
  unfold norm2, cadd, cmul, c0. cbn [fst snd] in *.
  transitivity ((a * a + a' * a' + (k * k + k' * k')) * (x0 * x0 + y0 * y0) + (a * a + a' * a' + (c * c + c' * c')) * (x1 * x1 + y1 * y1)
    + (d * d + d' * d' + (k * k + k' * k')) * (x2 * x2 + y2 * y2) + (d * d + d' * d' + (c * c + c' * c')) * (x3 * x3 + y3 * y3)
    + 2 * (x1 * x2 + y1 * y2) * (a * k + a' * k' + (c * d + c' * d')) + 2 * (x1 * y2 - y1 * x2) * (a' * k - a * k' + (c' * d - c * d'))
    + 2 * (x0 * x3 + y0 * y3) * (a * c + a' * c' + (k * d + k' * d')) + 2 * (x0 * y3 - y0 * x3) * (a' * c - a * c' + (k' * d - k * d')))%R; [ring|].
  rewrite H1, H2, H3, H4, H5, H6, H7, H8. ring.
Qed.

Lemma keeps_lossless b w : keeps 1 b w -> lossless 0%R Rplus Rmult Rminus b w.
Proof. intros H x. rewrite H. ring. Qed.

Lemma rsum_nonneg {A} (f : A -> R) l : (forall x, In x l -> 0 <= f x)%R -> (0 <= lsum 0 Rplus f l)%R.
Proof.
  induction l as [|x l IH]; intros H; rewrite ?lsum_nil, ?lsum_cons; [lra|].
  assert (0 <= f x)%R by (apply H; now left). assert (0 <= lsum 0 Rplus f l)%R by (apply IH; intros; apply H; now right). lra.
Qed.
Lemma norm2_nonneg z : (0 <= norm2 Rplus Rmult z)%R.
Proof. unfold norm2. nra. Qed.
Lemma rpower_nonneg n x : (0 <= rpower n x)%R.
Proof. apply rsum_nonneg. intros. apply norm2_nonneg. Qed.

Lemma keeps_passive g b w : (g <= 1)%R -> keeps g b w -> passive b w.
Proof. intros Hg H x. rewrite H. generalize (rpower_nonneg (b_np b) x). nra. Qed.

(** *** The entries of the matrices *)
Ltac entry := cbn; unfold both_re, both_im, put_re, put_im, zero_S; cbn [Nat.eqb andb fst snd]; reflexivity.

Section Comps.
Variable c : Q.
Variable wl : nat -> R.

Definition pure_phase (g : guide) (w : nat) : R := (2 * PI * guide_neff wl g w * Q2R (g_length g) / wl w)%R.

Lemma waveguide_S g ph w : let T := polar (guide_amp g) (pure_phase g w + ph) in
  b_S (waveguide c wl g ph) 0 0 w = (0, 0)%R /\ b_S (waveguide c wl g ph) 1 1 w = (0, 0)%R /\
  b_S (waveguide c wl g ph) 0 1 w = T /\ b_S (waveguide c wl g ph) 1 0 w = T.
Proof.
  intros T. unfold T, pure_phase. rewrite <- polar_mod. fold (guide_phase wl g w).
  split; [entry|split; [entry|split; entry]].
Qed.

Lemma waveguide_keeps g ph w : keeps (Rpower 10 (- g_loss g * Q2R (g_length g) / 10)) (waveguide c wl g ph) w.
Proof.
  destruct (waveguide_S g ph w) as (E0 & E1 & E2 & E3).
  assert (H : (guide_amp g * guide_amp g = Rpower 10 (- g_loss g * Q2R (g_length g) / 10))%R).
  { unfold guide_amp. rewrite <- Rpower_plus. f_equal. field. }
  apply (two_keeps (eq_refl : b_np (waveguide c wl g ph) = 2) E0 E2 E3 E1); unfold polar; cbn [fst snd]; rewrite <- ?H;
    generalize (trig1 (pure_phase g w + ph)); set (C := cos _); set (S := sin _); intros HT; try (ring).
  - transitivity (guide_amp g * guide_amp g * (C * C + S * S))%R; [ring|rewrite HT; ring].
  - transitivity (guide_amp g * guide_amp g * (C * C + S * S))%R; [ring|rewrite HT; ring].
Qed.

Lemma connection_keeps w : keeps 1 connection w.
Proof.
  refine (@two_keeps connection w (0,0)%R (1,0)%R (1,0)%R (0,0)%R 1%R eq_refl _ _ _ _ _ _ _ _); try entry; cbn [fst snd]; ring.
Qed.

Lemma mirror_keeps Rf w : (0 <= Rf <= 1)%R -> keeps 1 (mirror Rf) w.
Proof.
  intros H. refine (@two_keeps (mirror Rf) w (sqrt Rf, 0)%R (0, sqrt (1 - Rf))%R (0, sqrt (1 - Rf))%R (sqrt Rf, 0)%R 1%R eq_refl _ _ _ _ _ _ _ _);
    try entry; cbn [fst snd]; generalize (sqrt_sqrt Rf ltac:(lra)), (sqrt_sqrt (1 - Rf) ltac:(lra)); lra.
Qed.

Ltac four := intros i j Li Lj; ports i; ports j; entry.

Lemma coupler_keeps k w : (0 <= k <= 1)%R -> keeps 1 (directional_coupler k) w.
Proof.
  intros H. refine (@four_keeps (directional_coupler k) w (sqrt (1 - k), 0)%R (0, sqrt k)%R (0, sqrt k)%R (sqrt (1 - k), 0)%R 1%R eq_refl _ _ _ _ _ _ _ _ _);
    [four|..]; cbn [fst snd]; generalize (sqrt_sqrt k ltac:(lra)), (sqrt_sqrt (1 - k) ltac:(lra)); intros; try ring; lra.
Qed.

Lemma realistic_keeps p w : keeps 1 (realistic_coupler wl p) w.
Proof.
  refine (@four_keeps (realistic_coupler wl p) w (cos (bend_angle wl p w), 0)%R (0, - sin (bend_angle wl p w))%R (0, - sin (bend_angle wl p w))%R (cos (bend_angle wl p w), 0)%R 1%R eq_refl _ _ _ _ _ _ _ _ _);
    [four|..]; cbn [fst snd]; generalize (trig1 (bend_angle wl p w)); intros; try ring; lra.
Qed.

Lemma length_keeps g ph k w : (0 <= k <= 1)%R ->
  keeps (Rpower 10 (- g_loss g * Q2R (g_length g) / 10)) (coupler_with_length c g ph k) w.
Proof.
  intros H.
  assert (HA : (guide_amp g * guide_amp g = Rpower 10 (- g_loss g * Q2R (g_length g) / 10))%R).
  { unfold guide_amp. rewrite <- Rpower_plus. f_equal. field. }
  pose proof (sqrt_sqrt k ltac:(lra)) as H1. pose proof (sqrt_sqrt (1 - k) ltac:(lra)) as H2. pose proof (trig1 ph) as HT.
  refine (@four_keeps (coupler_with_length c g ph k) w
    (sqrt (1 - k) * guide_amp g * cos ph, sqrt (1 - k) * guide_amp g * sin ph)%R
    (- sqrt k * guide_amp g * sin ph, sqrt k * guide_amp g * cos ph)%R
    (- sqrt k * guide_amp g * sin ph, sqrt k * guide_amp g * cos ph)%R
    (sqrt (1 - k) * guide_amp g * cos ph, sqrt (1 - k) * guide_amp g * sin ph)%R _ eq_refl _ _ _ _ _ _ _ _ _);
    [four|..]; cbn [fst snd]; rewrite <- ?HA; set (A := guide_amp g); set (s := sqrt k) in *; set (t := sqrt (1 - k)) in *;
    set (C := cos ph) in *; set (S := sin ph) in *; try ring;
    (transitivity (A * A * (C * C + S * S) * (s * s + t * t))%R; [ring|rewrite HT, H1, H2; ring]).
Qed.

Lemma mzi_keeps g phi theta w : keeps 1 (mzi c wl g phi theta) w.
Proof.
  pose proof (trig1 theta) as HT. pose proof (trig1 (guide_phase wl g w)) as H0. pose proof (trig1 (guide_phase wl g w + phi)) as H1.
  set (a := (guide_phase wl g w)) in *. set (b := (a + phi)%R) in *.
  refine (@four_keeps (mzi c wl g phi theta) w (cos b * cos theta, sin b * cos theta)%R (cos b * sin theta, sin b * sin theta)%R
     (- cos a * sin theta, - sin a * sin theta)%R (cos a * cos theta, sin a * cos theta)%R 1%R eq_refl _ _ _ _ _ _ _ _ _);
    [intros i j Li Lj; ports i; ports j; entry|..]; cbn [fst snd]; clearbody a b; set (C := cos theta) in *; set (S := sin theta) in *;
    set (ca := cos a) in *; set (sa := sin a) in *; set (cb := cos b) in *; set (sb := sin b) in *.
  - transitivity ((C * C + S * S) * (cb * cb + sb * sb))%R; [ring|rewrite HT, H1; ring].
  - transitivity (C * C * (cb * cb + sb * sb) + S * S * (ca * ca + sa * sa))%R; [ring|rewrite H0, H1; lra].
  - transitivity (S * S * (cb * cb + sb * sb) + C * C * (ca * ca + sa * sa))%R; [ring|rewrite H0, H1; lra].
  - transitivity ((C * C + S * S) * (ca * ca + sa * sa))%R; [ring|rewrite HT, H0; ring].
  - transitivity (C * S * (cb * cb + sb * sb) - C * S * (ca * ca + sa * sa))%R; [ring|rewrite H0, H1; ring].
  - ring.
  - ring.
  - ring.
Qed.

(** *** Grating coupler *)
Lemma amp2 Tmax bw wl0 l : (0 <= Tmax)%R ->
  (grating_amp Tmax bw wl0 l * grating_amp Tmax bw wl0 l = Tmax * exp (- (wl0 - l) ^ 2 / (2 * grating_sigma bw ^ 2)))%R.
Proof. intros H. apply sqrt_sqrt. apply Rmult_le_pos; [exact H|]. left. apply exp_pos. Qed.

Lemma ln2_pos : (0 < ln 2)%R.
Proof. rewrite <- ln_1. apply ln_increasing; lra. Qed.
Lemma sigma2 bw : (2 * grating_sigma bw ^ 2 = bw ^ 2 / (4 * ln 2))%R.
Proof.
  pose proof ln2_pos as L. unfold grating_sigma.
  assert (E : (sqrt (2 * ln 2) * sqrt (2 * ln 2) = 2 * ln 2)%R) by (apply sqrt_sqrt; lra).
  assert (P : (0 < sqrt (2 * ln 2))%R) by (apply sqrt_lt_R0; lra).
  set (s := sqrt (2 * ln 2)) in *.
  transitivity (bw ^ 2 / (2 * (s * s)))%R; [field; lra|]. rewrite E. field. lra.
Qed.

Lemma grating_power Tmax bw wl0 l : (0 <= Tmax)%R -> (bw <> 0)%R ->
  (grating_amp Tmax bw wl0 l * grating_amp Tmax bw wl0 l = Tmax * exp (- (4 * ln 2) * ((l - wl0) / bw) ^ 2))%R.
Proof.
  intros H B. rewrite amp2 by exact H. do 2 f_equal. rewrite sigma2. field. pose proof ln2_pos. split; lra.
Qed.

Lemma grating_center Tmax bw wl0 : (0 <= Tmax)%R ->
  (grating_amp Tmax bw wl0 wl0 * grating_amp Tmax bw wl0 wl0 = Tmax)%R.
Proof. intros H. rewrite amp2 by exact H. replace (- (wl0 - wl0) ^ 2 / (2 * grating_sigma bw ^ 2))%R with 0%R; [rewrite exp_0; ring|].
  replace (wl0 - wl0)%R with 0%R by ring. unfold Rdiv. replace (- 0 ^ 2)%R with 0%R by ring. ring. Qed.

Lemma grating_half Tmax bw wl0 l : (0 <= Tmax)%R -> (bw <> 0)%R -> (l = wl0 + bw / 2 \/ l = wl0 - bw / 2)%R ->
  (grating_amp Tmax bw wl0 l * grating_amp Tmax bw wl0 l = Tmax / 2)%R.
Proof.
  intros H B D. rewrite grating_power by auto.
  replace (- (4 * ln 2) * ((l - wl0) / bw) ^ 2)%R with (- ln 2)%R by (destruct D as [-> | ->]; field; exact B).
  rewrite exp_Ropp, exp_ln by lra. reflexivity.
Qed.

Lemma grating_decreasing Tmax bw wl0 l l' : (0 < Tmax)%R -> (bw <> 0)%R -> (Rabs (l - wl0) < Rabs (l' - wl0))%R ->
  (grating_amp Tmax bw wl0 l' * grating_amp Tmax bw wl0 l' < grating_amp Tmax bw wl0 l * grating_amp Tmax bw wl0 l)%R.
Proof.
  intros H B D. rewrite !grating_power by (auto; lra). apply Rmult_lt_compat_l; [exact H|]. apply exp_increasing.
  assert (D2 : ((l - wl0) ^ 2 < (l' - wl0) ^ 2)%R).
  { rewrite <- (pow2_abs (l - wl0)), <- (pow2_abs (l' - wl0)). pose proof (Rabs_pos (l - wl0)). nra. }
  assert (P : (0 < / bw ^ 2)%R) by (apply Rinv_0_lt_compat; nra).
  pose proof ln2_pos as L.
  replace (((l - wl0) / bw) ^ 2)%R with ((l - wl0) ^ 2 * / bw ^ 2)%R by (field; auto).
  replace (((l' - wl0) / bw) ^ 2)%R with ((l' - wl0) ^ 2 * / bw ^ 2)%R by (field; auto).
  set (u := (/ bw ^ 2)%R) in *. assert ((l - wl0) ^ 2 * u < (l' - wl0) ^ 2 * u)%R by (apply Rmult_lt_compat_r; auto). nra.
Qed.

Lemma grating_le Tmax bw wl0 l : (0 <= Tmax)%R -> (grating_amp Tmax bw wl0 l * grating_amp Tmax bw wl0 l <= Tmax)%R.
Proof.
  intros H. rewrite amp2 by exact H. rewrite <- (Rmult_1_r Tmax) at 2. apply Rmult_le_compat_l; [exact H|].
  rewrite <- exp_0. set (q := (_ / _)%R).
  assert (Hq : (q <= 0)%R).
  { unfold q. rewrite sigma2. replace (- (wl0 - l) ^ 2 / (bw ^ 2 / (4 * ln 2)))%R with (- ((wl0 - l) ^ 2 * / (bw ^ 2 / (4 * ln 2))))%R by (unfold Rdiv; ring).
    assert (0 <= (wl0 - l) ^ 2)%R by apply pow2_ge_0.
    assert (0 <= / (bw ^ 2 / (4 * ln 2)))%R; [|nra].
    destruct (Req_dec bw 0) as [-> | B].
    - replace (0 ^ 2 / (4 * ln 2))%R with 0%R by (unfold Rdiv; ring). rewrite Rinv_0. lra.
    - left. apply Rinv_0_lt_compat. unfold Rdiv. apply Rmult_lt_0_compat; [nra|]. apply Rinv_0_lt_compat. pose proof ln2_pos. lra. }
  destruct Hq as [Hq | ->]; [left; apply exp_increasing; exact Hq|right; reflexivity].
Qed.

Lemma keeps_passive_iff g b w : 0 < b_np b -> keeps g b w -> (passive b w <-> (g <= 1)%R).
Proof.
  intros N H. split; [|intros; eapply keeps_passive; eauto].
  intros P. specialize (P (fun i => if i =? 0 then (1, 0)%R else (0, 0)%R)). rewrite H in P.
  assert (E : rpower (b_np b) (fun i => if i =? 0 then (1, 0)%R else (0, 0)%R) = 1%R).
  { destruct (b_np b) as [|n]; [lia|]. unfold power_all. cbn [seq]. rewrite lsum_cons.
    match goal with |- (_ + ?s)%R = _ => assert (Z : s = 0%R); [|rewrite Z; unfold norm2; cbn; ring] end.
    apply (lsum_0 RTheory). intros i Hi. apply in_seq in Hi. destruct (Nat.eqb_spec i 0); [lia|]. unfold norm2. cbn. ring. }
  rewrite E in P. lra.
Qed.

Lemma grating_S Rf R_in Tmax bw wl0 w : let b := grating_coupler wl Rf R_in Tmax bw wl0 in let l := grating_amp Tmax bw wl0 (wl w) in
  b_S b 0 0 w = (0, R_in)%R /\ b_S b 0 1 w = (l, 0)%R /\ b_S b 1 0 w = (l, 0)%R /\ b_S b 1 1 w = (0, Rf)%R.
Proof. cbv zeta. split; [entry|split; [entry|split; entry]]. Qed.

Lemma grating_keeps r Tmax bw wl0 w : let l := grating_amp Tmax bw wl0 (wl w) in
  keeps (l * l + r * r) (grating_coupler wl r r Tmax bw wl0) w.
Proof.
  intros l. destruct (grating_S r r Tmax bw wl0 w) as (E0 & E1 & E2 & E3).
  apply (two_keeps (eq_refl : b_np (grating_coupler wl r r Tmax bw wl0) = 2) E0 E1 E2 E3); cbn [fst snd]; unfold l; ring.
Qed.

(** A quadratic form in two complex numbers. *)
Lemma form2 (p q d : R) : (forall x0 y0 x1 y1, 0 <= p * (x0 * x0 + y0 * y0) + q * (x1 * x1 + y1 * y1) + 2 * d * (x0 * y1 - y0 * x1))%R
  <-> (0 <= p /\ 0 <= q /\ d * d <= p * q)%R.
Proof.
  split.
  - intros H. assert (Hp : (0 <= p)%R) by (generalize (H 1 0 0 0)%R; lra). assert (Hq : (0 <= q)%R) by (generalize (H 0 0 1 0)%R; lra).
    split; [exact Hp|]. split; [exact Hq|].
    destruct (Rle_lt_or_eq_dec 0 q Hq) as [L | <-].
    + generalize (H q 0 0 (- d))%R. intros G. assert (0 <= q * (p * q - d * d))%R by lra.
      destruct (Rle_lt_dec (d * d) (p * q)) as [|N]; [assumption|]. exfalso. nra.
    + assert (d = 0)%R; [|subst; lra].
      generalize (H 1 0 0 (- (p + 1) * d))%R. intros G.
      assert (0 <= p - 2 * (p + 1) * (d * d))%R by lra.
      generalize (H d 0 0 (- (p + 1)))%R. intros G2. assert (0 <= p * (d * d) - 2 * (p + 1) * (d * d))%R by lra.
      assert (d * d <= 0)%R by nra. nra.
  - intros (Hp & Hq & Hd) x0 y0 x1 y1.
    destruct (Rle_lt_or_eq_dec 0 p Hp) as [L | <-].
    + assert (E : (0 <= p * (p * (x0 * x0 + y0 * y0) + q * (x1 * x1 + y1 * y1) + 2 * d * (x0 * y1 - y0 * x1)))%R).
      { replace (p * (p * (x0 * x0 + y0 * y0) + q * (x1 * x1 + y1 * y1) + 2 * d * (x0 * y1 - y0 * x1)))%R
          with ((p * x0 + d * y1) * (p * x0 + d * y1) + (p * y0 - d * x1) * (p * y0 - d * x1) + (p * q - d * d) * (x1 * x1 + y1 * y1))%R by ring.
        assert (0 <= (p * q - d * d) * (x1 * x1 + y1 * y1))%R by (apply Rmult_le_pos; nra).
        assert (0 <= (p * x0 + d * y1) * (p * x0 + d * y1))%R by apply Rle_0_sqr.
        assert (0 <= (p * y0 - d * x1) * (p * y0 - d * x1))%R by apply Rle_0_sqr. lra. }
      set (v := (_ + _ + _)%R) in *. destruct (Rle_lt_dec 0 v) as [|N]; [assumption|]. exfalso. nra.
    + assert (d = 0)%R by nra. subst d. assert (0 <= q * (x1 * x1 + y1 * y1))%R by (apply Rmult_le_pos; nra). lra.
Qed.

Lemma grating_passive Rf R_in Tmax bw wl0 w : let l := grating_amp Tmax bw wl0 (wl w) in
  passive (grating_coupler wl Rf R_in Tmax bw wl0) w <->
  (l * l + R_in * R_in <= 1 /\ l * l + Rf * Rf <= 1
   /\ (l * (R_in - Rf)) * (l * (R_in - Rf)) <= (1 - (l * l + R_in * R_in)) * (1 - (l * l + Rf * Rf)))%R.
Proof.
  intros l. destruct (grating_S Rf R_in Tmax bw wl0 w) as (E0 & E1 & E2 & E3). fold l in E1, E2.
  set (b := grating_coupler wl Rf R_in Tmax bw wl0) in *.
  transitivity (forall x0 y0 x1 y1, 0 <= (1 - (l * l + R_in * R_in)) * (x0 * x0 + y0 * y0) + (1 - (l * l + Rf * Rf)) * (x1 * x1 + y1 * y1)
     + 2 * (- (l * (R_in - Rf))) * (x0 * y1 - y0 * x1))%R.
  - split.
    + intros H x0 y0 x1 y1. specialize (H (fun i => if i =? 0 then (x0, y0) else (x1, y1))).
      destruct (two_ports (b := b) eq_refl E0 E1 E2 E3 (fun i => if i =? 0 then (x0, y0) else (x1, y1))) as [Ea Eb].
      rewrite Ea, Eb in H. revert H. unfold norm2, cadd, cmul. cbn [fst snd Nat.eqb]. intros H. lra.
    + intros H x. specialize (H (fst (x 0)) (snd (x 0)) (fst (x 1)) (snd (x 1))).
      destruct (two_ports (b := b) eq_refl E0 E1 E2 E3 x) as [Ea Eb]. rewrite Ea, Eb.
      unfold norm2, cadd, cmul. cbn [fst snd]. lra.
  - rewrite form2. split; intros (A & B & D); repeat split; nra.
Qed.

(** *** Reciprocity, delays, flags *)
Lemma simple_plain n S d : plain (simple n S d).
Proof. intros i _. auto. Qed.
Lemma simple_delay n S d : one_delay (simple n S d) d.
Proof. intros i _. reflexivity. Qed.

Lemma recip2 (b : net R) w : b_np b = 2 -> b_S b 0 1 w = b_S b 1 0 w -> reciprocal b w.
Proof. intros N E i j Li Lj. rewrite N in *. ports i; ports j; auto. Qed.
Lemma recip4 (b : net R) w : b_np b = 4 -> (forall i j, i < 4 -> j < i -> b_S b i j w = b_S b j i w) -> reciprocal b w.
Proof.
  intros N E i j Li Lj. rewrite N in *. destruct (Nat.lt_trichotomy i j) as [H|[-> |H]]; [symmetry; apply E; lia|reflexivity|apply E; lia].
Qed.
Ltac recip := apply recip4; [reflexivity|]; intros i j Li Lj; ports i; ports j; try lia; entry.

Lemma mmi_reciprocal m n W w : reciprocal (mmi m n W) w.
Proof.
  intros i j Li Lj. unfold mmi, simple, component in *. cbn [b_np b_S] in *.
  destruct (Nat.ltb_spec i m), (Nat.ltb_spec j m), (Nat.leb_spec m i), (Nat.leb_spec m j); cbn [andb]; try lia; reflexivity.
Qed.

Lemma builtin_reciprocal b w : builtin c wl b -> reciprocal b w.
Proof. intros []; try apply mmi_reciprocal; try (apply recip2; [reflexivity|entry]); recip. Qed.

Lemma builtin_plain b : builtin c wl b -> plain b.
Proof. intros []; apply simple_plain. Qed.
Lemma builtin_delay b : builtin c wl b -> exists d, one_delay b d.
Proof. intros []; eexists; apply simple_delay. Qed.
Lemma delay_lag (b : net R) d e : plain b -> one_delay b d -> forall i, i < b_np b -> lag e b i = steps e d.
Proof. intros P O i Li. unfold lag. destruct (P i Li) as (-> & -> & ->). rewrite (O i Li). reflexivity. Qed.
Lemma delay_uniform (b : net R) d e w : plain b -> one_delay b d -> uniform 0%R e b w.
Proof. intros P O i j Li Lj. right. rewrite !(delay_lag e P O) by assumption. reflexivity. Qed.
Lemma delay_unmixed (b : net R) d e w : plain b -> one_delay b d -> unmixed 0%R e b w.
Proof. intros P O i j Li Lj N. rewrite !(delay_lag e P O) in N by assumption. contradiction N. reflexivity. Qed.

Lemma loss_le1 g : (0 <= g_loss g * Q2R (g_length g) -> Rpower 10 (- g_loss g * Q2R (g_length g) / 10) <= 1)%R.
Proof.
  intros H. rewrite <- (Rpower_O 10) by lra. apply Rle_Rpower; [lra|]. lra.
Qed.

Lemma no_loss g : g_loss g = 0%R -> Rpower 10 (- g_loss g * Q2R (g_length g) / 10) = 1%R.
Proof. intros ->. replace (- 0 * Q2R (g_length g) / 10)%R with 0%R by (unfold Rdiv; ring). apply Rpower_O. lra. Qed.

Lemma ending_dark b w : ending b -> dark 0%R b w.
Proof. intros [] i j _ _; reflexivity. Qed.
End Comps.
