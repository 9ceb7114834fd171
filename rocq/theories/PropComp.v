(** Properties C35-C41 and C68: the built-in components. *)
From Coq Require Import QArith Reals Qreals Lra Lia Psatz.
From Verif Require Import Base NetModel NetSpec NetProofs WireProofs NetBuild SimModel SimAlg SimSpec CircuitSpec CircuitProofs EnergyNet Gauss
  RingExample CompModel CompSpec CompProofs CompMore PropEnergy.
Set Implicit Arguments.
Unset Strict Implicit.
Local Open Scope string_scope.
Local Open Scope list_scope.
Local Open Scope R_scope.
Local Open Scope nat_scope.

Section Props.
Variable c : Q.
Variable wl : nat -> R.

(** * C35 *)
(** The fraction of the incoming power that leaves, for all incoming waves. *)
Theorem C35_connection w : keeps 1 connection w.
Proof. exact (connection_keeps w). Qed.
Theorem C35_mirror Rf w : (0 <= Rf <= 1)%R -> keeps 1 (mirror Rf) w.
Proof. exact (@mirror_keeps Rf w). Qed.
Theorem C35_coupler k w : (0 <= k <= 1)%R -> keeps 1 (directional_coupler k) w.
Proof. exact (@coupler_keeps k w). Qed.
Theorem C35_realistic p w : keeps 1 (realistic_coupler wl p) w.
Proof. exact (realistic_keeps wl p w). Qed.
Theorem C35_mzi g phi theta w : keeps 1 (mzi c wl g phi theta) w.
Proof. exact (mzi_keeps c wl g phi theta w). Qed.
Theorem C35_waveguide g ph w : keeps (Rpower 10 (- g_loss g * Q2R (g_length g) / 10)) (waveguide c wl g ph) w.
Proof. exact (waveguide_keeps c wl g ph w). Qed.
Theorem C35_coupler_length g ph k w : (0 <= k <= 1)%R ->
  keeps (Rpower 10 (- g_loss g * Q2R (g_length g) / 10)) (coupler_with_length c g ph k) w.
Proof. exact (@length_keeps c g ph k w). Qed.
Theorem C35_terms b w : ending b -> keeps 0 b w.
Proof.
  intros H x. rewrite Rmult_0_l. exact (dark_power RTheory x (ending_dark w H)).
Qed.
(** Exactly which grating couplers never amplify; without reflections all with Tmax <= 1. *)
Theorem C35_grating Rf R_in Tmax bw wl0 w : let l := grating_amp Tmax bw wl0 (wl w) in
  passive (grating_coupler wl Rf R_in Tmax bw wl0) w <->
  (l * l + R_in * R_in <= 1 /\ l * l + Rf * Rf <= 1
   /\ (l * (R_in - Rf)) * (l * (R_in - Rf)) <= (1 - (l * l + R_in * R_in)) * (1 - (l * l + Rf * Rf)))%R.
Proof. exact (grating_passive wl Rf R_in Tmax bw wl0 w). Qed.
Theorem C35_mmi m n W w : (passive (mmi m n W) w <-> contraction m n W)
  /\ (lossless 0%R Rplus Rmult Rminus (mmi m n W) w <-> isometry m n W /\ isometry n m (transposed W)).
Proof. exact (Logic.conj (mmi_passive m n W w) (mmi_lossless m n W w)). Qed.
Theorem C35_builtin b w : builtin c wl b -> passive b w.
Proof. exact (@builtin_passive c wl b w). Qed.

(** * C36 *)
Theorem C36_reciprocal b w : builtin c wl b -> reciprocal b w.
Proof. exact (@builtin_reciprocal c wl b w). Qed.
Theorem C36_mmi m n W w : reciprocal (mmi m n W) w.
Proof. exact (@mmi_reciprocal m n W w). Qed.
Theorem C36_grating Rf R_in Tmax bw wl0 w : reciprocal (grating_coupler wl Rf R_in Tmax bw wl0) w.
Proof.
  destruct (grating_S wl Rf R_in Tmax bw wl0 w) as (_ & E1 & E2 & _). apply recip2; [reflexivity|]. congruence.
Qed.
(** False for the linear SOA: light from port 1 to port 0 is amplified, nothing passes from 0 to 1. *)
Theorem C36_soa_refuted amp w : amp <> 0%R ->
  ~ reciprocal (linear_soa amp) w /\ b_S (linear_soa amp) 0 1 w = (amp, 0)%R /\ b_S (linear_soa amp) 1 0 w = (0, 0)%R.
Proof.
  intros N. split; [|split; reflexivity]. intros H. specialize (H 0 1 ltac:(cbn; lia) ltac:(cbn; lia)).
  cbn in H. injection H. exact N.
Qed.

(** * C37 *)
(** For waveguides loss and length take effect as documented. *)
Theorem C37_waveguide g ph w :
  b_S (waveguide c wl g ph) 1 0 w = polar (Rpower 10 (- g_loss g * Q2R (g_length g) / 20))
    (2 * PI * (g_neff g - (wl w - g_wl0 g) * (Q2R (g_ng g) - g_neff g) / g_wl0 g) * Q2R (g_length g) / wl w + ph)%R.
Proof. exact (proj2 (proj2 (proj2 (waveguide_S c wl g ph w)))). Qed.
(** The loss of an MZI changes nothing. *)
Theorem C37_mzi_ignores_loss g loss phi theta w i j :
  b_S (mzi c wl {| g_length := g_length g; g_ng := g_ng g; g_neff := g_neff g; g_wl0 := g_wl0 g; g_loss := loss |} phi theta) i j w
  = b_S (mzi c wl g phi theta) i j w.
Proof. exact eq_refl. Qed.
(** A lossless directional coupler with length transmits the same whatever its length, indices and
    the wavelength. *)
Theorem C37_coupler_ignores_length g g' ph k w w' i j : g_loss g = 0%R -> g_loss g' = 0%R ->
  b_S (coupler_with_length c g ph k) i j w = b_S (coupler_with_length c g' ph k) i j w'.
Proof.
  intros E E'. assert (A : guide_amp g = guide_amp g').
  { unfold guide_amp. rewrite E, E'. f_equal. unfold Rdiv. ring. }
  unfold coupler_with_length. rewrite A. reflexivity.
Qed.
(** Hence neither behaves as documented. *)
Theorem C37_mzi_refuted : exists g phi theta w,
  (0 < g_loss g)%R /\ (0 < g_length g)%Q /\ ~ keeps (Rpower 10 (- g_loss g * Q2R (g_length g) / 10)) (mzi c wl g phi theta) w.
Proof.
  exists {| g_length := 1%Q; g_ng := 1%Q; g_neff := 0%R; g_wl0 := 1%R; g_loss := 10%R |}, 0%R, 0%R, 0. split; [cbn; lra|]. split; [reflexivity|].
  intros H. pose proof (mzi_keeps c wl {| g_length := 1%Q; g_ng := 1%Q; g_neff := 0%R; g_wl0 := 1%R; g_loss := 10%R |} 0 0 0) as H1.
  specialize (H (fun i => if i =? 0 then (1, 0)%R else (0, 0)%R)). rewrite H1 in H.
  assert (E : rpower (b_np (mzi c wl {| g_length := 1%Q; g_ng := 1%Q; g_neff := 0%R; g_wl0 := 1%R; g_loss := 10%R |} 0 0)) (fun i => if i =? 0 then (1, 0)%R else (0, 0)%R) = 1%R).
  { unfold power_all, norm2. cbn. lra. }
  rewrite E in H. cbn [g_loss g_length] in H.
  replace (- (10) * Q2R 1 / 10)%R with (Ropp 1) in H by (unfold Q2R; cbn; lra).
  rewrite Rpower_Ropp, Rpower_1 in H by lra. lra.
Qed.
Theorem C37_coupler_refuted : (forall w, wl w <> 0)%R -> exists g ph k w,
  b_S (coupler_with_length c g ph k) 1 0 w <>
  polar (Rpower 10 (- g_loss g * Q2R (g_length g) / 20) * sqrt (1 - k)) (pure_phase wl g w + ph).
Proof.
  intros NZ. exists {| g_length := 1%Q; g_ng := 0%Q; g_neff := (wl 0 / 2)%R; g_wl0 := wl 0%nat; g_loss := 0%R |}, 0%R, 0%R, 0.
  intros H. cbn in H. unfold guide_amp, pure_phase, guide_neff, polar in H. cbn [g_loss g_length g_neff g_wl0 g_ng] in H.
  replace (- 0 * Q2R 1 / 20)%R with 0%R in H by (unfold Rdiv; ring). rewrite Rpower_O, Rminus_0_r, sqrt_1, cos_0 in H by lra.
  replace (2 * PI * (wl 0%nat / 2 - (wl 0%nat - wl 0%nat) * (Q2R 0 - wl 0%nat / 2) / wl 0%nat) * Q2R 1 / wl 0%nat + 0)%R with PI in H
    by (unfold Q2R; cbn; field; auto).
  rewrite cos_PI in H. injection H. intros _ H'. lra.
Qed.
(** ... its loss does take effect. *)
Theorem C37_coupler_loss g ph k w : b_S (coupler_with_length c g ph k) 1 0 w =
  polar (Rpower 10 (- g_loss g * Q2R (g_length g) / 20) * sqrt (1 - k)) ph.
Proof.
  change (b_S (coupler_with_length c g ph k) 1 0 w) with (sqrt (1 - k) * guide_amp g * cos ph, sqrt (1 - k) * guide_amp g * sin ph)%R.
  unfold polar, guide_amp. f_equal; ring.
Qed.

(** * C38 *)
Theorem C38_series g1 g2 ph1 ph2 w (a o : nat -> R * R) : same_kind g1 g2 ->
  (forall i, i < 2 -> o i = rscatter (waveguide c wl g1 ph1) w a i) ->
  (forall i, i < 2 -> o (2 + i) = rscatter (waveguide c wl g2 ph2) w (fun i => a (2 + i)) i) ->
  a 1 = o 2 -> a 2 = o 1 ->
  let x := fun i => a (if i =? 0 then 0 else 3) in
  o 0 = rscatter (waveguide c wl (longer g1 g2) (ph1 + ph2)%R) w x 0 /\
  o 3 = rscatter (waveguide c wl (longer g1 g2) (ph1 + ph2)%R) w x 1.
Proof. exact (@waveguide_series c wl g1 g2 ph1 ph2 w a o). Qed.
Theorem C38_delay g1 g2 ph1 ph2 : same_kind g1 g2 -> forall i,
  (b_del (waveguide c wl (longer g1 g2) (ph1 + ph2)%R) i == b_del (waveguide c wl g1 ph1) i + b_del (waveguide c wl g2 ph2) i)%Q.
Proof. exact (fun K i => @waveguide_delays c g1 g2 K). Qed.
(** The phase is stored modulo 2 pi, which does not change the waveguide. *)
Theorem C38_stored_phase g phase w i j : i < 2 -> j < 2 ->
  (0 <= stored_phase phase < 2 * PI)%R /\ b_S (waveguide c wl g (stored_phase phase)) i j w = b_S (waveguide c wl g phase) i j w.
Proof.
  intros Li Lj. split; [apply Rmod_range; generalize PI_RGT_0; lra|].
  destruct (waveguide_S c wl g (stored_phase phase) w) as (A0 & A1 & A2 & A3). destruct (waveguide_S c wl g phase w) as (B0 & B1 & B2 & B3).
  assert (E : polar (guide_amp g) (pure_phase wl g w + stored_phase phase) = polar (guide_amp g) (pure_phase wl g w + phase)).
  { unfold stored_phase. rewrite (Rplus_comm _ (Rmod _ _)), polar_mod, Rplus_comm. reflexivity. }
  ports i; ports j; congruence.
Qed.

(** * C39 *)
Definition transmission (b : net R) (w : nat) : R := norm2 Rplus Rmult (b_S b 1 0 w).
Theorem C39_spectrum Rf R_in Tmax bw wl0 : (0 < Tmax)%R -> (bw <> 0)%R ->
  let T := transmission (grating_coupler wl Rf R_in Tmax bw wl0) in
  (forall w, wl w = wl0 -> T w = Tmax) /\
  (forall w, (wl w = wl0 + bw / 2 \/ wl w = wl0 - bw / 2)%R -> T w = Tmax / 2)%R /\
  (forall w w', (Rabs (wl w - wl0) < Rabs (wl w' - wl0))%R -> (T w' < T w)%R).
Proof.
  intros HT HB. assert (E : forall w, transmission (grating_coupler wl Rf R_in Tmax bw wl0) w
      = (grating_amp Tmax bw wl0 (wl w) * grating_amp Tmax bw wl0 (wl w))%R).
  { intros w. unfold transmission. destruct (grating_S wl Rf R_in Tmax bw wl0 w) as (_ & _ & -> & _). unfold norm2. cbn. ring. }
  cbv zeta. split; [|split]; intros; rewrite !E.
  - rewrite H. apply grating_center. lra.
  - apply grating_half; auto; lra.
  - apply grating_decreasing; auto.
Qed.
End Props.

(** * C40 *)
Theorem C40_create data a b : (exists p, bounded_new data a b = Ok p) <-> (a < b)%R /\ Forall (fun d => a <= d <= b)%R data.
Proof. exact (bounded_new_ok data a b). Qed.
Theorem C40_refuse data a b : ~ ((a < b)%R /\ Forall (fun d => a <= d <= b)%R data) -> bounded_new data a b = Err ValueError.
Proof.
  intros N. destruct (bounded_new data a b) as [p|e] eqn:E.
  - contradiction N. apply bounded_new_ok. eauto.
  - unfold bounded_new in E. destruct (Rle_dec b a); [congruence|]. destruct (_ || _); congruence.
Qed.
Theorem C40_roundtrip data a b p : bounded_new data a b = Ok p -> bounded_read p = data.
Proof. exact (@bounded_new_read data a b p). Qed.
Theorem C40_training data a b p us : bounded_new data a b = Ok p ->
  Forall (fun d => a <= d <= b)%R (bounded_read (bounded_train p us)) /\ length (bounded_read (bounded_train p us)) = length data.
Proof. exact (@bounded_train_range data a b p us). Qed.

(** * C41 *)
(** A trainable component reads its parameter through a bounded parameter with bounds (0, 1). *)
Theorem C41_training k p us k' c g ph w : bounded_new [k] 0 1 = Ok p -> bounded_read (bounded_train p us) = [k'] ->
  keeps 1 (directional_coupler k') w /\ keeps 1 (mirror k') w /\
  keeps (Rpower 10 (- g_loss g * Q2R (g_length g) / 10)) (coupler_with_length c g ph k') w.
Proof.
  intros H E. destruct (C40_training us H) as [F _]. rewrite E in F. inversion F; subst.
  exact (Logic.conj (@coupler_keeps k' w H2) (Logic.conj (@mirror_keeps k' w H2) (@length_keeps c g ph k' w H2))).
Qed.
(** A coupler that is not trainable takes any coupling; outside [0, 1] it is not passive (the code
    computes nan there, see [mirror]). *)

(** * C68 *)
(** Closed circuits of any nesting made of built-in components and terminations: what the detectors
    receive never exceeds what the sources sent; without losses nothing gets lost. *)
Section Circuits.
Variable c : Q.
Variable wl : nat -> R.
Variable solve : nat -> nat -> mat R -> mat R -> option (mat R).
Variables (A : Type) (act : A -> nat -> field R -> A * field R).
Notation build := (@build (nat -> R * R) Q (fun _ => (0, 0)%R) 0%Q).
Notation forward := (forward 0%R 1%R Rplus Rmult Rminus Ropp solve act).

Theorem C68_passive (term : string -> bool) mods conns b e s0 source outs w col :
  solver_sound 0%R Rplus Rmult solve ->
  made_of (builtin c wl) term mods -> build mods conns = Ok b -> one_partner b -> w < e_num_wl e ->
  forward e b s0 source = Ok outs ->
  forall T, T <= e_num_t e ->
  (sent 0 Rplus Rmult (num_det b) T (fun t => nth t outs (zero_field 0)) w col <= sent 0 Rplus Rmult (num_src b) T source w col)%R.
Proof. exact (@circuit_passive c wl solve A act term mods conns b e s0 source outs w col). Qed.

Theorem C68_lossless (term : string -> bool) mods conns b e s0 source outs w col :
  solver_sound 0%R Rplus Rmult solve ->
  made_of (ideal c wl) term mods -> build mods conns = Ok b -> one_partner b -> w < e_num_wl e ->
  forward e b s0 source = Ok outs ->
  exists cs a o, sub_components mods conns cs /\
    waves 0%R Rplus Rmult Rminus e b w (e_num_t e) (injected 0%R b source w col) a o /\ reads 0%R b outs w col (e_num_t e) a /\
    (forall T, T <= e_num_t e ->
      (energy_on 0 Rplus Rmult (term_ports term cs) (b_np b) T a
       + stored 0 Rplus Rmult e b (fun i => negb (term_ports term cs i)) T a
      = sent 0 Rplus Rmult (num_src b) T source w col)%R) /\
    (e_dt e = None -> energy_on 0%R Rplus Rmult (term_ports term cs) (b_np b) (e_num_t e) a
      = sent 0%R Rplus Rmult (num_src b) (e_num_t e) source w col).
Proof. exact (@circuit_conserves c wl solve A act term mods conns b e s0 source outs w col). Qed.

Theorem C68_reciprocal e w ct (b : net R) : every_leaf (builtin c wl) ct ->
  @compile (nat -> R * R) Q (fun _ => (0, 0)%R) 0%Q ct = Ok b -> reciprocal b w /\ uniform 0%R e b w.
Proof.
  intros H Hc. split.
  - refine (@compile_reciprocal R 0%R w ct b (every_leaf_impl _ H) Hc). intros; eapply builtin_reciprocal; eauto.
  - refine (@compile_uniform R 0%R e w ct b (every_leaf_impl _ H) Hc). intros; eapply builtin_uniform; eauto.
Qed.
End Circuits.

Print Assumptions C35_connection.
Print Assumptions C35_mirror.
Print Assumptions C35_coupler.
Print Assumptions C35_realistic.
Print Assumptions C35_mzi.
Print Assumptions C35_waveguide.
Print Assumptions C35_coupler_length.
Print Assumptions C35_terms.
Print Assumptions C35_grating.
Print Assumptions C35_mmi.
Print Assumptions C35_builtin.
Print Assumptions C36_reciprocal.
Print Assumptions C36_mmi.
Print Assumptions C36_grating.
Print Assumptions C36_soa_refuted.
Print Assumptions C37_waveguide.
Print Assumptions C37_mzi_ignores_loss.
Print Assumptions C37_coupler_ignores_length.
Print Assumptions C37_mzi_refuted.
Print Assumptions C37_coupler_refuted.
Print Assumptions C37_coupler_loss.
Print Assumptions C38_series.
Print Assumptions C38_delay.
Print Assumptions C38_stored_phase.
Print Assumptions C39_spectrum.
Print Assumptions C40_create.
Print Assumptions C40_refuse.
Print Assumptions C40_roundtrip.
Print Assumptions C40_training.
Print Assumptions C41_training.
Print Assumptions C68_passive.
Print Assumptions C68_lossless.
Print Assumptions C68_reciprocal.

(** * Examples *)
Definition g1 : guide := {| g_length := 1 # 100000; g_ng := 34 # 10; g_neff := 234 / 100; g_wl0 := 155 / 100; g_loss := 1000 |}.
Definition rc : Q := 299792458 # 1.
Definition rwl (w : nat) : R := (155 / 100 + INR w / 1000)%R.
Example C35_ex : builtin rc rwl (waveguide rc rwl g1 1) /\ builtin rc rwl (mirror (1 / 4)) /\ builtin rc rwl (mzi rc rwl g1 1 2)
  /\ ending detector.
Proof.
  split; [constructor; cbn; unfold Q2R; cbn; lra|]. split; [constructor; lra|]. split; constructor.
Qed.
Example C35_grating_ex : passive (grating_coupler rwl (1 / 10) (1 / 10) (1 / 2) 1 (155 / 100)) 0
  /\ ~ passive (grating_coupler rwl 1 0 (1 / 2) 1 (155 / 100)) 0.
Proof.
  assert (E : (grating_amp (1 / 2) 1 (155 / 100) (rwl 0) * grating_amp (1 / 2) 1 (155 / 100) (rwl 0) = 1 / 2)%R).
  { replace (rwl 0) with (155 / 100)%R by (unfold rwl; cbn; lra). apply grating_center. lra. }
  split.
  - apply C35_grating. set (l := grating_amp _ _ _ _) in *. rewrite E. split; [lra|split; [lra|]].
    replace (1 / 10 - 1 / 10)%R with 0%R by lra. lra.
  - intros H. apply C35_grating in H. destruct H as (_ & H & _). set (l := grating_amp _ _ _ _) in *. rewrite E in H. lra.
Qed.
(** The default MMI, a 1x2 splitter, never amplifies. *)
Example C35_mmi_ex : contraction 1 2 mmi_default /\ ~ isometry 1 2 mmi_default.
Proof.
  assert (E : (sqrt (5 / 10) * sqrt (5 / 10) = 1 / 2)%R) by (rewrite sqrt_sqrt; lra).
  assert (V : forall x, rpower 1 (apply_mat 2 mmi_default x) = (1 / 2 * ((fst (x 0%nat) + fst (x 1%nat)) ^ 2 + (snd (x 0%nat) + snd (x 1%nat)) ^ 2))%R).
  { intros x. unfold power_all, apply_mat, mmi_default, norm2. cbn [seq]. rewrite !lsum_cons, !lsum_nil. unfold cmul, cadd. cbn [fst snd].
    rewrite <- E. ring. }
  split.
  - intros x. rewrite V. unfold power_all, norm2. cbn [seq]. rewrite !lsum_cons, !lsum_nil.
    destruct (x 0%nat) as [a a'], (x 1%nat) as [b b']. cbn [fst snd].
    pose proof (pow2_ge_0 (a - b)). pose proof (pow2_ge_0 (a' - b')). lra.
  - intros H. specialize (H (fun i => if i =? 0 then (1, 0)%R else (0, 0)%R)). rewrite V in H. cbn in H. unfold power_all, norm2 in H. cbn in H. lra.
Qed.
Example C37_ex : exists g, g_loss g <> 0%R /\ keeps 1 (mzi rc rwl g 1 2) 0.
Proof. exists g1. split; [cbn; lra|]. exact (C35_mzi rc rwl g1 1 2 0). Qed.
Example C38_ex : same_kind g1 g1 /\ (g_length (longer g1 g1) == 2 # 100000)%Q.
Proof. split; [repeat split|reflexivity]. Qed.
Example C39_ex : (0 < 1 / 2)%R /\ (1 / 100 <> 0)%R /\ (rwl 5 = 155 / 100 + (1 / 100) / 2)%R.
Proof. split; [lra|split; [lra|]]. unfold rwl. replace (INR 5) with 5%R by (cbn; lra). lra. Qed.
Example C40_ex : exists p, bounded_new [0; 1 / 4; 1]%R 0 1 = Ok p /\ bounded_read p = [0; 1 / 4; 1]%R.
Proof.
  destruct (proj2 (C40_create [0; 1 / 4; 1]%R 0 1)) as [p H].
  - split; [lra|]. repeat constructor; lra.
  - exists p. split; [exact H|]. exact (C40_roundtrip H).
Qed.
Example C41_ex : exists p, bounded_new [1 / 2]%R 0 1 = Ok p /\ bounded_read (bounded_train p [(0, PosInf); (0, Fin 0)]) = [1 / 2]%R.
Proof.
  destruct (proj2 (C40_create [1 / 2]%R 0 1)) as [p H].
  - split; [lra|]. repeat constructor; lra.
  - exists p. split; [exact H|]. destruct (bounded_new_fields H) as (E1 & E2 & E3).
    destruct p as [lo hi ws]. cbn in *. subst. cbn. unfold bounded_value. cbn. rewrite Ropp_0, exp_0. f_equal. lra.
Qed.
(** C68: a source, a waveguide inside a network of its own, and a detector. *)
Definition c68_inner : comp (nat -> R * R) Q := Net [("wg", Leaf (waveguide rc rwl g1 1)); ("m", Leaf (mirror (1 / 4)))] ["wg:0:0"; "wg:1:m:0"; "m:1:1"].
Example C68_ex : exists d b, @compile (nat -> R * R) Q (fun _ => (0, 0)%R) 0%Q c68_inner = Ok d
  /\ made_of (builtin rc rwl) (fun n => String.eqb n "s" || String.eqb n "d") [("s", source); ("nw", d); ("d", detector)]
  /\ @build (nat -> R * R) Q (fun _ => (0, 0)%R) 0%Q [("s", source); ("nw", d); ("d", detector)] ["s:0:nw:0"; "nw:1:d:0"] = Ok b
  /\ one_partner b /\ num_src b = 1 /\ num_det b = 1 /\ b_np b = 6.
Proof.
  assert (H : match @compile (nat -> R * R) Q (fun _ => (0, 0)%R) 0%Q c68_inner with
    | Ok d => match @build (nat -> R * R) Q (fun _ => (0, 0)%R) 0%Q [("s", source); ("nw", d); ("d", detector)] ["s:0:nw:0"; "nw:1:d:0"] with
              | Ok b => partnerb b && (num_src b =? 1) && (num_det b =? 1) && (b_np b =? 6) | Err _ => false end
    | Err _ => false end = true) by (vm_compute; reflexivity).
  destruct (@compile (nat -> R * R) Q (fun _ => (0, 0)%R) 0%Q c68_inner) as [d|] eqn:Ed; [|discriminate].
  destruct (@build (nat -> R * R) Q (fun _ => (0, 0)%R) 0%Q [("s", source); ("nw", d); ("d", detector)] ["s:0:nw:0"; "nw:1:d:0"]) as [b|] eqn:EB; [|discriminate].
  repeat (apply andb_true_iff in H as [H ?]). apply Nat.eqb_eq in H0, H1, H2.
  exists d, b. split; [reflexivity|]. split; [|split; [exact EB|split; [apply partnerb_ok, H|auto]]].
  intros n x [E|[E|[E|[]]]]; injection E as <- <-; cbn [String.eqb Ascii.eqb Bool.eqb orb]; [constructor| |constructor].
  exists c68_inner. split; [|exact Ed]. constructor. intros n ct [E|[E|[]]]; injection E as <- <-; constructor; [apply C35_ex|constructor; lra].
Qed.
