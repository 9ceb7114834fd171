(** Properties C42-C44, C74 and C75: active components. *)
From Coq Require Import QArith Reals Lra Lia Ring.
From Verif Require Import Base PyStr NetModel NetSpec SimModel SimAlg SimSpec SimProofs CompModel CircuitProofs RingExample
  ActModel ActSpec ActProofs ActSim SoaProofs SoaMore.
Set Implicit Arguments.
Unset Strict Implicit.
Local Open Scope nat_scope.

(** * C42 *)
(** The fields of a simulated circuit with active components satisfy the wave equations, in which
    every active component acts on the fields at its own ports and all others leave them alone. *)
Theorem C42_own_ports (K : Type) (k0 k1 : K) kadd kmul ksub kopp solve (e : env) (b : net K)
  (cs : nat -> list (acomp (nat -> nat -> K * K))) source outs :
  ring_theory k0 k1 kadd kmul ksub kopp (@eq K) -> solver_sound k0 kadd kmul solve ->
  flags_ok b -> (forall w, w < e_num_wl e -> unmixed k0 e b w) ->
  (forall t, same_ports b (Nested (cs t))) -> (forall t, aligned (Nested (cs t))) ->
  forward k0 k1 kadd kmul ksub kopp solve (net_act k0 (length (mc_nodes e b)) (fun t => Nested (cs t))) e b None source
    = Ok outs ->
  exists y a o,
    waves_active k0 kadd kmul ksub e b (fun t => Nested (cs t)) (e_num_t e)
      (fun t i w c => injected k0 b source w c t i) y a o /\
    forall w c, w < e_num_wl e -> reads k0 b outs w c (e_num_t e) (fun t i => a t i w c).
Proof. exact (fun KR SS F UM SP AL H => active_sound KR SS SP AL (proj1 (flags_separate b) F) UM H). Qed.

(** No action raises. *)
Theorem C42_no_error (K : Type) (k0 : K) (e : env) (b : net K) (cs : nat -> list (acomp (nat -> nat -> K * K))) t x :
  (forall t, same_ports b (Nested (cs t))) -> (forall t, aligned (Nested (cs t))) ->
  fst (net_act k0 (length (mc_nodes e b)) (fun t => Nested (cs t)) None t x) = None.
Proof. intros SP AL. destruct (act_step k0 e SP AL t x) as (z & _ & ->). reflexivity. Qed.

(** An exception of an action is kept, with the fields of that moment. *)
Theorem C42_error (K : Type) (k0 : K) n (c : nat -> acomp (nat -> nat -> K * K)) t (x : field K) ex :
  action (fun _ _ => (k0, k0)) (c t) (map (node_field x) (seq 0 n)) [] = Err ex ->
  net_act k0 n c None t x = (Some ex, x) /\ forall t' x', net_act k0 n c (Some ex) t' x' = (Some ex, x').
Proof. intros E. split; [unfold net_act; now rewrite E|reflexivity]. Qed.

(** The same for a single call, whatever the kind of field: sources first, active nodes in port
    order, then the rest; sources and the rest are as before. *)
Theorem C42_call (V : Type) (v0 : V) (cs : list (acomp V)) srcs (y : nat -> V) post out :
  aligned (Nested cs) -> length srcs = a_nsrc (Nested cs) ->
  exists o, action v0 (Nested cs) (srcs ++ map y (act_ports (Nested cs) 0) ++ post) out
            = Ok (srcs ++ map o (act_ports (Nested cs) 0) ++ post) /\
            acts v0 (Nested cs) 0 y o.
Proof.
  intros AL LS. set (ap := act_ports (Nested cs) 0).
  destruct (@action_net _ v0 cs srcs (map y ap) post out AL LS) as [LE EA].
  { rewrite map_length. apply act_ports_length. }
  assert (ND : NoDup ap) by (apply NoDup_filter, seq_NoDup).
  set (z := expect v0 (Nested cs) (map y ap)) in *.
  exists (fun i => if memb i ap then nth (index i ap) z v0 else y i).
  assert (OM : map (fun i => if memb i ap then nth (index i ap) z v0 else y i) ap = z).
  { rewrite (@map_nth_seq _ _ 0 (fun k => nth k z v0)).
    - replace (length ap) with (length z) by (rewrite LE; symmetry; apply act_ports_length). clear.
      induction z as [|v z IH]; [reflexivity|]. cbn. f_equal. rewrite <- seq_shift, map_map. exact IH.
    - intros k L. replace (memb (nth k ap 0) ap) with true by (symmetry; apply memb_In, nth_In; auto).
      rewrite index_nth; auto. }
  split.
  - rewrite OM. exact EA.
  - apply all_back; auto. intros i _ N. destruct (memb i ap) eqn:M; auto. apply memb_In in M. contradiction.
Qed.

(** Built networks have the ports of their components. *)
Theorem C42_built (K : Type) (y0 : nat -> K * K) (cs : list (string * net K)) acs conns b :
  net_buf y0 0%Q cs conns = Ok b -> Forall2 (@matches K) cs acs -> same_ports b (Nested acs).
Proof. exact (@built_ports K y0 0%Q cs acs conns b). Qed.

(** Without the restriction it is false: two active sub-networks with passive ports.  The second
    amplifier acts on a passive node (here: a source-free delay line) and not on its own port. *)
Definition plus1 (x _ : list nat) : res (list nat) := Ok (map S x).
Definition act1 : acomp nat := Plain [(false, true)] plus1.
Definition passive1 : acomp nat := Plain [(false, false)] plus1.
Theorem C42_subnetworks_refuted :
  let cs := [Nested [act1; passive1]; Nested [act1; passive1]] in
  exists x, action 0 (Nested cs) x x = Ok [11; 20; 31] /\ x = [10; 20; 30] /\
  forall y o, y 0 = 10 -> y 2 = 20 -> ~ (acts 0 (Nested cs) 0 y o /\ o 0 = 11 /\ o 2 = 20).
Proof.
  exists [10; 20; 30]. split; [reflexivity|]. split; [reflexivity|].
  intros y o Y0 Y2. cbn. intros (((A & _) & (B & _) & _) & O0 & O2).
  rewrite Y2 in B. injection B as B. congruence.
Qed.

Example C42_ex : aligned (Nested [Nested [act1; act1]; passive1; act1; Nested [act1; passive1]]).
Proof.
  assert (T : forall x o : list nat, length x = 1 -> exists l, plus1 x o = Ok l /\ length l = 1).
  { intros x o L. exists (map S x). rewrite map_length. auto. }
  cbn. repeat split; auto; try discriminate; repeat constructor; auto.
Qed.

Print Assumptions C42_own_ports.
Print Assumptions C42_no_error.
Print Assumptions C42_error.
Print Assumptions C42_call.
Print Assumptions C42_built.
Print Assumptions C42_subnetworks_refuted.

(** * C43 *)
Local Open Scope R_scope.

(** In any simulated circuit the inner port of an amplifier carries its logarithmic gain, and its
    output is the input times exp(gain/2). *)
Theorem C43_in_circuit e (b : net R) net T src y a o dt rate off t w c :
  waves_active 0 Rplus Rmult Rminus e b net T src y a o -> amplifier_at b off ->
  (forall t, (t < T)%nat -> placed (net t) 0 (soa dt (rate t)) off) ->
  (forall t i w c, b_src b i = false -> src t i w c = (0, 0)) ->
  (t < T)%nat -> (w < e_num_wl e)%nat ->
  y t (off + 1)%nat w c = gain dt rate (fun t => y t off w c) t /\
  o t (off + 2)%nat w c = amplified dt rate (fun t => y t off w c) t.
Proof.
  exact (fun W A L N Lt Lw => conj (amp_gain W A L N c Lt Lw) (amp_out W A L N c Lt Lw)).
Qed.

(** Nothing can be wired to the inner port of an amplifier. *)
Theorem C43_built (cs pre post : list (string * net R)) n delay conns b :
  NoDup (map fst cs) -> orders_ok cs -> cs = pre ++ (n, base_soa delay) :: post ->
  net_buf (fun _ => (0, 0)) 0%Q cs conns = Ok b -> amplifier_at b (ports_before pre).
Proof. exact (@built_amplifier cs pre post n delay conns b). Qed.

(** Gain of a Soa when the first time of the environment is [t0] and step [t] is at [t0 + t dt]:
    it grows linearly for the [K] steps before the start-up time and is constant afterwards. *)
Theorem C43_gain dt t0 startup A a K : 0 < dt -> 0 < startup ->
  (forall k, (k < K)%nat -> t0 + INR k * dt < startup) -> startup <= t0 + INR K * dt ->
  forall n, let h := INR (Nat.min n K) * (dt / startup) * ln A in
  gain dt (fun t => soa_dhdt startup A (t0 + INR t * dt)) a n = (h, h).
Proof. exact (fun H1 H2 H3 H4 n => @startup_gain dt t0 startup A a H1 K H2 H3 H4 n). Qed.

(** Starting at time 0, the final gain is at least the wanted one and less than one step above. *)
Theorem C43_final dt startup A a : 0 < dt -> 0 < startup -> 1 <= A ->
  exists K, forall n, (K <= n)%nat -> exists g,
    gain dt (fun t => soa_dhdt startup A (INR t * dt)) a n = (g, g) /\
    ln A <= g <= (1 + dt / startup) * ln A /\ (1 < A -> g < (1 + dt / startup) * ln A) /\
    g = INR K * (dt / startup) * ln A.
Proof.
  intros Hd Hs HA. destruct (startup_steps Hd Hs) as (K & K0 & H1 & H2). exists K. intros n L.
  exists (INR K * (dt / startup) * ln A).
  assert (E : forall k, (fun t => soa_dhdt startup A (INR t * dt)) k = (fun t => soa_dhdt startup A (0 + INR t * dt)) k).
  { intros k. cbn beta. rewrite Rplus_0_l. reflexivity. }
  assert (G : gain dt (fun t => soa_dhdt startup A (INR t * dt)) a n = gain dt (fun t => soa_dhdt startup A (0 + INR t * dt)) a n).
  { clear - E. induction n as [|n IH]; [reflexivity|]. cbn [gain]. rewrite IH. cbn beta in E. rewrite (E n). reflexivity. }
  rewrite G, (@startup_gain dt 0 startup A a Hd K Hs), Nat.min_r; auto.
  2:{ intros k Lk. rewrite Rplus_0_l. auto. } 2:{ lra. }
  assert (LA : 0 <= ln A).
  { destruct (Rle_lt_or_eq_dec 1 A HA) as [L1|<-]; [|rewrite ln_1; lra]. rewrite <- ln_1. left. apply ln_increasing; lra. }
  assert (KD : 1 <= INR K * (dt / startup)).
  { apply Rmult_le_reg_r with startup; auto. unfold Rdiv. replace (INR K * (dt * / startup) * startup) with (INR K * dt) by (field; lra). lra. }
  assert (KU : INR K * (dt / startup) < 1 + dt / startup).
  { destruct K as [|k]; [lia|]. specialize (H1 k ltac:(lia)). rewrite S_INR.
    apply Rmult_lt_reg_r with startup; auto.
    replace ((INR k + 1) * (dt / startup) * startup) with (INR k * dt + dt) by (field; lra).
    replace ((1 + dt / startup) * startup) with (startup + dt) by (field; lra). lra. }
  split; [reflexivity|]. split; [split|split].
  - rewrite <- (Rmult_1_l (ln A)) at 1. apply Rmult_le_compat_r; auto.
  - apply Rmult_le_compat_r; lra.
  - intros A1. apply Rmult_lt_compat_r; auto. rewrite <- ln_1. apply ln_increasing; lra.
  - reflexivity.
Qed.

(** The gain never decreases. *)
Theorem C43_monotone dt startup A a (time : nat -> R) n : 0 < dt -> 0 < startup -> 1 <= A ->
  fst (gain dt (fun t => soa_dhdt startup A (time t)) a n) <= fst (gain dt (fun t => soa_dhdt startup A (time t)) a (S n)).
Proof.
  intros Hd Hs HA. cbn [gain fst]. set (g := fst (gain _ _ _ _)).
  assert (LA : 0 <= ln A).
  { destruct (Rle_lt_or_eq_dec 1 A HA) as [L1|<-]; [|rewrite ln_1; lra]. rewrite <- ln_1. left. apply ln_increasing; lra. }
  unfold soa_dhdt at 1. destruct (Rlt_dec _ _); cbn [fst].
  - assert (0 <= dt * (1 / startup * ln A)); [|lra]. apply Rmult_le_pos; [lra|]. apply Rmult_le_pos; auto.
    unfold Rdiv. rewrite Rmult_1_l. left. apply Rinv_0_lt_compat. auto.
  - lra.
Qed.

(** "How long it takes before the soa reaches max amplification" is false for a start-up time of
    zero, and for environments that start after the start-up time: it never amplifies. *)
Theorem C43_late_refuted dt t0 startup A a : 0 < dt -> startup <= t0 ->
  forall n, gain dt (fun t => soa_dhdt startup A (t0 + INR t * dt)) a n = (0, 0) /\
            amplified dt (fun t => soa_dhdt startup A (t0 + INR t * dt)) a n = a n.
Proof.
  intros Hd H n. pose proof (@late_gain dt t0 startup A a Hd H n) as G. split; [exact G|].
  unfold amplified. rewrite G. cbn [fst snd]. unfold Rdiv. rewrite Rmult_0_l, exp_0, !Rmult_1_r. symmetry. apply surjective_pairing.
Qed.

Example C43_ex : gain 1 (fun t => soa_dhdt 3 2 (INR t * 1)) (fun _ => (1, 0)) 7 = (ln 2, ln 2).
Proof.
  assert (G := @startup_gain 1 0 3 2 (fun _ => (1, 0)) ltac:(lra) 3%nat ltac:(lra)).
  assert (E : forall n, gain 1 (fun t => soa_dhdt 3 2 (INR t * 1)) (fun _ => (1, 0)) n = gain 1 (fun t => soa_dhdt 3 2 (0 + INR t * 1)) (fun _ => (1, 0)) n).
  { induction n as [|n IH]; [reflexivity|]. cbn [gain]. rewrite IH, Rplus_0_l. reflexivity. }
  rewrite E, G; cbn [Nat.min INR].
  - f_equal; field.
  - intros k Lk. destruct k as [|[|[|k]]]; cbn [INR]; try lra. lia.
  - lra.
Qed.

(** A source, a Soa and a detector: all hypotheses hold. *)
Definition ex_parts : list (string * net R) :=
  [("s"%string, component 1 no_C true false false zero_S (fun _ => 0%Q)); ("amp"%string, base_soa 0);
   ("d"%string, component 1 no_C false true false zero_S (fun _ => 0%Q))].
Definition ex_acts (t : nat) : list (acomp fieldv) :=
  [Plain [(true, false)] (fun x _ => Ok x); soa 1 (soa_dhdt 3 2 (INR t * 1)); Plain [(false, false)] (fun x _ => Ok x)].
Definition ex_env : env := {| e_freq := false; e_dt := Some 1%Q; e_num_t := 5; e_num_wl := 2 |}.
Example C43_circuit_ex : exists b,
  net_buf (fun _ => (0, 0)) 0%Q ex_parts ["s:0:amp:0"; "amp:1:d:0"]%string = Ok b /\
  Forall2 (@matches R) ex_parts (ex_acts 0) /\ amplifier_at b 1 /\ flags_ok b /\
  (forall w, unmixed 0 ex_env b w) /\
  (forall t, same_ports b (Nested (ex_acts t))) /\ (forall t, aligned (Nested (ex_acts t))) /\
  (forall t, placed (Nested (ex_acts t)) 0 (soa 1 (soa_dhdt 3 2 (INR t * 1))) 1) /\
  forall solve source, exists outs,
    forward 0 1 Rplus Rmult Rminus Ropp solve (net_act 0 (length (mc_nodes ex_env b)) (fun t => Nested (ex_acts t)))
      ex_env b None source = Ok outs.
Proof.
  eexists. split; [vm_compute; reflexivity|].
  split; [repeat constructor|]. split.
  { split; [cbn; lia|]. intros i Li. destruct i as [|[|[|i]]]; [| | |lia]; cbn; (split; [reflexivity|]); (split; [reflexivity|]);
      (split; [intros j w Lj; do 5 (destruct j as [|j]; [reflexivity|]); lia|]); intros E; try discriminate;
      (split; [reflexivity|]); intros j Lj; do 5 (destruct j as [|j]; [reflexivity|]); lia. }
  split. { intros i Li. cbn in Li. do 5 (destruct i as [|i]; [cbn; intuition discriminate|]). lia. }
  split. { intros w i j Li Lj. cbn in Li, Lj. do 5 (destruct i as [|i]; [do 5 (destruct j as [|j]; [cbn; congruence|]); lia|]). lia. }
  split; [reflexivity|]. split.
  { intros t. cbn. repeat split; auto; try discriminate; repeat constructor; auto.
    intros x o L. destruct x as [|x0 [|x1 [|x2 [|]]]]; try discriminate. eexists. split; [reflexivity|reflexivity]. }
  split.
  { intros t. apply (@placed_in _ _ _ [Plain [(true, false)] (fun x _ => Ok x)] _ [Plain [(false, false)] (fun x _ => Ok x)] 0).
    apply placed_here. }
  intros solve source. eexists. reflexivity.
Qed.

Print Assumptions C43_in_circuit.
Print Assumptions C43_built.
Print Assumptions C43_gain.
Print Assumptions C43_final.
Print Assumptions C43_monotone.
Print Assumptions C43_late_refuted.

(** * C44 *)
Theorem C44_soa_covariant dt startup A (time : nat -> R) u a n :
  amplified dt (fun t => soa_dhdt startup A (time t)) (fun t => turn u (a t)) n
  = turn u (amplified dt (fun t => soa_dhdt startup A (time t)) a n).
Proof.
  unfold amplified. rewrite (@blind_gain dt _ (fun t => turn u (a t)) a) by reflexivity.
  rewrite (@equal_gain dt (fun t => soa_dhdt startup A (time t)) a (fun _ _ _ => eq_refl) n). unfold turn. cbn [fst snd]. f_equal; ring.
Qed.

(** An AgrawalSoa never amplifies the imaginary part of a field ... *)
Theorem C44_agrawal_imaginary p dt a n :
  snd (amplified dt (fun _ => agrawal_dhdt p) a n) = snd (a n).
Proof.
  unfold amplified. cbn [snd]. rewrite agrawal_im. unfold Rdiv. rewrite Rmult_0_l, exp_0. ring.
Qed.
(** ... so that every one with gain treats the phases 0 and 90 degrees differently. *)
Theorem C44_agrawal_refuted p dt : 0 < ag_tc p -> 0 < ag_g0L p -> 0 < dt ->
  exists a u n, fst u ^ 2 + snd u ^ 2 = 1 /\
  amplified dt (fun _ => agrawal_dhdt p) (fun t => turn u (a t)) n <> turn u (amplified dt (fun _ => agrawal_dhdt p) a n).
Proof.
  intros Ht Hg Hd. exists (fun _ => (1, 0)), (0, 1), 1%nat. split; [cbn; ring|].
  intros E. apply (f_equal snd) in E. rewrite C44_agrawal_imaginary in E.
  unfold amplified, turn in E. cbn [fst snd] in E. rewrite agrawal_step in E. cbn [gain fst snd] in E.
  rewrite exp_0 in E.
  replace ((0 + dt * (1 / ag_tc p * (ag_g0L p - 0 - (1 ^ 2 + 0 ^ 2) / ag_Psat p * (1 - 1)))) / 2)
    with (dt * ag_g0L p / ag_tc p / 2) in E by (field_simplify_eq; [ring|lra] || (unfold Rdiv; ring)).
  assert (P : 0 < dt * ag_g0L p / ag_tc p / 2).
  { apply Rdiv_lt_0_compat; [|lra]. apply Rdiv_lt_0_compat; auto. apply Rmult_lt_0_compat; auto. }
  apply exp_increasing in P. rewrite exp_0 in P. lra.
Qed.

Print Assumptions C44_soa_covariant.
Print Assumptions C44_agrawal_imaginary.
Print Assumptions C44_agrawal_refuted.

(** * C74 *)
(** What enters an amplifier at its input is sent back out of it, in full. *)
Theorem C74_reflection_refuted e (b : net R) net T src y a o dt rate off t w c :
  waves_active 0 Rplus Rmult Rminus e b net T src y a o -> amplifier_at b off ->
  (forall t, (t < T)%nat -> placed (net t) 0 (soa dt (rate t)) off) ->
  (forall t i w c, b_src b i = false -> src t i w c = (0, 0)) ->
  (t < T)%nat -> (w < e_num_wl e)%nat ->
  o t off w c = before 0 a (lag e b off) t off w c.
Proof. exact (fun W A L N Lt Lw => amp_reflects W A L N c Lt Lw). Qed.
Print Assumptions C74_reflection_refuted.

(** * C75 *)
(** Gain of an AgrawalSoa without light. *)
Theorem C75_dark p dt a n : 0 < ag_tc p -> (forall t, a t = (0, 0)) ->
  fst (gain dt (fun _ => agrawal_dhdt p) a n) = ag_g0L p * (1 - (1 - dt / ag_tc p) ^ n).
Proof. exact (fun H Z => agrawal_dark dt H n Z). Qed.

(** With small enough steps the gain stays between 0 and the unsaturated gain. *)
Theorem C75_bounds p dt a Pmax : 0 < ag_tc p -> 0 < dt -> 0 < ag_Psat p -> 0 <= ag_g0L p ->
  (forall t, fst (a t) ^ 2 + snd (a t) ^ 2 <= Pmax) ->
  dt / ag_tc p * (1 + Pmax / ag_Psat p * exp (ag_g0L p)) <= 1 ->
  forall n, 0 <= fst (gain dt (fun _ => agrawal_dhdt p) a n) <= ag_g0L p.
Proof. exact (fun H1 H2 H3 H4 H5 H6 n => agrawal_bounds H1 H2 H3 H4 H5 H6 n). Qed.

(** With steps above the carrier lifetime it does not. *)
Theorem C75_large_step_refuted p dt : 0 < ag_tc p -> 0 < ag_g0L p -> ag_tc p < dt ->
  fst (gain dt (fun _ => agrawal_dhdt p) (fun _ => (0, 0)) 1) > ag_g0L p.
Proof.
  intros Ht Hg Hd. rewrite agrawal_dark by auto. cbn [pow].
  assert (1 < dt / ag_tc p). { apply Rmult_lt_reg_r with (ag_tc p); auto. unfold Rdiv. rewrite Rmult_assoc, Rinv_l; lra. }
  nra.
Qed.

Example C75_ex : let p := {| ag_tc := 1; ag_g0L := / 2; ag_Psat := 8 |} in
  1 / 8 / ag_tc p * (1 + 1 / ag_Psat p * exp (ag_g0L p)) <= 1.
Proof.
  cbn. assert (exp (/ 2) <= 4).
  { pose proof (exp_ineq1_le (- / 2)) as H. rewrite exp_Ropp in H. pose proof (exp_pos (/ 2)).
    assert (exp (/ 2) * (1 + - / 2) <= exp (/ 2) * / exp (/ 2)) by (apply Rmult_le_compat_l; lra).
    rewrite Rinv_r in H1 by lra. lra. }
  lra.
Qed.

Print Assumptions C75_dark.
Print Assumptions C75_bounds.
Print Assumptions C75_large_step_refuted.
