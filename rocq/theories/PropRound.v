(** Property C110: errors of rounding in simulations of passive circuits. *)
From Coq Require Import QArith Ring Reals Lra Permutation.
From Verif Require Import Base PyStr NetModel NetSpec NetProofs WireProofs NetBuild SimModel SimAlg SimSpec SimNodes SimProofs SimMore SimDelay
  SimRegular Gauss CircuitSpec CircuitProofs EnergyProofs EnergyNet Settle CompModel CompSpec CompProofs CompMore RoundSpec RoundProofs RoundFloat RoundLimit RingExample PropEnergy PropSettle.
Set Implicit Arguments.
Unset Strict Implicit.
Local Open Scope string_scope.
Local Open Scope list_scope.
Local Open Scope R_scope.

Section Props.
Variable solve : nat -> nat -> mat R -> mat R -> option (mat R).
Variables (A : Type) (act : A -> nat -> field R -> A * field R).
Notation forward := (forward 0 1 Rplus Rmult Rminus Ropp solve act).
Notation initialize := (initialize 0 1 Rplus Rmult Rminus Ropp solve).
Notation "l !! t" := (nth t l (zero_field 0)) (at level 20).

Lemma build_passive mods conns (b : net R) w : buildR mods conns = Ok b -> (forall n d, In (n, d) mods -> passive d w) -> passive b w.
Proof.
  intros HB HM x. destruct (build_inv HB) as (cs & Hs & Hb).
  eapply Rle_trans; [apply (@net_passive_terms (fun _ => false) cs _ b w Hb)|apply Rle_refl].
  intros n d I. eapply HM, assoc_In_s, (sc_from Hs), I.
Qed.

(** Whatever a computation of the steps does wrong, in total it does no more harm at the detectors
    than it did wrong: [M s] is the field computed in step [s]; it should have been the exact step
    from the fields computed before. *)
Theorem C110_errors_add mods conns (b : net R) e s0 source outs m w c (M : nat -> field R) (eps : nat -> R) :
  solver_sound 0 Rplus Rmult solve -> buildR mods conns = Ok b -> (forall n d, In (n, d) mods -> passive d w) ->
  sym_C b -> one_partner b -> flags_ok b -> num_act b = 0%nat -> (w < e_num_wl e)%nat ->
  forward e b s0 source = Ok outs -> initialize e b = Ok (Some m) ->
  (forall s, (s < e_num_t e)%nat ->
     gap (length (i_mc m)) (column (M s) w c)
       (column (snd (fst (step 0 Rplus Rmult Rminus act b m s0 s (node_source 0 (num_src b) source s) (memory (i_depth m) M s)))) w c) <= eps s) ->
  forall t, (t < e_num_t e)%nat ->
  gap (num_det b) (column (detect (det_start (length (i_mc m)) (num_det b)) (M t)) w c) (column (outs !! t) w c)
  <= lsum 0 Rplus eps (seq 0 (S t)).
Proof.
  intros SS HB HM SY OP FL NA Lw HF EI HE t Lt. pose proof (build_passive HB HM) as PA.
  assert (Sep : separate b) by (apply flags_separate; exact FL).
  destruct (forward_inv HF) as (m1 & EI1 & _ & _ & EO). rewrite EI in EI1. injection EI1 as <-.
  destruct (initialize_inv EI) as (_ & _ & Hmc & _).
  set (o := fun t => SimProofs.out 0 Rplus Rmult Rminus act b m (node_source 0 (num_src b) source) s0 (i_depth m) t) in *.
  assert (E : outs !! t = detect (det_start (length (i_mc m)) (num_det b)) (o t)).
  { rewrite EO. rewrite nth_indep with (d' := detect (det_start (length (i_mc m)) (num_det b)) (o 0%nat)) by (rewrite map_length, seq_length; auto).
    rewrite (map_nth (fun t => detect _ (o t))), seq_nth by auto. reflexivity. }
  rewrite E. pose proof (mc_len_sum e b) as HL. eapply Rle_trans; [apply detect_gap; rewrite Hmc; lia|]. rewrite Hmc.
  eapply Rle_trans; [apply (@errors_add solve A act SS b e m source s0 w c EI Sep NA Lw PA OP SY M (S t) t ltac:(lia))|].
  assert (MON : forall l (f g : nat -> R), (forall s, In s l -> f s <= g s) -> lsum 0 Rplus f l <= lsum 0 Rplus g l).
  { clear. induction l as [|x l IH]; intros f g H; [rewrite !lsum_nil; lra|]. rewrite !lsum_cons.
    pose proof (H x (or_introl eq_refl)). pose proof (IH f g (fun s I => H s (or_intror I))). lra. }
  apply MON. intros s I. apply in_seq in I. specialize (HE s ltac:(lia)). rewrite Hmc in HE. exact HE.
Qed.

(** In rounded arithmetic: [m'] are the stored matrices, up to [d] the exact ones. *)
Theorem C110_rounded mods conns (b : net R) e s0 source outs m m' w c u eta d rnd :
  solver_sound 0 Rplus Rmult solve -> buildR mods conns = Ok b -> (forall n d, In (n, d) mods -> passive d w) ->
  sym_C b -> one_partner b -> flags_ok b -> num_act b = 0%nat -> (w < e_num_wl e)%nat ->
  forward e b s0 source = Ok outs -> initialize e b = Ok (Some m) ->
  rounding u eta rnd -> 0 <= d -> close_init d w m m' ->
  forall t, (t < e_num_t e)%nat ->
  gap (num_det b) (column (rounded_outs rnd act b m' s0 source (e_num_t e) !! t) w c) (column (outs !! t) w c)
  <= rounding_bound (length (i_mc m)) t (sent_sizes (num_src b) source w c (S t)) u eta d.
Proof.
  intros SS HB HM SY OP FL NA Lw HF EI RN D0 CL t Lt. pose proof (build_passive HB HM) as PA.
  assert (Sep : separate b) by (apply flags_separate; exact FL).
  destruct (forward_inv HF) as (m1 & EI1 & _ & _ & EO). rewrite EI in EI1. injection EI1 as <-.
  destruct (initialize_inv EI) as (_ & _ & Hmc & _ & _ & _ & HD).
  set (o := fun t => SimProofs.out 0 Rplus Rmult Rminus act b m (node_source 0 (num_src b) source) s0 (i_depth m) t) in *.
  assert (E : outs !! t = detect (det_start (length (i_mc m)) (num_det b)) (o t)).
  { rewrite EO. rewrite nth_indep with (d' := detect (det_start (length (i_mc m)) (num_det b)) (o 0%nat)) by (rewrite map_length, seq_length; auto).
    rewrite (map_nth (fun t => detect _ (o t))), seq_nth by auto. reflexivity. }
  set (o' := fun t => SimProofs.out 0 (radd rnd) (rmul rnd) (rsub rnd) act b m' (node_source 0 (num_src b) source) s0 (i_depth m') t).
  assert (E' : rounded_outs rnd act b m' s0 source (e_num_t e) !! t = detect (det_start (length (i_mc m)) (num_det b)) (o' t)).
  { unfold rounded_outs. destruct CL as (-> & DD & _). rewrite run_all by (rewrite DD, HD; lia). rewrite map_map. cbn [snd].
    rewrite nth_indep with (d' := detect (det_start (length (i_mc m)) (num_det b)) (o' 0%nat)) by (rewrite map_length, seq_length; auto).
    rewrite (map_nth (fun t => detect _ (o' t))), seq_nth by auto. reflexivity. }
  rewrite E, E'. pose proof (mc_len_sum e b) as HL. eapply Rle_trans; [apply detect_gap; rewrite Hmc; lia|]. rewrite Hmc.
  exact (@rounded_error solve A act SS b e m m' source s0 w c EI Sep NA Lw PA OP SY u eta d rnd RN D0 CL t).
Qed.

(** With enough digits the error is as small as wanted, at all steps up to [t]. *)
Theorem C110_converges mods conns (b : net R) e s0 source outs m w c t eps :
  solver_sound 0 Rplus Rmult solve -> buildR mods conns = Ok b -> (forall n d, In (n, d) mods -> passive d w) ->
  sym_C b -> one_partner b -> flags_ok b -> num_act b = 0%nat -> (w < e_num_wl e)%nat ->
  forward e b s0 source = Ok outs -> initialize e b = Ok (Some m) -> (t < e_num_t e)%nat -> 0 < eps ->
  exists x, 0 < x /\ forall u eta d rnd m', rounding u eta rnd -> 0 <= d -> close_init d w m m' -> u <= x -> eta <= x -> d <= x ->
    gap (num_det b) (column (rounded_outs rnd act b m' s0 source (e_num_t e) !! t) w c) (column (outs !! t) w c) < eps.
Proof.
  intros SS HB HM SY OP FL NA Lw HF EI Lt P.
  destruct (@bound_small (length (i_mc m)) t (sent_sizes (num_src b) source w c (S t))
    ltac:(apply sum_pos; intros s _; apply size_pos) eps P) as (x & X0 & HX).
  exists x. split; [exact X0|]. intros u eta d rnd m' RN D0 CL U E D.
  eapply Rle_lt_trans; [eapply C110_rounded; eauto|]. apply HX; split; auto; [apply (rnd_u RN)|apply (rnd_eta RN)].
Qed.

(** Circuits of built-in passive components, with matrices that are rounded when they are stored. *)
Lemma round_init_close (b : net R) e m w u eta rnd :
  solver_sound 0 Rplus Rmult solve -> initialize e b = Ok (Some m) -> separate b -> (w < e_num_wl e)%nat -> passive b w -> one_partner b -> sym_C b ->
  rounding u eta rnd -> close_init (u + eta) w m (round_init rnd m).
Proof.
  intros SS EI Sep Lw PA OP SY RN. destruct (initialize_inv EI) as (_ & _ & Hmc & _).
  assert (E : forall x, Rabs x <= 1 -> Rabs (rnd x - x) <= u + eta).
  { intros x H. pose proof (rnd_error RN x). pose proof (Rmult_le_compat_l u _ _ (rnd_u RN) H). lra. }
  repeat split; try reflexivity; cbn [round_init i_S i_C fst snd]; apply E; rewrite Hmc in *.
  - apply (S_entry EI Sep PA); assumption.
  - apply (S_entry EI Sep PA); assumption.
  - apply (C_entry SS EI Sep Lw PA OP SY); assumption.
  - apply (C_entry SS EI Sep Lw PA OP SY); assumption.
Qed.
Theorem C110_builtin cc wl (term : string -> bool) mods conns (b : net R) e s0 source outs m w c p q rnd :
  solver_sound 0 Rplus Rmult solve -> made_of (builtin cc wl) term mods -> buildR mods conns = Ok b -> one_partner b -> (w < e_num_wl e)%nat ->
  forward e b s0 source = Ok outs -> initialize e b = Ok (Some m) -> nearest p q rnd ->
  forall t, (t < e_num_t e)%nat ->
  gap (num_det b) (column (rounded_outs rnd act b (round_init rnd m) s0 source (e_num_t e) !! t) w c) (column (outs !! t) w c)
  <= rounding_bound (length (i_mc m)) t (sent_sizes (num_src b) source w c (S t)) (/ 2 ^ p) (/ 2 ^ S q) (/ 2 ^ p + / 2 ^ S q).
Proof.
  intros SS HM HB OP Lw HF EI NR. destruct (made_facts (P := builtin cc wl) (fun d H => H) HM HB) as (SY & FL & NA & U).
  pose proof (nearest_rounding NR) as RN.
  assert (HP : forall n d, In (n, d) mods -> passive d w).
  { intros n d I. specialize (HM n d I). destruct (term n); [apply dark_passive, ending_dark, HM|].
    destruct HM as (ct & He & Hc). eapply compile_passive; [|exact Hc]. eapply every_leaf_impl; [|exact He]. intros d' Hd'. eapply builtin_passive, Hd'. }
  eapply C110_rounded; eauto.
  - pose proof (rnd_u RN). pose proof (rnd_eta RN). lra.
  - apply (round_init_close SS EI); auto; [apply flags_separate; exact FL|exact (build_passive HB HP)].
Qed.

(** Nothing overflows: the numbers that come up stay below [step_limit], so that the results are the same whatever
    happens above ([rnd']): [x] bounds the light sent in and the rounding errors, and does not depend on the circuit. *)
Theorem C110_no_overflow mods conns (b : net R) e s0 source outs m m' w c u eta d rnd rnd' x :
  solver_sound 0 Rplus Rmult solve -> buildR mods conns = Ok b -> (forall n d, In (n, d) mods -> passive d w) ->
  sym_C b -> one_partner b -> flags_ok b -> num_act b = 0%nat -> (w < e_num_wl e)%nat ->
  forward e b s0 source = Ok outs -> initialize e b = Ok (Some m) ->
  rounding u eta rnd -> 0 <= d -> close_init d w m m' ->
  let n := length (i_mc m) in let l := sent_sizes (num_src b) source w c (e_num_t e) in
  l + rounding_bound n (e_num_t e) l u eta d <= x ->
  (forall y, Rabs y <= step_limit n u eta d x -> rnd' y = rnd y) ->
  forall t k, (t < e_num_t e)%nat -> (k < num_det b)%nat ->
  at_ (rounded_outs rnd' act b m' s0 source (e_num_t e) !! t) w k c = at_ (rounded_outs rnd act b m' s0 source (e_num_t e) !! t) w k c.
Proof.
  intros SS HB HM SY OP FL NA Lw HF EI RN D0 CL n l HX AG t k Lt Lk. subst n l. pose proof (build_passive HB HM) as PA.
  assert (Sep : separate b) by (apply flags_separate; exact FL).
  destruct (initialize_inv EI) as (_ & _ & Hmc & _ & _ & _ & HD).
  assert (E : forall r, rounded_outs r act b m' s0 source (e_num_t e) !! t
    = detect (det_start (length (i_mc m)) (num_det b)) (SimProofs.out 0 (radd r) (rmul r) (rsub r) act b m' (node_source 0 (num_src b) source) s0 (i_depth m') t)).
  { intros r. set (o' := fun t => SimProofs.out 0 (radd r) (rmul r) (rsub r) act b m' (node_source 0 (num_src b) source) s0 (i_depth m') t).
    unfold rounded_outs. destruct CL as (-> & DD & _). rewrite run_all by (rewrite DD, HD; lia). rewrite map_map. cbn [snd].
    rewrite nth_indep with (d' := detect (det_start (length (i_mc m)) (num_det b)) (o' 0%nat)) by (rewrite map_length, seq_length; auto).
    rewrite (map_nth (fun t => detect _ (o' t))), seq_nth by auto. reflexivity. }
  rewrite !E. rewrite Hmc in *. pose proof (mc_len_sum e b) as HL.
  assert (KK : (det_start (length (mc_nodes e b)) (num_det b) + k < length (mc_nodes e b))%nat).
  { unfold det_start. destruct (Nat.eqb_spec (num_det b) 0); lia. }
  exact (@limit_agree solve A act SS b e m m' source s0 w c EI Sep NA Lw PA OP SY u eta d rnd rnd' RN D0 CL (e_num_t e) x HX AG t Lt _ KK).
Qed.

(** In single precision: circuits of less than a million nodes do not overflow if less than 2^78 is sent in. *)
Theorem C110_single_range n d x : (n < 2 ^ 20)%nat -> 0 <= d <= 1 -> 0 <= x <= 2 ^ 78 -> step_limit n (/ 2 ^ 24) (/ 2 ^ 150) d x <= 2 ^ 127.
Proof. exact (@single_range n d x). Qed.

(** Binary floating point with [p] digits, rounding to nearest. *)
Theorem C110_binary p q rnd : nearest p q rnd -> rounding (/ 2 ^ p) (/ 2 ^ S q) rnd.
Proof. exact (@nearest_rounding p q rnd). Qed.
End Props.
Print Assumptions C110_errors_add.
Print Assumptions C110_rounded.
Print Assumptions C110_converges.
Print Assumptions C110_builtin.
Print Assumptions C110_binary.
Print Assumptions C110_no_overflow.
Print Assumptions C110_single_range.

(** * Examples *)
(** There are roundings to nearest in every precision. *)
Example C110_ex_rounding : nearest 24 149 (to_nearest 24 149) /\ nearest 53 1074 (to_nearest 53 1074).
Proof. split; apply to_nearest_nearest; repeat constructor. Qed.
(** The lossy waveguide of [C26_ex]: all hypotheses hold in single precision. *)
Example C110_ex source : exists b outs m, solver_sound 0 Rplus Rmult rsolve
  /\ buildR r_parts ["s:0:wg:0"; "wg:1:d:0"] = Ok b /\ (forall n d, In (n, d) r_parts -> passive d 0%nat)
  /\ sym_C b /\ one_partner b /\ flags_ok b /\ num_act b = 0%nat /\ num_det b = 1%nat
  /\ forward 0 1 Rplus Rmult Rminus Ropp rsolve ract (tenv 3) b tt source = Ok outs
  /\ initialize 0 1 Rplus Rmult Rminus Ropp rsolve (tenv 3) b = Ok (Some m)
  /\ let rnd := to_nearest 24 149 in
     rounding (/ 2 ^ 24) (/ 2 ^ 150) rnd /\ close_init (/ 2 ^ 24 + / 2 ^ 150) 0 m (round_init rnd m)
  /\ gap 1 (column (nth 2 (rounded_outs rnd ract b (round_init rnd m) tt source 3) (zero_field 0)) 0 0) (column (nth 2 outs (zero_field 0)) 0 0)
     <= rounding_bound (length (i_mc m)) 2 (sent_sizes 1 source 0 0 3) (/ 2 ^ 24) (/ 2 ^ 150) (/ 2 ^ 24 + / 2 ^ 150).
Proof.
  destruct (C26_ex source) as (b & outs & SS & HB & HM & SY & OP & FL & NA & NS & ND & U & HF).
  destruct (forward_inv HF) as (m & EI & _ & _ & _). exists b, outs, m.
  assert (HP : forall n d, In (n, d) r_parts -> passive d 0%nat).
  { intros n d I. specialize (HM n d I). destruct (is_term n); [apply dark_passive, HM|apply HM]. }
  assert (Sep : separate b) by (apply flags_separate; exact FL).
  assert (Lw : (0 < e_num_wl (tenv 3))%nat) by (cbn; lia).
  pose proof (nearest_rounding (proj1 C110_ex_rounding)) as RN.
  assert (CL : close_init (/ 2 ^ 24 + / 2 ^ 150) 0 m (round_init (to_nearest 24 149) m)).
  { apply (round_init_close SS EI Sep Lw (build_passive HB HP) OP SY RN). }
  do 10 (split; [assumption|]). split; [exact RN|]. split; [exact CL|].
  pose proof (C110_rounded 0 SS HB HP SY OP FL NA Lw HF EI RN (Rplus_le_le_0_compat _ _ (rnd_u RN) (rnd_eta RN)) CL (t := 2)) as H.
  rewrite ND, NS in H. apply H. repeat constructor.
Qed.
(** The same waveguide, with an arithmetic that yields 0 where numbers get too large. *)
Example C110_overflow_ex source : exists b outs m x, buildR r_parts ["s:0:wg:0"; "wg:1:d:0"] = Ok b
  /\ forward 0 1 Rplus Rmult Rminus Ropp rsolve ract (tenv 3) b tt source = Ok outs
  /\ initialize 0 1 Rplus Rmult Rminus Ropp rsolve (tenv 3) b = Ok (Some m)
  /\ let rnd := to_nearest 24 149 in let lim := step_limit (length (i_mc m)) (/ 2 ^ 24) (/ 2 ^ 150) (/ 2 ^ 24 + / 2 ^ 150) x in
     let rnd' := fun y => if Rle_dec (Rabs y) lim then rnd y else 0 in
     (exists y, rnd' y <> rnd y)
  /\ at_ (nth 2 (rounded_outs rnd' ract b (round_init rnd m) tt source 3) (zero_field 0)) 0 0 0
     = at_ (nth 2 (rounded_outs rnd ract b (round_init rnd m) tt source 3) (zero_field 0)) 0 0 0.
Proof.
  destruct (C26_ex source) as (b & outs & SS & HB & HM & SY & OP & FL & NA & NS & ND & U & HF).
  destruct (forward_inv HF) as (m & EI & _ & _ & _). exists b, outs, m.
  assert (HP : forall n d, In (n, d) r_parts -> passive d 0%nat).
  { intros n d I. specialize (HM n d I). destruct (is_term n); [apply dark_passive, HM|apply HM]. }
  assert (Sep : separate b) by (apply flags_separate; exact FL).
  assert (Lw : (0 < e_num_wl (tenv 3))%nat) by (cbn; lia).
  pose proof (nearest_rounding (proj1 C110_ex_rounding)) as RN.
  assert (CL : close_init (/ 2 ^ 24 + / 2 ^ 150) 0 m (round_init (to_nearest 24 149) m)).
  { apply (round_init_close SS EI Sep Lw (build_passive HB HP) OP SY RN). }
  set (l := sent_sizes (num_src b) source 0 0 (e_num_t (tenv 3))).
  set (x := l + rounding_bound (length (i_mc m)) (e_num_t (tenv 3)) l (/ 2 ^ 24) (/ 2 ^ 150) (/ 2 ^ 24 + / 2 ^ 150)).
  exists x. do 3 (split; [assumption|]). cbv zeta. set (lim := step_limit _ _ _ _ x). split.
  - exists (2 * (Rabs lim + 1)). pose proof (Rabs_pos lim) as P. pose proof (Rle_abs lim) as Q. destruct (Rle_dec _ _) as [L|L]; [rewrite Rabs_pos_eq in L by lra; lra|].
    intros E. pose proof (rnd_error RN (2 * (Rabs lim + 1))) as X. rewrite <- E in X. rewrite Rminus_0_l, Rabs_Ropp, Rabs_pos_eq in X by lra.
    assert (/ 2 ^ 24 <= / 4) by (apply Rinv_le_contravar; lra). assert (/ 2 ^ 150 <= / 4) by (apply Rinv_le_contravar; lra).
    assert (/ 2 ^ 24 * (2 * (Rabs lim + 1)) <= / 4 * (2 * (Rabs lim + 1))) by (apply Rmult_le_compat_r; lra). lra.
  - apply (C110_no_overflow (outs := outs) (m := m) (c := 0) SS HB HP SY OP FL NA Lw HF EI RN (Rplus_le_le_0_compat _ _ (rnd_u RN) (rnd_eta RN)) CL (Rle_refl x)).
    + intros y Hy. destruct (Rle_dec _ _) as [L|L]; [reflexivity|]. contradiction.
    + repeat constructor.
    + rewrite ND. repeat constructor.
Qed.
