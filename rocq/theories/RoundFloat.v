(** Errors of simulations in rounded arithmetic. *)
From Coq Require Import QArith Ring Reals Lra Permutation Psatz.
From Verif Require Import Base PyStr NetModel NetSpec NetProofs WireProofs NetBuild SimModel SimAlg SimSpec SimNodes SimProofs SimMore SimDelay
  SimRegular CircuitSpec CircuitProofs EnergyProofs EnergyNet Settle RoundSpec RoundProofs.
Set Implicit Arguments.
Unset Strict Implicit.
Local Open Scope list_scope.
Local Open Scope R_scope.

Section Ops.
Variables (u eta : R) (rnd : R -> R).
Hypothesis RN : rounding u eta rnd.
Notation radd := (radd rnd).
Notation rsub := (rsub rnd).
Notation rmul := (rmul rnd).
Let U := rnd_u RN.
Let ETA := rnd_eta RN.

Lemma rabs_sum (f : nat -> R) l : Rabs (rsum f l) <= rsum (fun j => Rabs (f j)) l.
Proof.
  induction l as [|j l IH]; [rewrite !lsum_nil, Rabs_R0; lra|]. rewrite !lsum_cons. eapply Rle_trans; [apply Rabs_triang|]. lra.
Qed.
Lemma pow_ge1 k : 1 <= (1 + u) ^ k.
Proof. apply pow_R1_Rle. pose proof U. lra. Qed.

(** [p] and [q] computed with errors, then combined. *)
Lemma comb_add p q P Q : Rabs (radd p q - (P + Q)) <= (1 + u) * (Rabs (p - P) + Rabs (q - Q)) + u * (Rabs P + Rabs Q) + eta.
Proof.
  pose proof U. pose proof (rnd_error RN (p + q)) as H0. unfold RoundSpec.radd.
  assert (A : Rabs (rnd (p + q) - (P + Q)) <= Rabs (rnd (p + q) - (p + q)) + (Rabs (p - P) + Rabs (q - Q))).
  { replace (rnd (p + q) - (P + Q)) with ((rnd (p + q) - (p + q)) + ((p - P) + (q - Q))) by ring.
    eapply Rle_trans; [apply Rabs_triang|]. apply Rplus_le_compat_l, Rabs_triang. }
  assert (B : Rabs (p + q) <= Rabs P + Rabs Q + (Rabs (p - P) + Rabs (q - Q))).
  { replace (p + q) with ((P + Q) + ((p - P) + (q - Q))) by ring. eapply Rle_trans; [apply Rabs_triang|].
    apply Rplus_le_compat; apply Rabs_triang. }
  pose proof (Rmult_le_compat_l u _ _ U B). lra.
Qed.
Lemma comb_sub p q P Q : Rabs (rsub p q - (P - Q)) <= (1 + u) * (Rabs (p - P) + Rabs (q - Q)) + u * (Rabs P + Rabs Q) + eta.
Proof.
  replace (P - Q) with (P + - Q) by ring. replace (Rabs (q - Q)) with (Rabs (- q - - Q)) by (rewrite <- Rabs_Ropp; f_equal; ring).
  rewrite <- (Rabs_Ropp Q). unfold RoundSpec.rsub. replace (p - q) with (p + - q) by ring. apply comb_add.
Qed.

(** A sum of products. *)
Lemma dot_error (a x : nat -> R) l :
  Rabs (lsum 0 radd (fun j => rmul (a j) (x j)) l - rsum (fun j => a j * x j) l) <=
  ((1 + u) ^ S (length l) - 1) * rsum (fun j => Rabs (a j * x j)) l + 2 * INR (length l) * eta * (1 + u) ^ length l.
Proof.
  induction l as [|j l IH].
  { rewrite !lsum_nil. cbn [length INR pow]. rewrite Rminus_0_r, Rabs_R0. lra. }
  rewrite !lsum_cons. set (s := lsum 0 radd (fun j => rmul (a j) (x j)) l) in *. set (X := rsum (fun j => a j * x j) l) in *.
  set (Mx := rsum (fun j => Rabs (a j * x j)) l) in *.
  assert (HX : Rabs X <= Mx) by apply rabs_sum.
  pose proof (comb_add (rmul (a j) (x j)) s (a j * x j) X) as C.
  pose proof (rnd_error RN (a j * x j)) as PE. fold (rmul (a j) (x j)) in PE.
  set (p := Rabs (a j * x j)) in *. assert (P0 : 0 <= p) by apply Rabs_pos. assert (M0 : 0 <= Mx) by (eapply Rle_trans; [apply Rabs_pos|exact HX]).
  pose proof U. pose proof ETA. pose proof (pow_ge1 (length l)) as W1. cbn [length pow] in *. rewrite S_INR.
  set (W := (1 + u) ^ length l) in *. set (q := INR (length l)) in *. assert (Q0 : 0 <= q) by apply pos_INR.
  eapply Rle_trans; [exact C|].
  assert (A1 : (1 + u) * (Rabs (rmul (a j) (x j) - a j * x j) + Rabs (s - X)) <= (1 + u) * ((u * p + eta) + (((1 + u) * W - 1) * Mx + 2 * q * eta * W))).
  { apply Rmult_le_compat_l; lra. }
  assert (A2 : u * (p + Rabs X) <= u * (p + Mx)) by (apply Rmult_le_compat_l; lra).
  set (V := (1 + u) * W) in *. assert (V1 : 1 + u <= V) by (unfold V; rewrite <- (Rmult_1_r (1 + u)) at 1; apply Rmult_le_compat_l; lra).
  assert (A3 : eta * 1 <= eta * V) by (apply Rmult_le_compat_l; lra).
  assert (A4 : eta * (1 + u) <= eta * V) by (apply Rmult_le_compat_l; lra).
  assert (A5 : p * ((1 + u) * (1 + u)) <= p * ((1 + u) * V)) by (apply Rmult_le_compat_l; [lra|]; apply Rmult_le_compat_l; lra).
  replace (2 * (q + 1) * eta * V) with ((1 + u) * (2 * q * eta * W) + 2 * (eta * V)) by (unfold V; ring).
  replace (((1 + u) * V - 1) * (p + Mx)) with (p * ((1 + u) * V) - p + ((1 + u) * V - 1) * Mx) by ring.
  replace ((1 + u) * ((u * p + eta) + ((V - 1) * Mx + 2 * q * eta * W))) with
    (p * ((1 + u) * (1 + u)) - p - u * p + eta * (1 + u) + ((1 + u) * V - 1 - u) * Mx + (1 + u) * (2 * q * eta * W)) in A1 by ring.
  lra.
Qed.

(** A row of a matrix known up to [d], with entries of size at most 1. *)
Lemma row_error n (a' a x : nat -> R) d B : 0 <= d -> 0 <= B ->
  (forall j, (j < n)%nat -> Rabs (a' j - a j) <= d /\ Rabs (a j) <= 1 /\ Rabs (x j) <= B) ->
  Rabs (lsum 0 radd (fun j => rmul (a' j) (x j)) (seq 0 n) - rsum (fun j => a j * x j) (seq 0 n)) <=
    INR n * B * ((1 + u) ^ S n * (1 + d) - 1) + 2 * INR n * eta * (1 + u) ^ n
  /\ Rabs (rsum (fun j => a j * x j) (seq 0 n)) <= INR n * B.
Proof.
  intros D0 B0 H.
  assert (CS : forall (f : nat -> R) k, (forall j, (j < n)%nat -> f j <= k) -> rsum f (seq 0 n) <= INR n * k).
  { clear. induction n as [|n IH]; intros f k H; [cbn [seq INR]; rewrite lsum_nil; lra|].
    rewrite seq_S, (lsum_app RTheory), S_INR. cbn [Nat.add]. rewrite lsum_cons, lsum_nil.
    specialize (IH f k (fun j L => H j (Nat.lt_lt_succ_r _ _ L))). specialize (H n (Nat.lt_succ_diag_r n)). lra. }
  assert (MB : forall p q P Q, 0 <= P -> Rabs p <= P -> Rabs q <= Q -> Rabs (p * q) <= P * Q).
  { intros p q P Q P0 H1 H2. rewrite Rabs_mult. apply Rmult_le_compat; auto using Rabs_pos. }
  split.
  - pose proof (dot_error a' x (seq 0 n)) as DE. rewrite seq_length in DE.
    assert (S1 : rsum (fun j => Rabs (a' j * x j)) (seq 0 n) <= INR n * ((1 + d) * B)).
    { apply CS. intros j Lj. destruct (H j Lj) as (H1 & H2 & H3). apply MB; [lra| |exact H3].
      replace (a' j) with (a j + (a' j - a j)) by ring. eapply Rle_trans; [apply Rabs_triang|]. lra. }
    assert (S2 : Rabs (rsum (fun j => a' j * x j) (seq 0 n) - rsum (fun j => a j * x j) (seq 0 n)) <= INR n * (d * B)).
    { rewrite <- (lsum_sub RTheory). eapply Rle_trans; [apply rabs_sum|]. apply CS. intros j Lj. destruct (H j Lj) as (H1 & H2 & H3).
      replace (a' j * x j - a j * x j) with ((a' j - a j) * x j) by ring. apply MB; auto. }
    set (y := lsum 0 radd (fun j => rmul (a' j) (x j)) (seq 0 n)) in *. set (y' := rsum (fun j => a' j * x j) (seq 0 n)) in *.
    set (z := rsum (fun j => a j * x j) (seq 0 n)) in *.
    assert (T : Rabs (y - z) <= Rabs (y - y') + Rabs (y' - z)).
    { replace (y - z) with ((y - y') + (y' - z)) by ring. apply Rabs_triang. }
    pose proof (pow_ge1 (S n)) as W1. set (W := (1 + u) ^ S n) in *.
    assert (S3 : (W - 1) * rsum (fun j => Rabs (a' j * x j)) (seq 0 n) <= (W - 1) * (INR n * ((1 + d) * B))) by (apply Rmult_le_compat_l; lra).
    replace (INR n * B * (W * (1 + d) - 1)) with ((W - 1) * (INR n * ((1 + d) * B)) + INR n * (d * B)) by ring. lra.
  - eapply Rle_trans; [apply rabs_sum|]. apply CS. intros j Lj. destruct (H j Lj) as (H1 & H2 & H3).
    rewrite <- (Rmult_1_l B). apply MB; auto. lra.
Qed.

(** Reading the buffer is exact. *)
Lemma read_exact (x : nat -> R) q len : (forall t, rnd (x t) = x t) -> forall a,
  lsum 0 radd (fun t => rmul (if (t =? q)%nat then 1 else 0) (x t)) (seq a len) = if (a <=? q)%nat && (q <? a + len)%nat then x q else 0.
Proof.
  intros H. induction len as [|len IH]; intros a.
  - cbn [seq]. rewrite lsum_nil. destruct (Nat.leb_spec a q), (Nat.ltb_spec q (a + 0)); cbn [andb]; auto; lia.
  - cbn [seq]. rewrite lsum_cons, IH. unfold RoundSpec.radd, RoundSpec.rmul. destruct (Nat.eqb_spec a q) as [->|N].
    + destruct (Nat.leb_spec (S q) q); [lia|]. cbn [andb]. destruct (Nat.leb_spec q q), (Nat.ltb_spec q (q + S len)); try lia. cbn [andb].
      rewrite Rmult_1_l, H, Rplus_0_r. apply H.
    + rewrite Rmult_0_l, (rnd_0 RN), Rplus_0_l.
      destruct (Nat.leb_spec (S a) q), (Nat.ltb_spec q (S a + len)), (Nat.leb_spec a q), (Nat.ltb_spec q (a + S len)); try lia; cbn [andb]; try apply (rnd_0 RN); apply H.
Qed.
End Ops.

(** The buffer of a simulation with any operations. *)
Section Any.
Variables (kadd kmul ksub : R -> R -> R) (A : Type) (act : A -> nat -> field R -> A * field R).
Variables (b : net R) (m : init R) (src : nat -> field R) (s0 : A).
Hypothesis NA : num_act b = O.
Hypothesis D1 : (1 <= i_depth m)%nat.
Notation out := (out 0 kadd kmul ksub act b m src s0 (i_depth m)).
Lemma out_any t : out t = snd (fst (step 0 kadd kmul ksub act b m s0 t (src t) (memory (i_depth m) out t))).
Proof.
  unfold SimProofs.out at 1.
  assert (E : forall t, window 0 (i_depth m) (snd (hist 0 kadd kmul ksub act b m src s0 (i_depth m) t)) = memory (i_depth m) out t).
  { intros v. induction v as [|v IH].
    - cbn [hist snd memory]. unfold window. cbn [app]. apply firstn_all2. rewrite repeat_length. auto.
    - rewrite hist_S. cbn [snd memory]. rewrite <- IH, (window_cons 0 D1). reflexivity. }
  rewrite E. unfold step. rewrite NA. reflexivity.
Qed.
End Any.

Section Run.
Variable solve : nat -> nat -> mat R -> mat R -> option (mat R).
Variables (A : Type) (act : A -> nat -> field R -> A * field R).
Hypothesis SS : solver_sound 0 Rplus Rmult solve.
Variables (b : net R) (e : env) (m m' : init R) (source : nat -> field R) (s0 : A) (w c : nat).
Hypothesis EI : initialize 0 1 Rplus Rmult Rminus Ropp solve e b = Ok (Some m).
Hypothesis Sep : separate b.
Hypothesis NA : num_act b = O.
Hypothesis Lw : (w < e_num_wl e)%nat.
Hypothesis PA : passive b w.
Hypothesis OP : one_partner b.
Hypothesis SY : sym_C b.
Variables (u eta d : R) (rnd : R -> R).
Hypothesis RN : rounding u eta rnd.
Hypothesis D0 : 0 <= d.
Hypothesis CL : close_init d w m m'.
Notation radd := (radd rnd).
Notation rsub := (rsub rnd).
Notation rmul := (rmul rnd).
Notation mc := (mc_nodes e b).
Notation n := (length mc).
Notation D := (i_depth m).
Notation nsrc := (node_source 0 (num_src b) source).
Notation exact t buf := (snd (fst (step 0 Rplus Rmult Rminus act b m s0 t (nsrc t) buf))).
Notation rout := (out 0 radd rmul rsub act b m' nsrc s0 (i_depth m')).
Notation lg := (fun k => lag e b (nth k mc O)).
Notation col x := (column x w c).
Notation Sv := (Sv b e w).
Notation Cv := (Cv b e m w).
Notation traj := (traj w c).

Let mcm : length (i_mc m) = n.
Proof. destruct (initialize_inv EI) as (_ & _ & E & _). now rewrite E. Qed.
Let mcm' : length (i_mc m') = n.
Proof. destruct CL as [E _]. congruence. Qed.
Let dep : i_depth m' = D.
Proof. destruct CL as (_ & E & _). exact E. Qed.
Let rout_any t : rout t = snd (fst (step 0 radd rmul rsub act b m' s0 t (nsrc t) (memory D rout t))).
Proof.
  rewrite <- dep at 1. apply out_any; [exact NA|]. rewrite dep. exact (@depth1 solve A act b e m source s0 w c EI NA Lw).
Qed.
Let D1 : (1 <= D)%nat := @depth1 solve A act b e m source s0 w c EI NA Lw.

Definition unit (j i : nat) : R * R := if (i =? j)%nat then (1, 0) else zc0.
Lemma unit_size j : (j < n)%nat -> size n (unit j) = 1.
Proof.
  intros L. unfold size, power_all, unit.
  rewrite (@lsum_ext _ 0 Rplus _ _ (fun i => if (i =? j)%nat then 1 else 0)).
  - rewrite (lsum_one RTheory n j (fun _ => 1)). apply Nat.ltb_lt in L. rewrite L. apply sqrt_1.
  - intros i _. destruct (i =? j)%nat; unfold norm2; cbn [fst snd c0]; ring.
Qed.
Lemma pick_col (z : nat -> R * R) j : (j < n)%nat -> zcsum (fun i => zcmul (z i) (unit j i)) (seq 0 n) = z j.
Proof.
  intros L. rewrite (@lsum_ext _ zc0 zcadd _ _ (fun i => if (i =? j)%nat then z i else zc0)).
  - rewrite (lsum_one ZR). apply Nat.ltb_lt in L. rewrite L. reflexivity.
  - intros i _. unfold unit. destruct (i =? j)%nat; [|ring]. change (1, 0) with (c1 0 1). ring.
Qed.
Lemma S_entry k j : (k < n)%nat -> (j < n)%nat -> Rabs (fst (i_S m w k j)) <= 1 /\ Rabs (snd (i_S m w k j)) <= 1.
Proof.
  intros Lk Lj. pose proof (part_le (Sv (unit j)) Lk) as [P1 P2].
  pose proof (@Sv_size b e w Sep PA (unit j)) as H. rewrite (unit_size Lj) in H.
  destruct (initialize_inv EI) as (_ & _ & _ & HS & _). rewrite HS. unfold RoundProofs.Sv in P1, P2. rewrite pick_col in P1, P2 by exact Lj. unfold RoundProofs.Sv in H. lra.
Qed.
Lemma C_entry k j : (k < n)%nat -> (j < n)%nat -> Rabs (fst (i_C m w) k j) <= 1 /\ Rabs (snd (i_C m w) k j) <= 1.
Proof.
  intros Lk Lj. pose proof (part_le (Cv (unit j)) Lk) as [P1 P2].
  pose proof (@Cv_size solve SS b e m w EI Sep Lw PA OP SY (unit j)) as H. rewrite (unit_size Lj) in H.
  unfold RoundProofs.Cv in P1, P2. rewrite (pick_col (fun j => (fst (i_C m w) k j, snd (i_C m w) k j)) Lj) in P1, P2. cbn [fst snd] in P1, P2. unfold RoundProofs.Cv in H. lra.
Qed.

Notation G := ((1 + u) ^ S (S n) * (1 + d) - 1).
Notation alpha := (per_light n u d).
Notation beta := (per_step n u eta).
Let U := rnd_u RN.
Let ETA := rnd_eta RN.
Let NP := pos_INR n.
Lemma G_u : u <= G.
Proof.
  pose proof U. pose proof D0. pose proof (pow_ge1 RN (S n)) as P. cbn [pow] in *.
  set (W := (1 + u) * (1 + u) ^ n) in *. assert (1 + u <= (1 + u) * W) by (rewrite <- (Rmult_1_r (1 + u)) at 1; apply Rmult_le_compat_l; lra).
  assert ((1 + u) * W * 1 <= (1 + u) * W * (1 + d)) by (apply Rmult_le_compat_l; lra). lra.
Qed.
Lemma alpha_pos : 0 <= alpha.
Proof. unfold per_light. pose proof G_u. pose proof U. pose proof NP. apply Rmult_le_pos; [|lra]. apply Rmult_le_pos; [lra|]. apply Rmult_le_pos; lra. Qed.
Lemma beta_pos : 0 <= beta.
Proof.
  unfold per_step. pose proof U. pose proof NP. pose proof ETA. pose proof (pow_ge1 RN (S n)) as P1. set (W := (1 + u) ^ S n) in *. clearbody W.
  repeat apply Rmult_le_pos; lra.
Qed.

(** A complex matrix times a vector. *)
Lemma cmv_error rA' iA' (rA iA : nat -> nat -> R) (x : field R) :
  (forall k j, (k < n)%nat -> (j < n)%nat -> Rabs (rA' w k j - rA k j) <= d /\ Rabs (iA' w k j - iA k j) <= d /\ Rabs (rA k j) <= 1 /\ Rabs (iA k j) <= 1) ->
  gap n (col (cmv 0 radd rmul rsub n rA' iA' x)) (fun k => zcsum (fun j => zcmul (rA k j, iA k j) (col x j)) (seq 0 n)) <= alpha * size n (col x) + beta.
Proof.
  intros H. unfold gap. set (B := size n (col x)). assert (B0 : 0 <= B) by apply size_pos.
  pose proof U as U'. pose proof ETA as E'. pose proof NP as NP'. pose proof D0 as D0'.
  assert (X : forall j, (j < n)%nat -> Rabs (fst x w j c) <= B /\ Rabs (snd x w j c) <= B) by (intros j Lj; apply (part_le (col x) Lj)).
  set (h := 2 * INR n * eta * (1 + u) ^ n). set (g := (1 + u) ^ S n * (1 + d) - 1).
  assert (R1 : forall (a' a : nat -> nat -> R) (y : nat -> R) k, (k < n)%nat ->
    (forall j, (j < n)%nat -> Rabs (a' k j - a k j) <= d /\ Rabs (a k j) <= 1 /\ Rabs (y j) <= B) ->
    Rabs (lsum 0 radd (fun j => rmul (a' k j) (y j)) (seq 0 n) - rsum (fun j => a k j * y j) (seq 0 n)) <= INR n * B * g + h
    /\ Rabs (rsum (fun j => a k j * y j) (seq 0 n)) <= INR n * B).
  { intros a' a y k Lk HH. apply (row_error RN D0 B0 HH). }
  set (Bd := 2 * INR n * B * G + (4 * INR n + 1) * eta * (1 + u) ^ S n).
  assert (GP : 0 <= G) by (pose proof G_u; lra).
  assert (P0 : 1 <= (1 + u) ^ n) by apply (pow_ge1 RN).
  assert (H0 : 0 <= h) by (unfold h; set (W := (1 + u) ^ n) in *; clearbody W; repeat apply Rmult_le_pos; lra).
  assert (CB : forall p q P Q, Rabs (p - P) <= INR n * B * g + h -> Rabs (q - Q) <= INR n * B * g + h ->
    Rabs P <= INR n * B -> Rabs Q <= INR n * B -> (1 + u) * (Rabs (p - P) + Rabs (q - Q)) + u * (Rabs P + Rabs Q) + eta <= Bd).
  { intros p q P Q H1 H2 H3 H4.
    assert (A1 : (1 + u) * (Rabs (p - P) + Rabs (q - Q)) <= (1 + u) * (2 * (INR n * B * g + h))) by (apply Rmult_le_compat_l; lra).
    assert (A2 : u * (Rabs P + Rabs Q) <= u * (2 * (INR n * B))) by (apply Rmult_le_compat_l; lra).
    assert (EG : (1 + u) * g + u = G) by (unfold g; cbn [pow]; ring).
    assert (A3 : (1 + u) * (2 * (INR n * B * g + h)) + u * (2 * (INR n * B)) = 2 * INR n * B * G + 2 * ((1 + u) * h)) by (rewrite <- EG; ring).
    assert (A4 : 2 * ((1 + u) * h) = 4 * INR n * eta * (1 + u) ^ S n) by (unfold h; cbn [pow]; ring).
    pose proof (pow_ge1 RN (S n)) as P1. assert (A5 : eta * 1 <= eta * (1 + u) ^ S n) by (apply Rmult_le_compat_l; lra).
    unfold Bd. lra. }
  assert (BB : 0 <= Bd).
  { unfold Bd. pose proof (pow_ge1 RN (S n)) as P1. set (W := (1 + u) ^ S n) in *. clearbody W. apply Rplus_le_le_0_compat; repeat apply Rmult_le_pos; try lra. }
  replace (alpha * B + beta) with (2 * INR n * Bd) by (unfold per_light, per_step, Bd; ring).
  apply size_bound; [exact BB|]. intros k Lk. unfold column. rewrite (csum_mul RTheory). unfold at_, cmv, mv, csub. cbn [fst snd].
  assert (RR : forall y : nat -> R, (forall j, (j < n)%nat -> Rabs (y j) <= B) -> forall j, (j < n)%nat -> Rabs (rA' w k j - rA k j) <= d /\ Rabs (rA k j) <= 1 /\ Rabs (y j) <= B).
  { intros y Hy j Lj. destruct (H k j Lk Lj) as (H1 & H2 & H3 & H4). auto. }
  assert (II : forall y : nat -> R, (forall j, (j < n)%nat -> Rabs (y j) <= B) -> forall j, (j < n)%nat -> Rabs (iA' w k j - iA k j) <= d /\ Rabs (iA k j) <= 1 /\ Rabs (y j) <= B).
  { intros y Hy j Lj. destruct (H k j Lk Lj) as (H1 & H2 & H3 & H4). auto. }
  destruct (R1 (rA' w) rA (fun j => fst x w j c) k Lk (RR _ (fun j L => proj1 (X j L)))) as [r1 r2].
  destruct (R1 (rA' w) rA (fun j => snd x w j c) k Lk (RR _ (fun j L => proj2 (X j L)))) as [r3 r4].
  destruct (R1 (iA' w) iA (fun j => fst x w j c) k Lk (II _ (fun j L => proj1 (X j L)))) as [r5 r6].
  destruct (R1 (iA' w) iA (fun j => snd x w j c) k Lk (II _ (fun j L => proj2 (X j L)))) as [r7 r8].
  split.
  - eapply Rle_trans; [apply (comb_sub RN)|]. apply CB; assumption.
  - eapply Rle_trans; [apply (comb_add RN)|]. apply CB; assumption.
Qed.

(** Adding the source. *)
Lemma add_error (x y : field R) :
  gap n (col (add_field radd x y)) (fun k => zcadd (col x k) (col y k)) <= alpha * (size n (col x) + size n (col y)) + beta.
Proof.
  pose proof U as U'. pose proof ETA as E'. pose proof NP as NP'. pose proof (size_pos n (col x)) as X0. pose proof (size_pos n (col y)) as Y0.
  set (B := u * (size n (col x) + size n (col y)) + eta).
  assert (B0 : 0 <= B) by (unfold B; pose proof (Rmult_le_pos u (size n (col x) + size n (col y)) U' ltac:(lra)); lra).
  apply Rle_trans with (2 * INR n * B).
  - apply size_bound; [exact B0|]. intros k Lk. destruct (part_le (col x) Lk) as [x1 x2]. destruct (part_le (col y) Lk) as [y1 y2].
    unfold column, at_, add_field, cadd, csub in *. cbn [fst snd] in *. unfold RoundSpec.radd, B.
    split; (eapply Rle_trans; [apply (rnd_error RN)|]; apply Rplus_le_compat_r, Rmult_le_compat_l; [exact U'|]; eapply Rle_trans; [apply Rabs_triang|]; lra).
  - unfold B, per_light, per_step. pose proof G_u as GU. pose proof (pow_ge1 RN (S n)) as P1.
    assert (QN : INR n <= INR n * INR n).
    { destruct n as [|k]; [cbn; lra|]. assert (1 <= INR (S k)) by (rewrite S_INR; pose proof (pos_INR k); lra).
      rewrite <- (Rmult_1_r (INR (S k))) at 1. apply Rmult_le_compat_l; lra. }
    set (z := size n (col x) + size n (col y)) in *. assert (z0 : 0 <= z) by (unfold z; lra).
    assert (A1 : 2 * INR n * (u * z) <= 4 * (INR n * INR n) * G * z).
    { replace (2 * INR n * (u * z)) with ((2 * INR n * u) * z) by ring. apply Rmult_le_compat_r; [exact z0|]. apply Rmult_le_compat; try lra. }
    assert (A2 : 2 * INR n * eta <= 2 * INR n * (4 * INR n + 1) * eta * (1 + u) ^ S n).
    { assert (0 <= 2 * INR n * eta) by (repeat apply Rmult_le_pos; lra).
      replace (2 * INR n * (4 * INR n + 1) * eta * (1 + u) ^ S n) with ((2 * INR n * eta) * ((4 * INR n + 1) * (1 + u) ^ S n)) by ring.
      rewrite <- (Rmult_1_r (2 * INR n * eta)) at 1. apply Rmult_le_compat_l; [assumption|].
      rewrite <- (Rmult_1_r 1) at 1. apply Rmult_le_compat; lra. }
    lra.
Qed.

(** All numbers in the buffer are rounded. *)
Definition rounded (x : field R) : Prop := forall i, rnd (fst x w i c) = fst x w i c /\ rnd (snd x w i c) = snd x w i c.
Lemma zero_rounded : rounded (zero_field 0).
Proof. intros i. cbn. rewrite (rnd_0 RN). auto. Qed.
Lemma rout_rounded t : rounded (rout t).
Proof.
  intros i. rewrite rout_any. unfold step. rewrite NA. cbn [Nat.eqb fst snd].
  unfold cmv. cbn [fst snd]. unfold RoundSpec.rsub, RoundSpec.radd at 3. rewrite (rnd_twice RN). split; [reflexivity|].
  unfold RoundSpec.radd at 1. rewrite (rnd_twice RN). reflexivity.
Qed.
Lemma read_rounded t k : (k < n)%nat -> col (read_buffer 0 radd rmul m' (memory D rout t)) k = pastv lg (traj rout) t k.
Proof.
  intros Lk. destruct (initialize_inv EI) as (_ & _ & _ & _ & _ & HM & _). destruct CL as (_ & _ & HM' & _).
  set (q := pred (steps e (b_del b (nth k mc O)))). pose proof (slot act source s0 EI Sep NA Lw Lk) as LD. fold q in LD.
  assert (RO : forall v, rounded (nth v (memory D rout t) (zero_field 0))).
  { intros v. destruct (le_lt_dec D v) as [L|L].
    - rewrite nth_overflow by (rewrite (memory_length rout D1); exact L). apply zero_rounded.
    - rewrite (memory_nth rout D1 t L). destruct (v <? t)%nat; [apply rout_rounded|apply zero_rounded]. }
  unfold column, read_buffer, at_. cbn [fst snd]. rewrite (memory_length rout D1).
  assert (E : forall f : field R -> R, (forall x, rounded x -> rnd (f x) = f x) ->
    lsum 0 radd (fun t0 => rmul (i_mask m' t0 k) (f (nth t0 (memory D rout t) (zero_field 0)))) (seq 0 D) = f (nth q (memory D rout t) (zero_field 0))).
  { intros f Hf. rewrite (@lsum_ext _ 0 radd _ _ (fun t0 => rmul (if (t0 =? q)%nat then 1 else 0) (f (nth t0 (memory D rout t) (zero_field 0))))).
    - rewrite (read_exact RN q D (x := fun v => f (nth v (memory D rout t) (zero_field 0)))) by (intros v; apply Hf, RO). cbn [Nat.leb andb Nat.add].
      apply Nat.ltb_lt in LD. rewrite LD. reflexivity.
    - intros v _. rewrite HM', HM. reflexivity. }
  rewrite (E (fun x => fst x w k c)) by (intros x Hx; apply Hx). rewrite (E (fun x => snd x w k c)) by (intros x Hx; apply Hx).
  unfold q. rewrite (slot_past act source s0 c EI Sep NA Lw rout t (fun _ => 0) Lk). unfold pastv, past, RoundProofs.traj, at_. destruct (t <? _)%nat; reflexivity.
Qed.

Lemma rounded_step t : step_error act b e m source s0 w c rout t <=
  ((1 + alpha) ^ 3 - 1) * (size n (col (read_buffer 0 Rplus Rmult m (memory D rout t))) + size (num_src b) (col (source t)))
  + ((1 + alpha) ^ 2 + (1 + alpha) + 1) * beta.
Proof.
  unfold step_error. pose proof alpha_pos as AP. pose proof beta_pos as BP.
  destruct CL as (_ & _ & _ & HS' & HC'). destruct (initialize_inv EI) as (_ & _ & _ & HS & _).
  set (r := read_buffer 0 radd rmul m' (memory D rout t)).
  set (x' := cmv 0 radd rmul rsub n (fun w i j => fst (i_S m' w i j)) (fun w i j => snd (i_S m' w i j)) r).
  set (y' := add_field radd x' (nsrc t)).
  assert (EO : rout t = cmv 0 radd rmul rsub n (fun w => fst (i_C m' w)) (fun w => snd (i_C m' w)) y').
  { rewrite rout_any. unfold step. rewrite NA. cbn [Nat.eqb fst snd]. rewrite mcm'. reflexivity. }
  assert (Er : size n (col (read_buffer 0 Rplus Rmult m (memory D rout t))) = size n (col r)).
  { apply size_ext. intros k Lk. unfold r. rewrite read_rounded by exact Lk. apply (read_mem act source s0 c EI Sep NA Lw). exact Lk. }
  rewrite Er. set (rs := size n (col r)). assert (r0 : 0 <= rs) by apply size_pos.
  set (ss := size (num_src b) (col (source t))). assert (s1 : 0 <= ss) by apply size_pos.
  assert (SSz : size n (col (nsrc t)) <= ss) by apply (src_size act source s0 c NA Lw t).
  set (x := Sv (col r)).
  assert (E1 : gap n (col x') x <= alpha * rs + beta).
  { unfold x, RoundProofs.Sv. eapply Rle_trans; [|apply (@cmv_error (fun w i j => fst (i_S m' w i j)) (fun w i j => snd (i_S m' w i j)) (fun k j => fst (i_S m w k j)) (fun k j => snd (i_S m w k j)) r)].
    - apply Req_le. unfold gap. apply size_ext. intros k Lk. f_equal. apply lsum_ext. intros j Ij. apply in_seq in Ij. f_equal. rewrite HS. apply surjective_pairing.
    - intros k j Lk Lj. destruct (HS' k j) as [c1 c2]; [rewrite mcm; assumption..|]. destruct (S_entry Lk Lj). auto. }
  assert (X1 : size n x <= rs) by apply (Sv_size e Sep PA).
  assert (X2 : size n (col x') <= (1 + alpha) * rs + beta).
  { pose proof (size_tri n (col x') x). lra. }
  set (y := fun k => zcadd (col (nsrc t) k) (x k)).
  assert (E2 : gap n (col y') y <= ((1 + alpha) ^ 2 - 1) * rs + alpha * ss + (2 + alpha) * beta).
  { eapply Rle_trans; [apply (gap_tri n _ (fun k => zcadd (col x' k) (col (nsrc t) k)))|].
    pose proof (add_error x' (nsrc t)) as AE. fold y' in AE.
    assert (Q : gap n (fun k => zcadd (col x' k) (col (nsrc t) k)) y = gap n (col x') x).
    { unfold gap. apply size_ext. intros k _. unfold y. ring. }
    rewrite Q. assert (alpha * (size n (col x') + size n (col (nsrc t))) <= alpha * ((1 + alpha) * rs + beta + ss)) by (apply Rmult_le_compat_l; lra).
    replace ((1 + alpha) ^ 2) with ((1 + alpha) * (1 + alpha)) by ring. lra. }
  assert (Y1 : size n y <= rs + ss).
  { unfold y. eapply Rle_trans; [apply size_add|]. lra. }
  assert (Y2 : size n (col y') <= (1 + alpha) ^ 2 * (rs + ss) + (2 + alpha) * beta).
  { pose proof (size_tri n (col y') y). assert (alpha * ss <= ((1 + alpha) ^ 2 - 1) * ss) by (apply Rmult_le_compat_r; [lra|]; replace ((1 + alpha) ^ 2 - 1) with (alpha + alpha * (1 + alpha)) by ring; pose proof (Rmult_le_pos alpha (1 + alpha) AP ltac:(lra)); lra). lra. }
  rewrite EO at 1. eapply Rle_trans; [apply (gap_tri n _ (Cv (col y')))|].
  assert (E3 : gap n (col (cmv 0 radd rmul rsub n (fun w => fst (i_C m' w)) (fun w => snd (i_C m' w)) y')) (Cv (col y')) <= alpha * size n (col y') + beta).
  { apply (@cmv_error (fun w => fst (i_C m' w)) (fun w => snd (i_C m' w)) (fst (i_C m w)) (snd (i_C m w)) y').
    intros k j Lk Lj. destruct (HC' k j) as [c1 c2]; [rewrite mcm; assumption..|]. destruct (C_entry Lk Lj). auto. }
  assert (E4 : gap n (Cv (col y')) (col (exact t (memory D rout t))) <= gap n (col y') y).
  { unfold gap. eapply Rle_trans; [|apply (Cv_size SS EI Sep Lw PA OP SY)]. apply Req_le, size_ext. intros k Lk.
    unfold column at 2. rewrite (exact_at act source s0 c EI Sep NA Lw rout t k), (Cv_sub b e m w). apply (Cv_ext act m source s0 NA Lw). intros j Lj. f_equal. unfold y, sv, column. f_equal.
    unfold x. apply (Sv_ext act source s0 NA Lw). intros l Ll. symmetry. apply read_rounded. exact Ll. }
  replace ((1 + alpha) ^ 3) with ((1 + alpha) * (1 + alpha) ^ 2) by ring.
  assert (A1 : alpha * size n (col y') <= alpha * ((1 + alpha) ^ 2 * (rs + ss) + (2 + alpha) * beta)) by (apply Rmult_le_compat_l; lra).
  assert (A2 : alpha * ss <= ((1 + alpha) ^ 2 - 1) * ss) by (apply Rmult_le_compat_r; [lra|]; replace ((1 + alpha) ^ 2 - 1) with (alpha + alpha * (1 + alpha)) by ring; pose proof (Rmult_le_pos alpha (1 + alpha) AP ltac:(lra)); lra).
  replace (((1 + alpha) ^ 2 + (1 + alpha) + 1) * beta) with (alpha * ((2 + alpha) * beta) + beta + (2 + alpha) * beta) by ring.
  lra.
Qed.

Theorem rounded_error t : gap n (col (rout t)) (col (out 0 Rplus Rmult Rminus act b m nsrc s0 D t)) <=
  rounding_bound n t (sent_sizes (num_src b) source w c (S t)) u eta d.
Proof.
  pose proof alpha_pos as AP. pose proof beta_pos as BP. unfold rounding_bound.
  eapply Rle_trans; [apply (@errors_add solve A act SS b e m source s0 w c EI Sep NA Lw PA OP SY rout (S t) t ltac:(lia))|].
  rewrite pow_mult. replace ((1 + alpha) ^ 3) with (1 + ((1 + alpha) ^ 3 - 1)) by ring.
  apply (@errors_relative solve A act SS b e m source s0 w c EI Sep NA Lw PA OP SY rout _ _ (S t)); auto.
  - assert (1 <= (1 + alpha) ^ 3) by (apply pow_R1_Rle; lra). lra.
  - apply Rmult_le_pos; [|exact BP]. assert (1 <= (1 + alpha) ^ 2) by (apply pow_R1_Rle; lra). lra.
  - intros v _. apply rounded_step.
Qed.
End Run.

(** The bound in the precision. *)
Section Bound.
Variables (n t : nat) (l : R).
Hypothesis L0 : 0 <= l.
Lemma light_mono u d x : 0 <= u <= x -> 0 <= d <= x -> 0 <= per_light n u d <= per_light n x x.
Proof.
  intros U D. unfold per_light. pose proof (pos_INR n) as N0. assert (N2 : 0 <= 4 * (INR n * INR n)) by (repeat apply Rmult_le_pos; lra).
  assert (P : 1 <= (1 + u) ^ S (S n) <= (1 + x) ^ S (S n)) by (split; [apply pow_R1_Rle; lra|apply pow_incr; lra]).
  set (W := (1 + u) ^ S (S n)) in *. set (V := (1 + x) ^ S (S n)) in *. clearbody W V.
  assert (1 * 1 <= W * (1 + d)) by (apply Rmult_le_compat; lra). assert (W * (1 + d) <= V * (1 + x)) by (apply Rmult_le_compat; lra).
  split; [apply Rmult_le_pos|apply Rmult_le_compat_l]; lra.
Qed.
Lemma step_mono u eta x : 0 <= u <= x -> 0 <= eta <= x -> 0 <= per_step n u eta <= per_step n x x.
Proof.
  intros U E. unfold per_step. pose proof (pos_INR n) as N0. assert (N2 : 0 <= 2 * INR n * (4 * INR n + 1)) by (repeat apply Rmult_le_pos; lra).
  assert (P : 1 <= (1 + u) ^ S n <= (1 + x) ^ S n) by (split; [apply pow_R1_Rle; lra|apply pow_incr; lra]).
  set (W := (1 + u) ^ S n) in *. set (V := (1 + x) ^ S n) in *. clearbody W V. rewrite !(Rmult_assoc _ _ W), !(Rmult_assoc _ _ V).
  assert (0 <= eta * W) by (apply Rmult_le_pos; lra). assert (eta * W <= x * V) by (apply Rmult_le_compat; lra).
  split; [rewrite <- Rmult_assoc; apply Rmult_le_pos|]; try lra; [apply Rmult_le_pos; lra|]. 
  rewrite <- !Rmult_assoc. rewrite (Rmult_assoc _ eta W), (Rmult_assoc _ x V). apply Rmult_le_compat_l; lra.
Qed.
Lemma bound_mono u eta d x : 0 <= u <= x -> 0 <= eta <= x -> 0 <= d <= x -> rounding_bound n t l u eta d <= rounding_bound n t l x x x.
Proof.
  intros U E D. pose proof (light_mono U D) as [A0 A1]. pose proof (step_mono U E) as [B0 B1]. unfold rounding_bound.
  set (a := per_light n u d) in *. set (a' := per_light n x x) in *. set (p := per_step n u eta) in *. set (p' := per_step n x x) in *. clearbody a a' p p'.
  assert (P : forall k, 1 <= (1 + a) ^ k <= (1 + a') ^ k) by (intros k; split; [apply pow_R1_Rle; lra|apply pow_incr; lra]).
  pose proof (P (3 * S t)%nat) as P1. pose proof (P 2%nat) as P2. set (W := (1 + a) ^ (3 * S t)) in *. set (V := (1 + a') ^ (3 * S t)) in *.
  set (W2 := (1 + a) ^ 2) in *. set (V2 := (1 + a') ^ 2) in *. clearbody W V W2 V2. pose proof (pos_INR (S t)) as T0.
  apply Rplus_le_compat; [apply Rmult_le_compat_r; lra|].
  assert (Q : 0 <= (W2 + (1 + a) + 1) * p <= (V2 + (1 + a') + 1) * p') by (split; [apply Rmult_le_pos|apply Rmult_le_compat]; lra).
  apply Rmult_le_compat; try lra; [apply Rmult_le_pos; lra|]. apply Rmult_le_compat_l; lra.
Qed.
Lemma bound_0 : rounding_bound n t l 0 0 0 = 0.
Proof. unfold rounding_bound, per_light, per_step. rewrite !Rplus_0_r, !pow1, Rmult_1_r. replace (1 - 1) with 0 by ring. rewrite Rmult_0_r, Rplus_0_r, !pow1. ring. Qed.
Lemma cont_pow (f : R -> R) k : continuity f -> continuity (fun x => f x ^ k).
Proof.
  intros H. induction k as [|k IH]; cbn [pow]; [apply continuity_const; intros x y; reflexivity|]. apply (continuity_mult _ _ H IH).
Qed.
Lemma bound_cont : continuity (fun x => rounding_bound n t l x x x).
Proof.
  assert (CC : forall r : R, continuity (fun _ => r)) by (intros r; apply continuity_const; intros x y; reflexivity).
  assert (CI : continuity (fun x => x)) by (apply derivable_continuous, derivable_id).
  assert (C1 : continuity (fun x => 1 + x)) by (apply (continuity_plus _ _ (CC 1) CI)).
  assert (CL : continuity (fun x => per_light n x x)).
  { unfold per_light. apply (continuity_mult _ _ (CC _)). apply (continuity_minus _ _ (continuity_mult _ _ (cont_pow (S (S n)) C1) C1) (CC _)). }
  assert (CP : continuity (fun x => per_step n x x)).
  { unfold per_step. apply (continuity_mult _ _ (continuity_mult _ _ (CC _) CI) (cont_pow (S n) C1)). }
  assert (CA : continuity (fun x => 1 + per_light n x x)) by (apply (continuity_plus _ _ (CC 1) CL)).
  unfold rounding_bound. apply (continuity_plus (fun x => ((1 + per_light n x x) ^ (3 * S t) - 1) * l)).
  - apply (continuity_mult _ _ (continuity_minus _ _ (cont_pow (3 * S t) CA) (CC _)) (CC _)).
  - apply (continuity_mult _ _ (continuity_mult _ _ (CC _) (continuity_mult _ _
      (continuity_plus _ _ (continuity_plus _ _ (cont_pow 2 CA) CA) (CC _)) CP)) (cont_pow (3 * S t) CA)).
Qed.
(** Enough digits make it as small as wanted. *)
Theorem bound_small eps : 0 < eps -> exists x, 0 < x /\ forall u eta d, 0 <= u <= x -> 0 <= eta <= x -> 0 <= d <= x -> rounding_bound n t l u eta d < eps.
Proof.
  intros P. destruct (bound_cont 0 P) as (x & X0 & HX). exists (x / 2). split; [lra|]. intros u eta d U E D.
  eapply Rle_lt_trans; [apply (bound_mono U E D)|].
  specialize (HX (x / 2)). unfold R_dist, dist in HX. cbn in HX. unfold R_dist in HX. rewrite bound_0, !Rminus_0_r in HX.
  eapply Rle_lt_trans; [apply Rle_abs|]. apply HX. split; [split; [exact I|lra]|]. rewrite Rabs_pos_eq; lra.
Qed.
End Bound.

(** Detectors. *)
Lemma detect_gap n nd (x y : field R) w c : (nd <= n)%nat ->
  gap nd (column (detect (det_start n nd) x) w c) (column (detect (det_start n nd) y) w c) <= gap n (column x w c) (column y w c).
Proof.
  intros L. unfold gap. apply size_le. unfold det_start. destruct (Nat.eqb_spec nd 0) as [->|N].
  - unfold power_all at 1. cbn [seq]. rewrite lsum_nil. apply pall_pos.
  - apply (@pall_shift n nd (n - nd) (fun i => zcsub (column x w c i) (column y w c i))). lia.
Qed.

(** Rounding to nearest. *)
Lemma powerRZ2_pos k : 0 < powerRZ 2 k.
Proof. apply powerRZ_lt. lra. Qed.
Lemma int_half (x : R) : Rabs (IZR (Int_part (x + / 2)) - x) <= / 2.
Proof. destruct (base_Int_part (x + / 2)) as [H1 H2]. apply Rabs_le. lra. Qed.
Lemma int_nearest (x : R) (j : Z) : Rabs (IZR (Int_part (x + / 2)) - x) <= Rabs (IZR j - x).
Proof.
  pose proof (int_half x) as H. set (k := Int_part (x + / 2)) in *. destruct (Z.eq_dec j k) as [->|N]; [lra|].
  assert (O : 1 <= Rabs (IZR j - IZR k)) by (rewrite <- minus_IZR, <- abs_IZR; apply IZR_le; lia).
  replace (IZR j - IZR k) with ((IZR j - x) - (IZR k - x)) in O by ring. pose proof (Rabs_triang (IZR j - x) (- (IZR k - x))) as T.
  rewrite Rabs_Ropp in T. unfold Rminus in *. lra.
Qed.
(** Every positive number lies between two powers of two. *)
Definition expo (x : R) : Z := Int_part (ln (Rabs x) / ln 2).
Lemma binade x : x <> 0 -> powerRZ 2 (expo x) <= Rabs x < powerRZ 2 (expo x + 1).
Proof.
  intros NZ. pose proof (Rabs_pos_lt x NZ) as P. unfold expo. set (y := Rabs x) in *. clearbody y.
  assert (L2 : 0 < ln 2) by (rewrite <- ln_1; apply ln_increasing; lra).
  destruct (base_Int_part (ln y / ln 2)) as [H1 H2]. set (k := Int_part (ln y / ln 2)) in *.
  assert (E : y = exp (ln 2 * (ln y / ln 2))) by (rewrite <- (exp_ln y P) at 1; f_equal; field; lra).
  rewrite !powerRZ_Rpower by lra. unfold Rpower. rewrite plus_IZR. split.
  - rewrite E at 1. assert (M : IZR k * ln 2 <= ln 2 * (ln y / ln 2)) by (rewrite (Rmult_comm (IZR k)); apply Rmult_le_compat_l; lra).
    destruct M as [M| ->]; [left; apply exp_increasing; exact M|right; reflexivity].
  - rewrite E at 1. apply exp_increasing. rewrite (Rmult_comm (IZR k + 1)). apply Rmult_lt_compat_l; lra.
Qed.

Section Binary.
Variables p q : nat.
Definition quantum (x : R) : Z := Z.max (expo x + 1 - Z.of_nat p) (- Z.of_nat q).
Definition to_nearest (x : R) : R := IZR (Int_part (x / powerRZ 2 (quantum x) + / 2)) * powerRZ 2 (quantum x).
Let P2 k : 0 < 2 ^ k.
Proof. apply pow_lt. lra. Qed.
Lemma multiple_nearest x s j : Rabs (IZR (Int_part (x / powerRZ 2 s + / 2)) * powerRZ 2 s - x) <= Rabs (IZR j * powerRZ 2 s - x).
Proof.
  pose proof (powerRZ2_pos s) as PS.
  assert (E : forall i, Rabs (IZR i * powerRZ 2 s - x) = Rabs (IZR i - x / powerRZ 2 s) * powerRZ 2 s).
  { intros i. rewrite <- (Rabs_pos_eq (powerRZ 2 s)) at 3 by lra. rewrite <- Rabs_mult. f_equal. field. lra. }
  rewrite !E. apply Rmult_le_compat_r; [lra|]. apply int_nearest.
Qed.
Lemma zero_binary : binary p q 0.
Proof. exists 0%Z, 0%Z. split; [cbn; apply Z.pow_nonneg; lia|]. split; [lia|]. cbn. ring. Qed.
Lemma to_nearest_0 : to_nearest 0 = 0.
Proof.
  unfold to_nearest. replace (0 / _ + / 2) with (/ 2) by (unfold Rdiv; ring). replace (Int_part (/ 2)) with 0%Z; [ring|].
  destruct (base_Int_part (/ 2)) as [H1 H2]. assert (A1 : (Int_part (/ 2) < 1)%Z) by (apply lt_IZR; lra).
  assert (A2 : (-1 < Int_part (/ 2))%Z) by (apply lt_IZR; lra). lia.
Qed.
Lemma to_nearest_binary x : binary p q (to_nearest x).
Proof.
  destruct (Req_dec x 0) as [->|NZ]; [rewrite to_nearest_0; apply zero_binary|].
  destruct (binade NZ) as (K1 & K2). unfold to_nearest. set (s := quantum x). pose proof (powerRZ2_pos s) as PS.
  set (mm := Int_part (x / powerRZ 2 s + / 2)). pose proof (int_half (x / powerRZ 2 s)) as H. fold mm in H.
  exists mm, s. split; [|split; [unfold s, quantum; lia|reflexivity]].
  assert (W : Rabs x < 2 ^ p * powerRZ 2 s).
  { rewrite pow_powerRZ, <- powerRZ_add by lra. eapply Rlt_le_trans; [exact K2|].
    assert (Q : (Z.of_nat p + s = expo x + 1 + Z.of_nat (Z.to_nat (Z.of_nat p + s - (expo x + 1))))%Z) by (unfold s, quantum; lia).
    rewrite Q, (powerRZ_add 2 (expo x + 1) (Z.of_nat _)), <- pow_powerRZ by lra. rewrite <- (Rmult_1_r (powerRZ 2 (expo x + 1))) at 1.
    apply Rmult_le_compat_l; [left; apply powerRZ2_pos|apply pow_R1_Rle; lra]. }
  assert (V : Rabs (IZR mm) < 2 ^ p + 1).
  { assert (Rabs (x / powerRZ 2 s) <= 2 ^ p).
    { unfold Rdiv. rewrite Rabs_mult, (Rabs_pos_eq (/ powerRZ 2 s)) by (left; apply Rinv_0_lt_compat, PS).
      apply (Rmult_le_reg_r (powerRZ 2 s)); [exact PS|]. rewrite Rmult_assoc, Rinv_l by lra. lra. }
    replace (IZR mm) with ((IZR mm - x / powerRZ 2 s) + x / powerRZ 2 s) by ring.
    eapply Rle_lt_trans; [apply Rabs_triang|]. lra. }
  rewrite <- abs_IZR in V. assert (T : 2 ^ p + 1 = IZR (2 ^ Z.of_nat p + 1)) by (rewrite plus_IZR, <- pow_IZR; reflexivity).
  rewrite T in V. apply lt_IZR in V. lia.
Qed.
Lemma to_nearest_error x : Rabs (to_nearest x - x) <= / 2 ^ p * Rabs x + / 2 ^ S q.
Proof.
  pose proof (Rinv_0_lt_compat _ (P2 p)) as I1. pose proof (Rinv_0_lt_compat _ (P2 (S q))) as I2.
  pose proof (Rmult_le_pos (/ 2 ^ p) (Rabs x) ltac:(lra) (Rabs_pos x)) as I3.
  destruct (Req_dec x 0) as [->|NZ].
  { rewrite to_nearest_0, Rminus_0_r, Rabs_R0. rewrite Rabs_R0 in I3. lra. }
  destruct (binade NZ) as (K1 & K2). unfold to_nearest. pose proof (powerRZ2_pos (quantum x)) as PS.
  apply Rle_trans with (/ 2 * powerRZ 2 (quantum x)).
  - pose proof (int_half (x / powerRZ 2 (quantum x))) as H. set (mm := Int_part _) in *.
    replace (IZR mm * powerRZ 2 (quantum x) - x) with ((IZR mm - x / powerRZ 2 (quantum x)) * powerRZ 2 (quantum x)) by (field; lra).
    rewrite Rabs_mult, (Rabs_pos_eq (powerRZ 2 (quantum x))) by lra. apply Rmult_le_compat_r; lra.
  - assert (C : (quantum x = expo x + 1 - Z.of_nat p \/ quantum x = - Z.of_nat q)%Z) by (unfold quantum; lia). destruct C as [->| ->].
    + replace (expo x + 1 - Z.of_nat p)%Z with (expo x + 1 + - Z.of_nat p)%Z by lia. rewrite !powerRZ_add, powerRZ_neg', <- pow_powerRZ by lra.
      change (powerRZ 2 1) with (2 * 1). assert (/ 2 ^ p * powerRZ 2 (expo x) <= / 2 ^ p * Rabs x) by (apply Rmult_le_compat_l; lra). lra.
    + rewrite powerRZ_neg', <- pow_powerRZ by lra. cbn [pow]. rewrite Rinv_mult. cbn [pow] in I2. lra.
Qed.

Theorem nearest_rounding rnd : nearest p q rnd -> rounding (/ 2 ^ p) (/ 2 ^ S q) rnd.
Proof.
  intros N.
  assert (FIX : forall x, binary p q x -> rnd x = x).
  { intros x B. destruct (N x) as [_ H]. specialize (H x B). replace (x - x) with 0 in H by ring. rewrite Rabs_R0 in H.
    pose proof (Rabs_pos (rnd x - x)). assert (E : Rabs (rnd x - x) = 0) by lra.
    destruct (Req_dec (rnd x - x) 0) as [E'|E']; [lra|]. contradiction (Rabs_no_R0 _ E' E). }
  split.
  - left. apply Rinv_0_lt_compat, P2.
  - left. apply Rinv_0_lt_compat, P2.
  - intros x. eapply Rle_trans; [|apply to_nearest_error]. apply N, to_nearest_binary.
  - intros x. apply FIX, N.
  - apply FIX, zero_binary.
Qed.

(** [to_nearest] is such a rounding. *)
Theorem to_nearest_nearest : (1 <= p)%nat -> nearest p q to_nearest.
Proof.
  intros P1 x. split; [apply to_nearest_binary|]. intros y (mm & j & Hm & Hj & ->).
  destruct (Req_dec x 0) as [->|NZ].
  { rewrite to_nearest_0, Rminus_0_r, Rabs_R0. apply Rabs_pos. }
  destruct (binade NZ) as (K1 & K2). unfold to_nearest. destruct (Z_le_gt_dec (quantum x) j) as [L|L].
  - replace (IZR mm * powerRZ 2 j) with (IZR (mm * 2 ^ Z.of_nat (Z.to_nat (j - quantum x))) * powerRZ 2 (quantum x)); [apply multiple_nearest|].
    replace (powerRZ 2 j) with (powerRZ 2 (Z.of_nat (Z.to_nat (j - quantum x)) + quantum x)) by (f_equal; lia).
    rewrite mult_IZR, powerRZ_add, <- pow_IZR, <- pow_powerRZ by lra. ring.
  - assert (Q : quantum x = (expo x + 1 - Z.of_nat p)%Z) by (unfold quantum in *; lia).
    pose proof (powerRZ2_pos (expo x)) as PE. pose proof (powerRZ2_pos j) as PJ.
    assert (S : Rabs (IZR mm * powerRZ 2 j) <= powerRZ 2 (expo x)).
    { rewrite Rabs_mult, (Rabs_pos_eq (powerRZ 2 j)), <- abs_IZR by lra. apply IZR_le in Hm.
      apply Rle_trans with (2 ^ p * powerRZ 2 j).
      - apply Rmult_le_compat_r; [lra|]. rewrite <- pow_IZR in Hm. exact Hm.
      - rewrite pow_powerRZ, <- powerRZ_add by lra.
        replace (expo x) with (Z.of_nat p + j + Z.of_nat (Z.to_nat (expo x - (Z.of_nat p + j))))%Z by lia.
        rewrite (powerRZ_add 2 (Z.of_nat p + j)), <- (pow_powerRZ 2 (Z.to_nat _)) by lra. rewrite <- (Rmult_1_r (powerRZ 2 (Z.of_nat p + j))) at 1.
        apply Rmult_le_compat_l; [left; apply powerRZ2_pos|apply pow_R1_Rle; lra]. }
    assert (T : Rabs x - powerRZ 2 (expo x) <= Rabs (IZR mm * powerRZ 2 j - x)).
    { pose proof (Rabs_triang (IZR mm * powerRZ 2 j - x) (- (IZR mm * powerRZ 2 j))) as T. rewrite Rabs_Ropp in T.
      replace (IZR mm * powerRZ 2 j - x + - (IZR mm * powerRZ 2 j)) with (- x) in T by ring. rewrite Rabs_Ropp in T. lra. }
    eapply Rle_trans; [|exact T].
    assert (U : powerRZ 2 (expo x) = IZR (2 ^ Z.of_nat (p - 1)) * powerRZ 2 (quantum x)).
    { rewrite <- pow_IZR, pow_powerRZ, <- powerRZ_add by lra. f_equal. lia. }
    destruct (Rle_dec 0 x) as [X|X].
    + eapply Rle_trans; [apply (multiple_nearest x (quantum x) (2 ^ Z.of_nat (p - 1)))|]. rewrite <- U. rewrite (Rabs_pos_eq x X) in *.
      rewrite Rabs_left1 by lra. lra.
    + rewrite (Rabs_left1 x) in * by lra.
      eapply Rle_trans; [apply (multiple_nearest x (quantum x) (- 2 ^ Z.of_nat (p - 1)))|]. rewrite opp_IZR, Ropp_mult_distr_l_reverse, <- U.
      rewrite Rabs_pos_eq by lra. lra.
Qed.
End Binary.
