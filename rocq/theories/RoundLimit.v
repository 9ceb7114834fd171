(** No overflow: the numbers in the simulation of a passive circuit stay below a bound, and what happens above it does
    not matter. *)
From Coq Require Import QArith Ring Reals Lra Permutation Psatz.
From Verif Require Import Base PyStr NetModel NetSpec NetProofs WireProofs NetBuild SimModel SimAlg SimSpec SimNodes SimProofs SimMore SimDelay
  SimRegular CircuitSpec CircuitProofs EnergyProofs EnergyNet Settle RoundSpec RoundProofs RoundFloat.
Set Implicit Arguments.
Unset Strict Implicit.
Local Open Scope list_scope.
Local Open Scope R_scope.

Section Ops.
Variables (u eta : R) (rnd : R -> R).
Hypothesis RN : rounding u eta rnd.
Let U := rnd_u RN.
Let ETA := rnd_eta RN.
Notation aft := (after_rounding u eta).
Notation dl n := (dot_limit n u eta).

Lemma rnd_le x y : Rabs x <= y -> Rabs (rnd x) <= aft y.
Proof.
  intros H. pose proof U. pose proof (rnd_error RN x) as E. pose proof (Rabs_triang (rnd x - x) x) as T. replace (rnd x - x + x) with (rnd x) in T by ring.
  unfold after_rounding. assert (u * Rabs x <= u * y) by (apply Rmult_le_compat_l; lra). lra.
Qed.
Lemma aft_ge x : 0 <= x -> x <= aft x.
Proof. intros H. pose proof U. pose proof ETA. unfold after_rounding. pose proof (Rmult_le_pos u x U H). lra. Qed.
Lemma pw k l : (k <= l)%nat -> 1 <= (1 + u) ^ k <= (1 + u) ^ l.
Proof. intros L. pose proof U. split; [apply pow_R1_Rle; lra|apply Rle_pow; [lra|exact L]]. Qed.

Definition q_limit (k : nat) (x : R) : R := (1 + u) ^ S k * (INR k * x) + 2 * INR k * eta * (1 + u) ^ k.
Lemma q_mono k l x : (k <= l)%nat -> 0 <= x -> q_limit k x <= q_limit l x.
Proof.
  intros L X. pose proof ETA. assert (K : 0 <= INR k <= INR l) by (split; [apply pos_INR|apply le_INR; exact L]).
  pose proof (@pw (S k) (S l) ltac:(lia)) as P1. pose proof (@pw k l L) as P2. unfold q_limit. apply Rplus_le_compat.
  - apply Rmult_le_compat; try lra; [apply Rmult_le_pos; lra|apply Rmult_le_compat_r; lra].
  - apply Rmult_le_compat; try lra; [apply Rmult_le_pos; lra|apply Rmult_le_compat_r; lra].
Qed.
Lemma q_pos k x : 0 <= x -> 0 <= q_limit k x.
Proof.
  intros X. pose proof ETA. pose proof (pos_INR k). pose proof (@pw (S k) (S k) ltac:(lia)). pose proof (@pw k k ltac:(lia)).
  unfold q_limit. set (a := (1 + u) ^ S k) in *. set (c := (1 + u) ^ k) in *. clearbody a c. apply Rplus_le_le_0_compat; repeat apply Rmult_le_pos; lra.
Qed.
Lemma dl_ge n x : 0 <= x -> aft x + q_limit n x <= dl n x.
Proof.
  intros X. pose proof U. pose proof ETA. pose proof (pos_INR n) as N0. unfold after_rounding, q_limit, dot_limit. rewrite S_INR.
  pose proof (@pw 1 (S (S n)) ltac:(lia)) as P1. pose proof (@pw (S n) (S (S n)) ltac:(lia)) as P2. pose proof (@pw 0 (S n) ltac:(lia)) as P3. pose proof (@pw n (S n) ltac:(lia)) as P4.
  rewrite pow_1 in P1. rewrite pow_O in P3. set (a := (1 + u) ^ S (S n)) in *. set (c := (1 + u) ^ S n) in *. set (d := (1 + u) ^ n) in *. clearbody a c d.
  assert (A1 : (1 + u) * x <= a * x) by (apply Rmult_le_compat_r; lra).
  assert (A2 : c * (INR n * x) <= a * (INR n * x)) by (apply Rmult_le_compat_r; [apply Rmult_le_pos|]; lra).
  assert (A3 : eta * 1 <= eta * c) by (apply Rmult_le_compat_l; lra).
  assert (A4 : 2 * INR n * eta * d <= 2 * INR n * eta * c) by (apply Rmult_le_compat_l; [repeat apply Rmult_le_pos|]; lra).
  replace (a * ((INR n + 1) * x)) with (a * (INR n * x) + a * x) by ring. replace (2 * (INR n + 1) * eta * c) with (2 * INR n * eta * c + eta * c + eta * c) by ring.
  lra.
Qed.
Lemma dl_self n x : 0 <= x -> x <= dl n x.
Proof. intros X. pose proof (dl_ge n X). pose proof (aft_ge X). pose proof (q_pos n X). lra. Qed.
Lemma dl_q n x : 0 <= x -> q_limit n x <= dl n x.
Proof. intros X. pose proof (dl_ge n X). pose proof (aft_ge X). lra. Qed.

Lemma abs_sum (f : nat -> R) l x : (forall j, In j l -> Rabs (f j) <= x) -> rsum (fun j => Rabs (f j)) l <= INR (length l) * x.
Proof.
  induction l as [|j l IH]; intros H; [rewrite lsum_nil; cbn [length INR]; lra|]. rewrite lsum_cons. cbn [length]. rewrite S_INR.
  pose proof (H j (or_introl eq_refl)). pose proof (IH (fun i I => H i (or_intror I))). lra.
Qed.
Lemma dot_le (a x : nat -> R) l y : (forall j, In j l -> Rabs (a j * x j) <= y) -> Rabs (lsum 0 (radd rnd) (fun j => rmul rnd (a j) (x j)) l) <= q_limit (length l) y.
Proof.
  intros H. pose proof (dot_error RN a x l) as E. pose proof (abs_sum (f := fun j => a j * x j) H) as S. pose proof (rabs_sum (fun j => a j * x j) l) as T.
  set (s := lsum 0 (radd rnd) _ l) in *. set (ex := rsum (fun j => a j * x j) l) in *. set (ab := rsum (fun j => Rabs (a j * x j)) l) in *.
  pose proof (Rabs_triang (s - ex) ex) as T2. replace (s - ex + ex) with s in T2 by ring. unfold q_limit.
  pose proof (@pw (Datatypes.S (length l)) (Datatypes.S (length l)) ltac:(lia)) as P. set (W := (1 + u) ^ Datatypes.S (length l)) in *.
  assert (W * ab <= W * (INR (length l) * y)) by (apply Rmult_le_compat_l; lra). replace ((W - 1) * ab) with (W * ab - ab) in E by ring. lra.
Qed.

Variables (rnd' : R -> R) (Om : R).
Hypothesis AG : forall x, Rabs x <= Om -> rnd' x = rnd x.
Lemma dot_same n (a x : nat -> R) l y : 0 <= y -> (length l <= n)%nat -> dl n y <= Om -> (forall j, In j l -> Rabs (a j * x j) <= y) ->
  lsum 0 (radd rnd') (fun j => rmul rnd' (a j) (x j)) l = lsum 0 (radd rnd) (fun j => rmul rnd (a j) (x j)) l.
Proof.
  intros Y L O. induction l as [|j l IH]; intros H; [reflexivity|]. cbn [length] in L. rewrite !lsum_cons, IH by (try lia; intros i I; apply H; now right).
  assert (HJ : Rabs (a j * x j) <= y) by (apply H; now left). pose proof (dl_self n Y) as D1. pose proof (dl_ge n Y) as D2.
  unfold rmul at 1. rewrite AG by lra. fold (rmul rnd (a j) (x j)). unfold radd at 1. apply AG.
  eapply Rle_trans; [apply Rabs_triang|]. pose proof (rnd_le HJ) as R1. fold (rmul rnd (a j) (x j)) in R1.
  pose proof (dot_le (a := a) (x := x) (l := l) (fun i I => H i (or_intror I))) as R2. pose proof (@q_mono (length l) n y ltac:(lia) Y). lra.
Qed.

(** A complex matrix times a vector. *)
Lemma cmv_same n (rA iA : nat -> mat R) (x x' : field R) w c d y k : 0 <= d -> 0 <= y -> 2 * dl n ((1 + d) * y) <= Om ->
  (forall j, (j < n)%nat -> Rabs (rA w k j) <= 1 + d /\ Rabs (iA w k j) <= 1 + d) ->
  (forall j, (j < n)%nat -> at_ x' w j c = at_ x w j c) -> (forall j, (j < n)%nat -> Rabs (fst (at_ x w j c)) <= y /\ Rabs (snd (at_ x w j c)) <= y) ->
  at_ (cmv 0 (radd rnd') (rmul rnd') (rsub rnd') n rA iA x') w k c = at_ (cmv 0 (radd rnd) (rmul rnd) (rsub rnd) n rA iA x) w k c
  /\ Rabs (fst (at_ (cmv 0 (radd rnd) (rmul rnd) (rsub rnd) n rA iA x) w k c)) <= aft (2 * dl n ((1 + d) * y))
  /\ Rabs (snd (at_ (cmv 0 (radd rnd) (rmul rnd) (rsub rnd) n rA iA x) w k c)) <= aft (2 * dl n ((1 + d) * y)).
Proof.
  intros D0 Y0 O HA HX HY. assert (P0 : 0 <= (1 + d) * y) by (apply Rmult_le_pos; lra). pose proof (dl_q n P0) as DQ. pose proof (dl_self n P0) as DS.
  assert (HM : forall (a : mat R) (z : nat -> R), (forall j, (j < n)%nat -> Rabs (a k j) <= 1 + d) -> (forall j, (j < n)%nat -> Rabs (z j) <= y) ->
     lsum 0 (radd rnd') (fun j => rmul rnd' (a k j) (z j)) (seq 0 n) = lsum 0 (radd rnd) (fun j => rmul rnd (a k j) (z j)) (seq 0 n)
     /\ Rabs (lsum 0 (radd rnd) (fun j => rmul rnd (a k j) (z j)) (seq 0 n)) <= dl n ((1 + d) * y)).
  { intros a z Ha Hz. assert (HP : forall j, In j (seq 0 n) -> Rabs (a k j * z j) <= (1 + d) * y).
    { intros j I. apply in_seq in I. rewrite Rabs_mult. apply Rmult_le_compat; try apply Rabs_pos; [apply Ha|apply Hz]; lia. }
    split; [apply (dot_same (n := n) (y := (1 + d) * y)); auto; [rewrite seq_length; lia|lra]|].
    eapply Rle_trans; [apply (dot_le HP)|]. rewrite seq_length. exact DQ. }
  assert (E1 : forall g : R * R -> R, forall a : mat R, lsum 0 (radd rnd') (fun j => rmul rnd' (a k j) (g (at_ x' w j c))) (seq 0 n) = lsum 0 (radd rnd') (fun j => rmul rnd' (a k j) (g (at_ x w j c))) (seq 0 n)).
  { intros g a. apply lsum_ext. intros j I. apply in_seq in I. rewrite HX by lia. reflexivity. }
  pose proof (E1 fst (rA w)) as F1. pose proof (E1 snd (rA w)) as F2. pose proof (E1 fst (iA w)) as F3. pose proof (E1 snd (iA w)) as F4. unfold at_ in F1, F2, F3, F4. cbn [fst snd] in F1, F2, F3, F4.
  destruct (HM (rA w) (fun j => fst x w j c)) as [G1 B1]; [intros j L; apply (HA j L)|intros j L; apply (HY j L)|].
  destruct (HM (rA w) (fun j => snd x w j c)) as [G2 B2]; [intros j L; apply (HA j L)|intros j L; apply (HY j L)|].
  destruct (HM (iA w) (fun j => fst x w j c)) as [G3 B3]; [intros j L; apply (HA j L)|intros j L; apply (HY j L)|].
  destruct (HM (iA w) (fun j => snd x w j c)) as [G4 B4]; [intros j L; apply (HA j L)|intros j L; apply (HY j L)|].
  unfold at_, cmv, mv. cbn [fst snd]. rewrite F1, F2, F3, F4, G1, G2, G3, G4.
  set (p1 := lsum 0 (radd rnd) (fun j => rmul rnd (rA w k j) (fst x w j c)) (seq 0 n)) in *. set (p2 := lsum 0 (radd rnd) (fun j => rmul rnd (rA w k j) (snd x w j c)) (seq 0 n)) in *.
  set (p3 := lsum 0 (radd rnd) (fun j => rmul rnd (iA w k j) (fst x w j c)) (seq 0 n)) in *. set (p4 := lsum 0 (radd rnd) (fun j => rmul rnd (iA w k j) (snd x w j c)) (seq 0 n)) in *.
  assert (S1 : Rabs (p1 - p4) <= 2 * dl n ((1 + d) * y)) by (eapply Rle_trans; [apply Rabs_triang|]; rewrite Rabs_Ropp; lra).
  assert (S2 : Rabs (p2 + p3) <= 2 * dl n ((1 + d) * y)) by (eapply Rle_trans; [apply Rabs_triang|]; lra).
  unfold rsub, radd. split; [|split; apply rnd_le; assumption]. rewrite !AG by lra. reflexivity.
Qed.

(** Reading the buffer. *)
Lemma read_same (x : nat -> R) q len : 0 <= Om -> rnd (x q) = x q -> Rabs (x q) <= Om -> forall a,
  lsum 0 (radd rnd') (fun t => rmul rnd' (if (t =? q)%nat then 1 else 0) (x t)) (seq a len) = if (a <=? q)%nat && (q <? a + len)%nat then x q else 0.
Proof.
  intros O H HQ. assert (Z : rnd' 0 = 0) by (rewrite AG by (rewrite Rabs_R0; exact O); apply (rnd_0 RN)). assert (XQ : rnd' (x q) = x q) by (rewrite AG by exact HQ; exact H).
  induction len as [|len IH]; intros a.
  - cbn [seq]. rewrite lsum_nil. destruct (Nat.leb_spec a q), (Nat.ltb_spec q (a + 0)); cbn [andb]; auto; lia.
  - cbn [seq]. rewrite lsum_cons, IH. unfold RoundSpec.radd, RoundSpec.rmul. destruct (Nat.eqb_spec a q) as [->|N].
    + destruct (Nat.leb_spec (S q) q); [lia|]. cbn [andb]. destruct (Nat.leb_spec q q), (Nat.ltb_spec q (q + S len)); try lia. cbn [andb].
      rewrite Rmult_1_l, XQ, Rplus_0_r. exact XQ.
    + rewrite Rmult_0_l, Z, Rplus_0_l.
      destruct (Nat.leb_spec (S a) q), (Nat.ltb_spec q (S a + len)), (Nat.leb_spec a q), (Nat.ltb_spec q (a + S len)); try lia; cbn [andb]; try exact Z; exact XQ.
Qed.
End Ops.

Section Bound.
Variables (n : nat) (u eta d : R).
Hypothesis (U : 0 <= u) (ETA : 0 <= eta) (D0 : 0 <= d).
Lemma light_pos : 0 <= per_light n u d.
Proof.
  unfold per_light. pose proof (pos_INR n) as N. assert (1 <= (1 + u) ^ S (S n)) by (apply pow_R1_Rle; lra). set (a := (1 + u) ^ S (S n)) in *. clearbody a.
  assert (0 <= a * d) by (apply Rmult_le_pos; lra). repeat apply Rmult_le_pos; lra.
Qed.
Lemma step_pos : 0 <= per_step n u eta.
Proof.
  unfold per_step. pose proof (pos_INR n) as N. assert (1 <= (1 + u) ^ S n) by (apply pow_R1_Rle; lra). set (a := (1 + u) ^ S n) in *. clearbody a.
  repeat apply Rmult_le_pos; lra.
Qed.
Lemma bound_grows s t l l' : (s <= t)%nat -> 0 <= l <= l' -> rounding_bound n s l u eta d <= rounding_bound n t l' u eta d.
Proof.
  intros L HL. unfold rounding_bound. pose proof light_pos as P. pose proof step_pos as Q. set (a := per_light n u d) in *. set (h := per_step n u eta) in *. clearbody a h.
  assert (E1 : 1 <= (1 + a) ^ (3 * S s)) by (apply pow_R1_Rle; lra). assert (E2 : (1 + a) ^ (3 * S s) <= (1 + a) ^ (3 * S t)) by (apply Rle_pow; [lra|lia]).
  assert (E3 : 1 <= (1 + a) ^ 2) by (apply pow_R1_Rle; lra). pose proof (pos_INR (S s)) as E4. assert (E5 : INR (S s) <= INR (S t)) by (apply le_INR; lia).
  set (p := (1 + a) ^ (3 * S s)) in *. set (q := (1 + a) ^ (3 * S t)) in *. set (r := (1 + a) ^ 2) in *. set (i := INR (S s)) in *. set (j := INR (S t)) in *. clearbody p q r i j.
  assert (E6 : 0 <= (r + (1 + a) + 1) * h) by (apply Rmult_le_pos; lra). set (v := (r + (1 + a) + 1) * h) in *. clearbody v.
  apply Rplus_le_compat; [apply Rmult_le_compat; lra|]. apply Rmult_le_compat; try lra; [apply Rmult_le_pos; lra|apply Rmult_le_compat_r; lra].
Qed.
Lemma bound_pos t l : 0 <= l -> 0 <= rounding_bound n t l u eta d.
Proof.
  intros HL. unfold rounding_bound. pose proof light_pos as P. pose proof step_pos as Q. set (a := per_light n u d) in *. set (h := per_step n u eta) in *. clearbody a h.
  assert (E1 : 1 <= (1 + a) ^ (3 * S t)) by (apply pow_R1_Rle; lra). assert (E3 : 1 <= (1 + a) ^ 2) by (apply pow_R1_Rle; lra). pose proof (pos_INR (S t)) as E4.
  set (p := (1 + a) ^ (3 * S t)) in *. set (r := (1 + a) ^ 2) in *. set (i := INR (S t)) in *. clearbody p r i.
  apply Rplus_le_le_0_compat; repeat apply Rmult_le_pos; lra.
Qed.
End Bound.

Section Run.
Variable solve : nat -> nat -> mat R -> mat R -> option (mat R).
Variables (A : Type) (act : A -> nat -> field R -> A * field R).
Hypothesis SS : solver_sound 0 Rplus Rmult solve.
Variables (b : net R) (e : env) (m m' : init R) (source : nat -> field R) (s0 : A) (w c : nat).
Hypothesis EI : initialize 0 1 Rplus Rmult Rminus Ropp solve e b = Ok (Some m).
Hypothesis Sep : separate b.
Hypothesis NA : num_act b = O.
Hypothesis Lw : (w < e_num_wl e)%nat.
Hypothesis PA : passive b w.
Hypothesis OP : one_partner b.
Hypothesis SY : sym_C b.
Variables (u eta d : R) (rnd rnd' : R -> R).
Hypothesis RN : rounding u eta rnd.
Hypothesis D0 : 0 <= d.
Hypothesis CL : close_init d w m m'.
Notation mc := (mc_nodes e b).
Notation n := (length mc).
Notation D := (i_depth m).
Notation nsrc := (node_source 0 (num_src b) source).
Notation rout := (out 0 (radd rnd) (rmul rnd) (rsub rnd) act b m' nsrc s0 (i_depth m')).
Notation rout' := (out 0 (radd rnd') (rmul rnd') (rsub rnd') act b m' nsrc s0 (i_depth m')).
Notation eout := (out 0 Rplus Rmult Rminus act b m nsrc s0 D).
Notation lg := (fun k => lag e b (nth k mc O)).
Notation col x := (column x w c).
Notation sent T := (sent_sizes (num_src b) source w c T).
Notation traj := (traj w c).
Variables (T : nat) (B : R).
Hypothesis HB : sent T + rounding_bound n T (sent T) u eta d <= B.
Hypothesis AG : forall x, Rabs x <= step_limit n u eta d B -> rnd' x = rnd x.
Let U := rnd_u RN.
Let ETA := rnd_eta RN.

Let mcm : length (i_mc m) = n.
Proof. destruct (initialize_inv EI) as (_ & _ & E & _). now rewrite E. Qed.
Let mcm' : length (i_mc m') = n.
Proof. destruct CL as [E _]. congruence. Qed.
Let dep : i_depth m' = D.
Proof. destruct CL as (_ & E & _). exact E. Qed.
Let D1 : (1 <= D)%nat := @depth1 solve A act b e m source s0 w c EI NA Lw.
Let any (r : R -> R) t : out 0 (radd r) (rmul r) (rsub r) act b m' nsrc s0 (i_depth m') t
  = snd (fst (step 0 (radd r) (rmul r) (rsub r) act b m' s0 t (nsrc t) (memory D (out 0 (radd r) (rmul r) (rsub r) act b m' nsrc s0 (i_depth m')) t))).
Proof. rewrite <- dep at 1. apply out_any; [exact NA|]. rewrite dep. exact D1. Qed.

Lemma sent_pos t : 0 <= sent t.
Proof. apply sum_pos. intros s _. apply size_pos. Qed.
Lemma sent_mono s t : (s <= t)%nat -> sent s <= sent t.
Proof.
  intros L. unfold sent_sizes. replace t with (s + (t - s))%nat by lia. rewrite seq_app, (lsum_app RTheory).
  assert (P : 0 <= rsum (fun t => size (num_src b) (col (source t))) (seq (0 + s) (t - s))) by (apply sum_pos; intros; apply size_pos). lra.
Qed.
Let B0 : 0 <= B.
Proof. pose proof (sent_pos T). pose proof (@bound_pos n u eta d U ETA D0 T (sent T) (sent_pos T)). lra. Qed.

Lemma rout_le t k : (t < T)%nat -> (k < n)%nat -> Rabs (fst (at_ (rout t) w k c)) <= B /\ Rabs (snd (at_ (rout t) w k c)) <= B.
Proof.
  intros Lt Lk. destruct (part_le (col (rout t)) Lk) as [P1 P2]. unfold column in P1, P2.
  pose proof (@rounded_error solve A act SS b e m m' source s0 w c EI Sep NA Lw PA OP SY u eta d rnd RN D0 CL t) as E.
  pose proof (@exact_now solve A act SS b e m source s0 w c EI Sep NA Lw PA OP SY t) as X.
  pose proof (size_tri n (col (rout t)) (col (eout t))) as TR.
  pose proof (@bound_grows n u eta d U ETA D0 t T (sent (S t)) (sent T) ltac:(lia) (conj (sent_pos (S t)) (sent_mono Lt))) as G. pose proof (sent_mono Lt).
  unfold column in *. lra.
Qed.
Lemma source_le t k : (t < T)%nat -> (k < n)%nat -> Rabs (fst (at_ (nsrc t) w k c)) <= B /\ Rabs (snd (at_ (nsrc t) w k c)) <= B.
Proof.
  intros Lt Lk. destruct (part_le (col (nsrc t)) Lk) as [P1 P2]. unfold column in P1, P2.
  pose proof (src_size act source s0 c NA Lw (e := e) (b := b) t) as S1. pose proof (sent_S b source w c t) as S2. pose proof (sent_pos t). pose proof (sent_mono Lt).
  pose proof (@bound_pos n u eta d U ETA D0 T (sent T) (sent_pos T)). unfold column in *. unfold sv in S1. lra.
Qed.

Notation X1 := (after_rounding u eta (2 * dot_limit n u eta ((1 + d) * B))).
Notation X2 := (after_rounding u eta (X1 + B)).
Let dlp : forall x, 0 <= x -> x <= dot_limit n u eta x := dl_self RN n.
Let P1 : (1 + d) * B <= dot_limit n u eta ((1 + d) * B).
Proof. apply dlp, Rmult_le_pos; lra. Qed.
Let B1 : B <= (1 + d) * B.
Proof. pose proof (Rmult_le_pos d B D0 B0). lra. Qed.
Let A1 : 2 * dot_limit n u eta ((1 + d) * B) <= X1.
Proof. apply (aft_ge RN). lra. Qed.
Let A2 : X1 + B <= X2.
Proof. apply (aft_ge RN). lra. Qed.
Let A3 : X2 <= dot_limit n u eta ((1 + d) * X2).
Proof. assert (0 <= X2) by lra. pose proof (Rmult_le_pos d X2 D0 H). eapply Rle_trans; [|apply dlp; lra]. lra. Qed.
Let A4 : 2 * dot_limit n u eta ((1 + d) * X2) <= step_limit n u eta d B.
Proof. apply Rle_refl. Qed.

Lemma read_agree t k : (t < T)%nat -> (k < n)%nat -> (forall s k, (s < t)%nat -> (k < n)%nat -> at_ (rout' s) w k c = at_ (rout s) w k c) ->
  at_ (read_buffer 0 (radd rnd') (rmul rnd') m' (memory D rout' t)) w k c = at_ (read_buffer 0 (radd rnd) (rmul rnd) m' (memory D rout t)) w k c
  /\ Rabs (fst (at_ (read_buffer 0 (radd rnd) (rmul rnd) m' (memory D rout t)) w k c)) <= B
  /\ Rabs (snd (at_ (read_buffer 0 (radd rnd) (rmul rnd) m' (memory D rout t)) w k c)) <= B.
Proof.
  intros Lt Lk IH.
  pose proof (@read_rounded solve A act b e m m' source s0 w c EI Sep NA Lw u eta d rnd RN CL t k Lk) as E. unfold column in E. rewrite E.
  destruct (initialize_inv EI) as (_ & _ & _ & _ & _ & HM & _). destruct CL as (_ & _ & HM' & _).
  set (q := pred (steps e (b_del b (nth k mc O)))). pose proof (slot act source s0 EI Sep NA Lw Lk) as LD. fold q in LD.
  assert (V : at_ (nth q (memory D rout' t) (zero_field 0)) w k c = pastv lg (traj rout) t k).
  { unfold q. rewrite (slot_past act source s0 c EI Sep NA Lw rout' t (fun _ => 0) Lk). unfold pastv, past, RoundProofs.traj. destruct (Nat.ltb_spec t (lag e b (nth k mc O))) as [L|L]; [reflexivity|].
    apply IH; [|exact Lk]. pose proof (lg1 act source s0 Sep NA Lw Lk). lia. }
  assert (BP : Rabs (fst (pastv lg (traj rout) t k)) <= B /\ Rabs (snd (pastv lg (traj rout) t k)) <= B).
  { unfold pastv, past, RoundProofs.traj. destruct (Nat.ltb_spec t (lag e b (nth k mc O))) as [L|L]; [cbn; rewrite Rabs_R0; auto|]. apply rout_le; [lia|exact Lk]. }
  assert (RP : rnd (fst (pastv lg (traj rout) t k)) = fst (pastv lg (traj rout) t k) /\ rnd (snd (pastv lg (traj rout) t k)) = snd (pastv lg (traj rout) t k)).
  { unfold pastv, past, RoundProofs.traj. destruct (Nat.ltb_spec t (lag e b (nth k mc O))) as [L|L]; [cbn; rewrite (rnd_0 RN); auto|].
    apply (@rout_rounded solve A act b e m m' source s0 w c EI NA Lw u eta d rnd RN CL (t - lag e b (nth k mc O)) k). }
  split; [|exact BP]. rewrite <- V in *. unfold at_ in *. cbn [fst snd] in *. unfold read_buffer. cbn [fst snd]. rewrite (memory_length rout' D1).
  assert (G : forall f : field R -> R, rnd (f (nth q (memory D rout' t) (zero_field 0))) = f (nth q (memory D rout' t) (zero_field 0)) -> Rabs (f (nth q (memory D rout' t) (zero_field 0))) <= B ->
    lsum 0 (radd rnd') (fun t0 => rmul rnd' (i_mask m' t0 k) (f (nth t0 (memory D rout' t) (zero_field 0)))) (seq 0 D) = f (nth q (memory D rout' t) (zero_field 0))).
  { intros f F1 F2. rewrite (@lsum_ext _ 0 (radd rnd') _ _ (fun t0 => rmul rnd' (if (t0 =? q)%nat then 1 else 0) (f (nth t0 (memory D rout' t) (zero_field 0))))).
    - rewrite (read_same RN AG D (x := fun v => f (nth v (memory D rout' t) (zero_field 0)))); [|lra|exact F1|lra]. cbn [Nat.leb andb Nat.add].
      apply Nat.ltb_lt in LD. rewrite LD. reflexivity.
    - intros v _. rewrite HM', HM. reflexivity. }
  f_equal; [apply (G (fun x => fst x w k c))|apply (G (fun x => snd x w k c))]; tauto.
Qed.

Theorem limit_agree t : (t < T)%nat -> forall k, (k < n)%nat -> at_ (rout' t) w k c = at_ (rout t) w k c.
Proof.
  induction t as [t IH] using (well_founded_induction lt_wf). intros Lt k Lk.
  assert (IH' : forall s k, (s < t)%nat -> (k < n)%nat -> at_ (rout' s) w k c = at_ (rout s) w k c) by (intros s k0 Ls; apply IH; lia).
  rewrite (any rnd' t), (any rnd t). unfold step. rewrite NA. cbn [Nat.eqb fst snd]. rewrite mcm'.
  pose proof CL as (_ & _ & _ & HS' & HC'). destruct (initialize_inv EI) as (_ & _ & _ & HS & _).
  assert (NR : forall x y z, Rabs (x - y) <= d -> Rabs y <= 1 -> z = x -> Rabs z <= 1 + d).
  { intros x y z H1 H2 ->. pose proof (Rabs_triang (x - y) y) as TR. replace (x - y + y) with x in TR by ring. lra. }
  set (r := read_buffer 0 (radd rnd) (rmul rnd) m' (memory D rout t)). set (r' := read_buffer 0 (radd rnd') (rmul rnd') m' (memory D rout' t)).
  pose proof (fun k0 (L0 : (k0 < n)%nat) => @cmv_same u eta rnd RN rnd' (step_limit n u eta d B) AG n (fun w i j => fst (i_S m' w i j)) (fun w i j => snd (i_S m' w i j)) r r' w c d B k0 D0 B0 ltac:(lra)
    ltac:(intros j Lj; destruct (HS' k0 j) as [c1 c2]; [rewrite mcm; assumption..|]; destruct (@S_entry solve b e m w EI Sep PA k0 j L0 Lj) as [d1 d2]; exact (conj (NR _ _ _ c1 d1 eq_refl) (NR _ _ _ c2 d2 eq_refl)))
    ltac:(intros j Lj; apply (read_agree Lt Lj IH')) ltac:(intros j Lj; apply (read_agree Lt Lj IH'))) as K1.
  cbv beta in K1. clearbody r r'.
  set (x := cmv 0 (radd rnd) (rmul rnd) (rsub rnd) n (fun w i j => fst (i_S m' w i j)) (fun w i j => snd (i_S m' w i j)) r) in *.
  set (x' := cmv 0 (radd rnd') (rmul rnd') (rsub rnd') n (fun w i j => fst (i_S m' w i j)) (fun w i j => snd (i_S m' w i j)) r') in *. clearbody x x'.
  assert (K2 : forall k, (k < n)%nat -> at_ (add_field (radd rnd') x' (nsrc t)) w k c = at_ (add_field (radd rnd) x (nsrc t)) w k c
     /\ Rabs (fst (at_ (add_field (radd rnd) x (nsrc t)) w k c)) <= X2 /\ Rabs (snd (at_ (add_field (radd rnd) x (nsrc t)) w k c)) <= X2).
  { intros j Lj. destruct (K1 j Lj) as (E & b1 & b2). destruct (source_le Lt Lj) as [s1 s2]. unfold at_ in *. cbn [fst snd] in *. injection E as E1 E2.
    unfold add_field. cbn [fst snd]. rewrite E1, E2.
    assert (Q1 : Rabs (fst x w j c + fst (nsrc t) w j c) <= X1 + B) by (eapply Rle_trans; [apply Rabs_triang|]; cbn [fst snd]; lra).
    assert (Q2 : Rabs (snd x w j c + snd (nsrc t) w j c) <= X1 + B) by (eapply Rle_trans; [apply Rabs_triang|]; cbn [fst snd]; lra).
    unfold radd. split; [rewrite !AG by lra; reflexivity|]. split; apply (rnd_le RN); assumption. }
  destruct (@cmv_same u eta rnd RN rnd' (step_limit n u eta d B) AG n (fun w => fst (i_C m' w)) (fun w => snd (i_C m' w)) (add_field (radd rnd) x (nsrc t)) (add_field (radd rnd') x' (nsrc t)) w c d X2 k D0 ltac:(lra) A4) as [G _].
  - intros j Lj. destruct (HC' k j) as [c1 c2]; [rewrite mcm; assumption..|]. destruct (@C_entry solve SS b e m w EI Sep Lw PA OP SY k j Lk Lj) as [d1 d2]. exact (conj (NR _ _ _ c1 d1 eq_refl) (NR _ _ _ c2 d2 eq_refl)).
  - intros j Lj. apply (K2 j Lj).
  - intros j Lj. apply (K2 j Lj).
  - exact G.
Qed.
End Run.

(** Single precision. *)
Lemma pow_small u k : 0 <= u -> INR k * u <= / 2 -> (1 + u) ^ k <= 2.
Proof.
  intros U H. assert (E : forall j, INR j * u <= / 2 -> (1 + u) ^ j * (1 - INR j * u) <= 1).
  { induction j as [|j IH]; intros Hj; [cbn; lra|]. rewrite S_INR in *. cbn [pow]. specialize (IH ltac:(lra)).
    assert (P : 1 <= (1 + u) ^ j) by (apply pow_R1_Rle; lra). pose proof (pos_INR j). set (a := (1 + u) ^ j) in *. set (i := INR j) in *. clearbody a i.
    assert (0 <= a * ((i + 1) * (u * u))) by (repeat apply Rmult_le_pos; lra).
    replace ((1 + u) * a * (1 - (i + 1) * u)) with (a * (1 - i * u) - a * ((i + 1) * (u * u))) by ring. lra. }
  specialize (E k H). assert (P : 1 <= (1 + u) ^ k) by (apply pow_R1_Rle; lra). set (a := (1 + u) ^ k) in *. clearbody a.
  assert (a * / 2 <= a * (1 - INR k * u)) by (apply Rmult_le_compat_l; lra). lra.
Qed.
Theorem single_range n d x : (n < 2 ^ 20)%nat -> 0 <= d <= 1 -> 0 <= x <= 2 ^ 78 -> step_limit n (/ 2 ^ 24) (/ 2 ^ 150) d x <= 2 ^ 127.
Proof.
  intros Ln Hd Hx.
  assert (E20 : INR (S n) <= 2 ^ 20).
  { replace (2 ^ 20) with (INR (2 ^ 20)) by (rewrite pow_INR; reflexivity). apply le_INR. exact Ln. }
  assert (U : 0 <= / 2 ^ 24) by (apply Rlt_le, Rinv_0_lt_compat, pow_lt; lra).
  assert (ET : 0 <= / 2 ^ 150) by (apply Rlt_le, Rinv_0_lt_compat, pow_lt; lra).
  assert (ET1 : 2 ^ 22 * / 2 ^ 150 <= 1).
  { apply Rmult_le_reg_r with (2 ^ 150); [apply pow_lt; lra|]. rewrite Rmult_assoc, Rinv_l, Rmult_1_r, Rmult_1_l by (apply pow_nonzero; lra). apply Rle_pow; [lra|repeat constructor]. }
  assert (U1 : / 2 ^ 24 <= 1) by (rewrite <- Rinv_1; apply Rinv_le_contravar; [lra|apply pow_R1_Rle; lra]).
  assert (UN : (2 ^ 20 + 1) * / 2 ^ 24 <= / 2).
  { apply Rmult_le_reg_r with (2 ^ 24); [apply pow_lt; lra|]. rewrite Rmult_assoc, Rinv_l by (apply pow_nonzero; lra). lra. }
  assert (W2 : (1 + / 2 ^ 24) ^ S (S n) <= 2).
  { apply pow_small; [exact U|]. rewrite S_INR. eapply Rle_trans; [|exact UN]. apply Rmult_le_compat_r; lra. }
  assert (W1 : (1 + / 2 ^ 24) ^ S n <= 2) by (eapply Rle_trans; [apply Rle_pow|exact W2]; [lra|lia]).
  assert (W20 : 0 <= (1 + / 2 ^ 24) ^ S (S n)) by (apply pow_le; lra). assert (W10 : 0 <= (1 + / 2 ^ 24) ^ S n) by (apply pow_le; lra).
  pose proof (pos_INR (S n)) as N0.
  assert (DL : forall y, 0 <= y -> 0 <= dot_limit n (/ 2 ^ 24) (/ 2 ^ 150) y <= 2 ^ 21 * y + 1).
  { intros y Y. unfold dot_limit. set (a := (1 + / 2 ^ 24) ^ S (S n)) in *. set (p := (1 + / 2 ^ 24) ^ S n) in *. set (i := INR (S n)) in *. set (h := / 2 ^ 150) in *. clearbody a p i h.
    assert (I1 : 0 <= i * y) by (apply Rmult_le_pos; lra). assert (I2 : 0 <= 2 * i * h) by (repeat apply Rmult_le_pos; lra).
    pose proof (Rmult_le_pos a (i * y) W20 I1). pose proof (Rmult_le_pos _ p I2 W10). split; [lra|].
    assert (J1 : a * (i * y) <= 2 * (2 ^ 20 * y)) by (apply Rmult_le_compat; try lra; apply Rmult_le_compat_r; lra).
    assert (J2 : 2 * i * h * p <= 2 * 2 ^ 20 * h * 2) by (apply Rmult_le_compat; try lra; apply Rmult_le_compat_r; lra).
    replace (2 ^ 21 * y) with (2 * (2 ^ 20 * y)) by ring. replace (2 * 2 ^ 20 * h * 2) with (2 ^ 22 * h) in J2 by ring. lra. }
  assert (AF : forall y, 0 <= y -> 0 <= after_rounding (/ 2 ^ 24) (/ 2 ^ 150) y <= 2 * y + 1).
  { intros y Y. unfold after_rounding. pose proof (Rmult_le_pos _ y U Y). assert (/ 2 ^ 24 * y <= 1 * y) by (apply Rmult_le_compat_r; lra).
    assert (1 * / 2 ^ 150 <= 2 ^ 22 * / 2 ^ 150) by (apply Rmult_le_compat_r; [lra|apply pow_R1_Rle; lra]). lra. }
  assert (DD : forall y, 0 <= y -> 0 <= (1 + d) * y <= 2 * y).
  { intros y Y. pose proof (Rmult_le_pos d y (proj1 Hd) Y). assert (d * y <= 1 * y) by (apply Rmult_le_compat_r; lra). lra. }
  unfold step_limit. cbv zeta.
  pose proof (DD x ltac:(lra)) as S1. set (v1 := (1 + d) * x) in *. pose proof (DL v1 ltac:(lra)) as S2. set (v2 := dot_limit n _ _ v1) in *.
  pose proof (AF (2 * v2) ltac:(lra)) as S3. set (v3 := after_rounding _ _ (2 * v2)) in *. pose proof (AF (v3 + x) ltac:(lra)) as S4. set (v4 := after_rounding _ _ (v3 + x)) in *.
  pose proof (DD v4 ltac:(lra)) as S5. set (v5 := (1 + d) * v4) in *. pose proof (DL v5 ltac:(lra)) as S6. set (v6 := dot_limit n _ _ v5) in *.
  clearbody v1 v2 v3 v4 v5 v6. clear - Hx S1 S2 S3 S4 S5 S6. lra.
Qed.
