(** Passive circuits do not amplify errors of the steps of a simulation. *)
From Coq Require Import QArith Ring Reals Lra Permutation Psatz.
From Verif Require Import Base PyStr NetModel NetSpec NetProofs WireProofs NetBuild SimModel SimAlg SimSpec SimNodes SimProofs SimMore SimDelay
  SimRegular CircuitSpec CircuitProofs EnergyProofs EnergyNet Settle RoundSpec.
Set Implicit Arguments.
Unset Strict Implicit.
Local Open Scope list_scope.
Local Open Scope R_scope.

Notation rsum := (lsum 0%R Rplus).
Notation norm2R := (norm2 Rplus Rmult).
Notation zc0 := (c0 0%R).
Notation zcadd := (cadd Rplus).
Notation zcsub := (csub Rminus).
Notation zcmul := (cmul Rplus Rmult Rminus).
Notation zcsum := (lsum zc0 zcadd).
Notation pall := (power_all 0%R Rplus Rmult).
Definition ZR := CircuitProofs.CR RTheory.
Add Ring Zring : ZR.

(** ** Sizes *)
Lemma pall_pos n x : 0 <= pall n x.
Proof. apply sum_pos. intros. apply norm2_pos. Qed.
Lemma size_pos n x : 0 <= size n x.
Proof. apply sqrt_pos. Qed.
Lemma size_sq n x : size n x * size n x = pall n x.
Proof. apply sqrt_sqrt, pall_pos. Qed.
Lemma size_ext n x y : (forall i, (i < n)%nat -> x i = y i) -> size n x = size n y.
Proof. intros H. unfold size, power_all. f_equal. apply lsum_ext. intros i Ii. apply in_seq in Ii. rewrite H by lia. reflexivity. Qed.
Lemma size_le n m x y : pall n x <= pall m y -> size n x <= size m y.
Proof. intros H. apply sqrt_le_1_alt. exact H. Qed.

Lemma mink2 p q r s : sqrt ((p + q) * (p + q) + (r + s) * (r + s)) <= sqrt (p * p + r * r) + sqrt (q * q + s * s).
Proof.
  assert (PA : 0 <= p * p + r * r) by nra. assert (PB : 0 <= q * q + s * s) by nra.
  pose proof (sqrt_sqrt _ PA) as EA. pose proof (sqrt_sqrt _ PB) as EB.
  pose proof (sqrt_pos (p * p + r * r)) as A0. pose proof (sqrt_pos (q * q + s * s)) as B0.
  set (A := sqrt (p * p + r * r)) in *. set (B := sqrt (q * q + s * s)) in *.
  rewrite <- (sqrt_square (A + B)) by lra. apply sqrt_le_1_alt.
  assert (H : p * q + r * s <= A * B).
  { destruct (Rle_or_lt (p * q + r * s) 0) as [L|L]; [nra|].
    apply Rsqr_incr_0_var; [|nra]. unfold Rsqr. replace (A * B * (A * B)) with ((A * A) * (B * B)) by ring. rewrite EA, EB.
    pose proof (Rle_0_sqr (p * s - q * r)) as Q. unfold Rsqr in Q. nra. }
  nra.
Qed.
Lemma sqrt_sum2 a d : 0 <= a -> 0 <= d -> a + d = sqrt a * sqrt a + sqrt d * sqrt d.
Proof. intros A D. rewrite !sqrt_sqrt by auto. reflexivity. Qed.

Lemma sq_le a b : 0 <= a -> sqrt a <= b -> a <= b * b.
Proof. intros A L. pose proof (sqrt_pos a). rewrite <- (sqrt_sqrt a A). apply Rmult_le_compat; auto. Qed.

Lemma size_add n x y : size n (fun i => zcadd (x i) (y i)) <= size n x + size n y.
Proof.
  unfold size, power_all. induction (seq 0 n) as [|i l IH].
  { rewrite !lsum_nil, sqrt_0. lra. }
  rewrite !lsum_cons.
  assert (P : forall z : nat -> R * R, 0 <= rsum (fun i => norm2R (z i)) l) by (intros; apply sum_pos; intros; apply norm2_pos).
  set (X := rsum (fun i => norm2R (x i)) l) in *. set (Y := rsum (fun i => norm2R (y i)) l) in *.
  set (Z := rsum (fun i => norm2R (zcadd (x i) (y i))) l) in *.
  pose proof (P x) as PX. pose proof (P y) as PY. pose proof (P (fun i => zcadd (x i) (y i))) as PZ. fold X in PX. fold Y in PY. fold Z in PZ.
  pose proof (norm2_pos (x i)) as nx. pose proof (norm2_pos (y i)) as ny.
  rewrite (sqrt_sum2 nx PX), (sqrt_sum2 ny PY). eapply Rle_trans; [|apply mink2]. apply sqrt_le_1_alt.
  apply Rplus_le_compat.
  - assert (H : sqrt (norm2R (zcadd (x i) (y i))) <= sqrt (norm2R (x i)) + sqrt (norm2R (y i))).
    { unfold norm2, cadd. cbn [fst snd]. apply mink2. }
    apply sq_le; [apply norm2_pos|exact H].
  - apply sq_le; [exact PZ|exact IH].
Qed.
Lemma size_scale n u x : 0 <= u -> size n (fun i => zcmul (u, 0) (x i)) = u * size n x.
Proof.
  intros U. unfold size. match goal with |- _ = u * ?q => replace (u * q) with (sqrt (u * u) * q) by (rewrite sqrt_square by exact U; reflexivity) end. rewrite <- (sqrt_mult_alt (u * u)) by (apply Rmult_le_pos; exact U). f_equal.
  unfold power_all. rewrite <- (lsum_mul RTheory). apply lsum_ext. intros i _. unfold norm2, cmul. cbn [fst snd]. ring.
Qed.
Lemma size_neg n x y : size n (fun i => zcsub (x i) (y i)) = size n (fun i => zcsub (y i) (x i)).
Proof. unfold size, power_all. f_equal. apply lsum_ext. intros i _. unfold norm2, csub. cbn [fst snd]. ring. Qed.
(** [x] is at most [y] plus their difference. *)
Lemma size_tri n x y : size n x <= size n y + gap n x y.
Proof.
  unfold gap. eapply Rle_trans; [|apply size_add]. apply Req_le, size_ext. intros i _.
  match goal with |- x i = zcadd ?a (zcsub ?c ?a) => transitivity c; [reflexivity|ring] end.
Qed.
Lemma gap_tri n x y z : gap n x z <= gap n x y + gap n y z.
Proof.
  unfold gap. eapply Rle_trans; [|apply size_add]. apply Req_le, size_ext. intros i _. ring.
Qed.

Lemma part_le n x i : (i < n)%nat -> Rabs (fst (x i)) <= size n x /\ Rabs (snd (x i)) <= size n x.
Proof.
  intros L. assert (H : norm2R (x i) <= pall n x).
  { eapply Rle_trans; [apply (@power_one (fun _ => true) n x i L eq_refl)|]. apply Rle_refl. }
  pose proof (size_sq n x) as E. pose proof (size_pos n x) as P. unfold norm2 in H.
  split; apply Rsqr_incr_0_var; auto; rewrite <- Rsqr_abs; unfold Rsqr; nra.
Qed.
Lemma size_bound n x B : 0 <= B -> (forall i, (i < n)%nat -> Rabs (fst (x i)) <= B /\ Rabs (snd (x i)) <= B) ->
  size n x <= 2 * INR n * B.
Proof.
  intros PB H.
  assert (L : pall n x <= INR n * (2 * (B * B))).
  { unfold power_all. clear - PB H. induction n as [|n IH].
    - cbn [seq INR]. rewrite lsum_nil. lra.
    - rewrite seq_S, (lsum_app RTheory), S_INR. cbn [Nat.add]. rewrite lsum_cons, lsum_nil.
      specialize (IH (fun i L => H i (Nat.lt_lt_succ_r _ _ L))). destruct (H n (Nat.lt_succ_diag_r n)) as [H1 H2].
      unfold norm2 at 2.
      assert (Q : forall z, Rabs z <= B -> z * z <= B * B).
      { intros z Hz. replace (z * z) with (Rabs z * Rabs z).
        - pose proof (Rabs_pos z). nra.
        - rewrite <- Rabs_mult. apply Rabs_pos_eq. nra. }
      apply Q in H1. apply Q in H2. nra. }
  unfold size. rewrite <- (sqrt_square (2 * INR n * B)).
  - apply sqrt_le_1_alt. eapply Rle_trans; [exact L|]. destruct n as [|n]; [cbn; lra|].
    assert (1 <= INR (S n)) by (rewrite S_INR; pose proof (pos_INR n); lra).
    set (q := INR (S n)) in *. assert (q <= q * q) by nra. assert (0 <= B * B) by nra.
    replace (2 * q * B * (2 * q * B)) with (4 * (q * q) * (B * B)) by ring. nra.
  - pose proof (pos_INR n). nra.
Qed.

(** ** Sums of errors *)
Section Growth.
Variables (n : nat) (lg : nat -> nat).
Hypothesis L1 : forall k, (k < n)%nat -> lg k <> 0%nat.
Definition pastv (X : nat -> nat -> R * R) (t k : nat) : R * R := past 0 X (lg k) t k.
Variable X : nat -> nat -> R * R.
Definition held (T : nat) : R :=
  rsum (fun k => rsum (fun t => if (T <=? t + lg k)%nat then norm2R (X t k) else 0) (seq 0 T)) (seq 0 n).

Lemma held_pos T : 0 <= held T.
Proof. apply sum_pos. intros k _. apply sum_pos. intros t _. destruct (_ <=? _)%nat; [apply norm2_pos|lra]. Qed.

Lemma held_eq T : rsum (fun t => pall n (X t)) (seq 0 T) = rsum (fun t => pall n (pastv X t)) (seq 0 T) + held T.
Proof.
  unfold power_all, held. rewrite !(lsum_swap RTheory _ (seq 0 T)), <- (lsum_add RTheory).
  apply lsum_ext. intros k _. rewrite (lsum_delay RTheory _ (lg k)). f_equal. apply lsum_ext. intros t _. unfold pastv, past.
  destruct (t <? lg k)%nat; [|reflexivity]. symmetry. apply (norm2_0 RTheory).
Qed.
Lemma held_S T : held (S T) + pall n (pastv X T) = held T + pall n (X T).
Proof.
  pose proof (held_eq T) as A. pose proof (held_eq (S T)) as B. rewrite !seq_S, !(lsum_app RTheory) in B. cbn [Nat.add] in B.
  rewrite !lsum_cons, !lsum_nil in B. lra.
Qed.
Lemma one_term (f : nat -> R) T t : (forall s, 0 <= f s) -> (t < T)%nat -> f t <= rsum f (seq 0 T).
Proof.
  intros P L. rewrite <- (lsum_pick RTheory (p := fun k => (k =? t)%nat) f L) by (auto using Nat.eqb_refl; intros k _ E; now apply Nat.eqb_eq in E).
  apply sum_le. intros s _. destruct (s =? t)%nat; [apply Rle_refl|apply P].
Qed.
Lemma held_past T : pall n (pastv X T) <= held T.
Proof.
  apply sum_le. intros k Ik. apply in_seq in Ik. unfold pastv, past. destruct (Nat.ltb_spec T (lg k)) as [L|L].
  - rewrite (norm2_0 RTheory). apply sum_pos. intros t _. destruct (_ <=? _)%nat; [apply norm2_pos|lra].
  - specialize (@L1 k ltac:(lia)). set (t := (T - lg k)%nat).
    eapply Rle_trans; [|apply (@one_term (fun t => if (T <=? t + lg k)%nat then norm2R (X t k) else 0) T t)].
    + destruct (Nat.leb_spec T (t + lg k)); [apply Rle_refl|unfold t in *; lia].
    + intros s. destruct (_ <=? _)%nat; [apply norm2_pos|lra].
    + unfold t. lia.
Qed.
Lemma held_now T : pall n (X T) <= held (S T).
Proof. pose proof (held_S T). pose proof (held_past T). lra. Qed.

Variable f : nat -> R.
Lemma growth T : (forall t, (t < T)%nat -> 0 <= f t /\ size n (X t) <= size n (pastv X t) + f t) ->
  sqrt (held T) <= rsum f (seq 0 T).
Proof.
  induction T as [|T IH]; intros H.
  { cbn [seq]. rewrite lsum_nil. unfold held. cbn [seq]. rewrite (lsum_0 RTheory) by auto. rewrite sqrt_0. lra. }
  rewrite seq_S, (lsum_app RTheory). cbn [Nat.add]. rewrite lsum_cons, lsum_nil.
  destruct (H T (Nat.lt_succ_diag_r T)) as [F0 F1]. specialize (IH (fun t L => H t (Nat.lt_lt_succ_r _ _ L))).
  pose proof (held_S T) as E. pose proof (held_past T) as Q. pose proof (held_pos T) as PH.
  assert (PS : 0 <= held (S T)) by apply held_pos.
  pose proof (sqrt_sqrt _ PH) as ES. pose proof (sqrt_pos (held T)) as PSQ.
  assert (G : sqrt (held (S T)) <= sqrt (held T) + f T); [|lra].
  rewrite <- (sqrt_square (sqrt (held T) + f T)) by lra. apply sqrt_le_1_alt.
  assert (HP : size n (pastv X T) <= sqrt (held T)) by (apply sqrt_le_1_alt; exact Q).
  pose proof (size_sq n (X T)) as E1. pose proof (size_sq n (pastv X T)) as E2.
  pose proof (size_pos n (X T)). pose proof (size_pos n (pastv X T)).
  assert (pall n (X T) <= (size n (pastv X T) + f T) * (size n (pastv X T) + f T)) by nra.
  nra.
Qed.
Lemma growth_past T : (forall t, (t < T)%nat -> 0 <= f t /\ size n (X t) <= size n (pastv X t) + f t) ->
  size n (pastv X T) <= rsum f (seq 0 T).
Proof. intros H. eapply Rle_trans; [|apply (growth H)]. apply sqrt_le_1_alt, held_past. Qed.
Lemma growth_now T : (forall t, (t <= T)%nat -> 0 <= f t /\ size n (X t) <= size n (pastv X t) + f t) ->
  size n (X T) <= rsum f (seq 0 (S T)).
Proof. intros H. eapply Rle_trans; [|apply (@growth (S T)); intros t L; apply H; lia]. apply sqrt_le_1_alt, held_now. Qed.
End Growth.

(** ** The matrices of a passive circuit do not increase sizes *)
Lemma pall_on n x (f : nat -> bool) : pall n (fun i => if f i then x i else zc0) = power_on 0 Rplus Rmult f n x.
Proof. apply lsum_ext. intros i _. destruct (f i); [reflexivity|apply (norm2_0 RTheory)]. Qed.
Lemma pall_nodes (l : list nat) x : pall (length l) (fun k => x (nth k l O)) = rsum (fun i => norm2R (x i)) l.
Proof. unfold power_all. rewrite <- (lsum_nth 0 Rplus O (fun i => norm2R (x i)) l). reflexivity. Qed.

Section Circuit.
Variables (b : net R) (e : env) (w : nat).
Notation mc := (mc_nodes e b).
Notation ml := (ml_nodes e b).
Notation n := (length mc).
Hypothesis Sep : separate b.
Hypothesis PA : passive b w.

Definition on_nodes (l : list nat) (x : nat -> R * R) (i : nat) : R * R := if memb i l then x (index i l) else zc0.

Lemma nodup_mc : NoDup mc.
Proof. eapply Permutation_NoDup; [apply Permutation_sym, mc_perm; auto|]. apply NoDup_filter, seq_NoDup. Qed.
Lemma split_ports (g : nat -> R) : rsum g (seq 0 (b_np b)) = rsum g mc + rsum g ml.
Proof. rewrite <- (lsum_perm RTheory _ (all_perm e Sep)), (lsum_app RTheory). reflexivity. Qed.
Lemma split_csum (g : nat -> R * R) : zcsum g (seq 0 (b_np b)) = zcadd (zcsum g mc) (zcsum g ml).
Proof. rewrite <- (lsum_perm ZR _ (all_perm e Sep)), (lsum_app ZR). reflexivity. Qed.
Lemma in_both i : In i mc -> In i ml -> False.
Proof. intros A B. apply in_mc in A; auto. apply in_ml in B. lia. Qed.

(** Scattering between delayed ports. *)
Lemma contr_S x : size n (fun k => zcsum (fun j => zcmul (b_S b (nth k mc O) (nth j mc O) w) (x j)) (seq 0 n)) <= size n x.
Proof.
  apply size_le. set (X := on_nodes mc x).
  assert (E1 : pall n x = rsum (fun i => norm2R (X i)) mc).
  { rewrite <- pall_nodes. unfold power_all. apply lsum_ext. intros k Ik. apply in_seq in Ik. unfold X, on_nodes.
    assert (Lk : (k < n)%nat) by lia. rewrite (proj2 (memb_In _ _)) by (apply nth_In; exact Lk). rewrite (index_nth nodup_mc Lk). reflexivity. }
  assert (Z : forall i, In i ml -> X i = zc0).
  { intros i Ii. unfold X, on_nodes. destruct (memb i mc) eqn:M; [|reflexivity]. apply memb_In in M. destruct (in_both M Ii). }
  eapply Rle_trans; [|eapply Rle_trans; [apply (PA X)|]].
  - unfold power_all at 2. rewrite split_ports.
    assert (P : 0 <= rsum (fun i => norm2R (scatter 0 Rplus Rmult Rminus b w X i)) ml) by (apply sum_pos; intros; apply norm2_pos).
    rewrite <- pall_nodes. match goal with |- ?a <= ?c + _ => assert (Eq : a = c); [|lra] end.
    unfold power_all. apply lsum_ext. intros k Ik. apply in_seq in Ik. f_equal. unfold scatter. rewrite split_csum.
    rewrite (lsum_0 ZR _ ml) by (intros j Ij; rewrite Z by exact Ij; ring).
    rewrite <- (lsum_nth zc0 zcadd O _ mc).
    match goal with |- ?a = zcadd ?c zc0 => transitivity c; [|ring] end. apply lsum_ext. intros j Ij. apply in_seq in Ij. f_equal.
    assert (Lj : (j < n)%nat) by lia. unfold X, on_nodes. rewrite (proj2 (memb_In _ _)) by (apply nth_In; exact Lj). now rewrite (index_nth nodup_mc Lj).
  - unfold power_all at 1. rewrite split_ports, E1.
    rewrite (lsum_0 RTheory _ ml) by (intros i Ii; rewrite Z by exact Ii; apply (norm2_0 RTheory)). lra.
Qed.

Hypothesis OP : one_partner b.
Hypothesis SY : sym_C b.
Variable solve : nat -> nat -> mat R -> mat R -> option (mat R).
Hypothesis SS : solver_sound 0 Rplus Rmult solve.

(** Wires and instantaneous ports. *)
Lemma contr_C M x : reduced_C 0 1 Rplus Rmult Rminus Ropp solve b mc ml w = Ok M ->
  size n (fun k => zcsum (fun j => zcmul (fst M k j, snd M k j) (x j)) (seq 0 n)) <= size n x.
Proof.
  intros HR. destruct (full RTheory SS (all_perm e Sep) HR) as (F & G & H). destruct (H x) as (H1 & H2 & H3 & H4).
  apply size_le.
  assert (EF : pall n (fun k => zcsum (fun j => zcmul (fst M k j, snd M k j) (x j)) (seq 0 n)) = rsum (fun i => norm2R (F x i)) mc).
  { rewrite <- pall_nodes. unfold power_all. apply lsum_ext. intros k Ik. apply in_seq in Ik. f_equal. symmetry. apply H2. lia. }
  assert (EG : pall n x = rsum (fun i => norm2R (G x i)) mc).
  { rewrite <- pall_nodes. unfold power_all. apply lsum_ext. intros k Ik. apply in_seq in Ik. f_equal. symmetry. apply H1. lia. }
  rewrite EF, EG.
  assert (EW : pall (b_np b) (F x) = pall (b_np b) (G x)).
  { unfold power_all.
    rewrite (@lsum_ext _ 0 Rplus _ (fun i => norm2R (F x i)) (fun i => rsum (fun j => if b_C b i j then norm2R (G x j) else 0) (seq 0 (b_np b)))).
    - rewrite (lsum_swap RTheory). apply lsum_ext. intros j Ij. apply in_seq in Ij.
      destruct (@OP j ltac:(lia)) as (i & Li & C & U).
      rewrite (@lsum_pick _ _ _ _ _ _ _ RTheory (fun i => b_C b i j) (fun _ => norm2R (G x j)) _ i Li); auto.
      + rewrite SY by lia. exact C.
      + intros k Lk Ck. apply U; auto. rewrite SY by lia. exact Ck.
    - intros i Ii. apply in_seq in Ii. rewrite H3 by lia. destruct (@OP i ltac:(lia)) as (j & Lj & C & U).
      rewrite (lsum_pick ZR (fun j => G x j) Lj C) by auto. rewrite (lsum_pick RTheory (fun j => norm2R (G x j)) Lj C) by auto. reflexivity. }
  unfold power_all in EW. rewrite !split_ports in EW.
  set (Y := fun i => if memb i ml then F x i else zc0).
  assert (EY : forall i, In i ml -> Y i = F x i) by (intros i Ii; unfold Y; now rewrite (proj2 (memb_In _ _) Ii)).
  assert (ZY : forall i, In i mc -> Y i = zc0).
  { intros i Ii. unfold Y. destruct (memb i ml) eqn:E; [|reflexivity]. apply memb_In in E. destruct (in_both Ii E). }
  assert (HL : rsum (fun i => norm2R (G x i)) ml <= rsum (fun i => norm2R (F x i)) ml).
  { apply Rle_trans with (pall (b_np b) (scatter 0 Rplus Rmult Rminus b w Y)).
    - unfold power_all. rewrite split_ports.
      assert (P : 0 <= rsum (fun i => norm2R (scatter 0 Rplus Rmult Rminus b w Y i)) mc) by (apply sum_pos; intros; apply norm2_pos).
      match goal with |- ?a <= _ + ?c => assert (Eq : a = c); [|lra] end.
      apply lsum_ext. intros i Ii. f_equal. rewrite H4 by exact Ii. unfold scatter. rewrite split_csum.
      rewrite (lsum_0 ZR _ mc) by (intros j Ij; rewrite ZY by exact Ij; ring).
      match goal with |- ?a = zcadd zc0 ?c => transitivity c; [|ring] end. apply lsum_ext. intros j Ij. rewrite EY by exact Ij. reflexivity.
    - eapply Rle_trans; [apply (PA Y)|]. unfold power_all. rewrite split_ports.
      rewrite (lsum_0 RTheory _ mc) by (intros i Ii; rewrite ZY by exact Ii; apply (norm2_0 RTheory)).
      match goal with |- 0 + ?a <= ?c => assert (Eq : a = c); [|lra] end. apply lsum_ext. intros i Ii. now rewrite EY. }
  lra.
Qed.
End Circuit.

(** ** Computed simulations *)
Section Memory.
Variables (D : nat) (M : nat -> field R).
Hypothesis D1 : (1 <= D)%nat.
Lemma memory_length t : length (memory D M t) = D.
Proof.
  induction t as [|t IH]; [apply repeat_length|]. cbn [memory length].
  destruct (@exists_last _ (memory D M t)) as (l & a & E); [intros E; rewrite E in IH; cbn in IH; lia|].
  rewrite E, removelast_last. rewrite E, app_length in IH. cbn in IH. lia.
Qed.
Lemma memory_nth t : forall k, (k < D)%nat -> nth k (memory D M t) (zero_field 0) = if (k <? t)%nat then M (t - 1 - k)%nat else zero_field 0.
Proof.
  induction t as [|t IH]; intros k Lk.
  - cbn [memory]. rewrite nth_repeat. destruct (Nat.ltb_spec k 0); [lia|reflexivity].
  - cbn [memory]. destruct k as [|k]; cbn [nth].
    + destruct (Nat.ltb_spec 0 (S t)); [|lia]. f_equal. lia.
    + pose proof (memory_length t) as E. destruct (@exists_last _ (memory D M t)) as (l & a & El); [intros E0; rewrite E0 in E; cbn in E; lia|].
      specialize (IH k ltac:(lia)). rewrite El in *. rewrite removelast_last. rewrite app_length in E. cbn [length] in E.
      rewrite app_nth1 in IH by lia. rewrite IH. destruct (Nat.ltb_spec k t), (Nat.ltb_spec (S k) (S t)); try lia; auto. f_equal. lia.
Qed.
End Memory.

Lemma pall_shift n nd s x : (s + nd <= n)%nat -> pall nd (fun k => x (s + k)%nat) <= pall n x.
Proof.
  intros L. unfold power_all. replace n with (s + (nd + (n - s - nd)))%nat by lia. rewrite !seq_app, !(lsum_app RTheory). cbn [Nat.add].
  assert (E : forall s m, rsum (fun k => norm2R (x (s + k)%nat)) (seq 0 m) = rsum (fun i => norm2R (x i)) (seq s m)).
  { clear. intros s m. revert s. induction m as [|m IH]; intros s; [reflexivity|]. cbn [seq]. rewrite !lsum_cons, Nat.add_0_r. f_equal.
    rewrite <- seq_shift, (lsum_map 0 Rplus). rewrite <- IH. apply lsum_ext. intros k _. do 2 f_equal. lia. }
  rewrite E. assert (P : forall l, 0 <= rsum (fun i => norm2R (x i)) l) by (intros; apply sum_pos; intros; apply norm2_pos).
  pose proof (P (seq 0 s)). pose proof (P (seq (s + nd) (n - s - nd))). lra.
Qed.

Section Run.
Variable solve : nat -> nat -> mat R -> mat R -> option (mat R).
Variables (A : Type) (act : A -> nat -> field R -> A * field R).
Hypothesis SS : solver_sound 0 Rplus Rmult solve.
Variables (b : net R) (e : env) (m : init R) (source : nat -> field R) (s0 : A) (w c : nat).
Hypothesis EI : initialize 0 1 Rplus Rmult Rminus Ropp solve e b = Ok (Some m).
Hypothesis Sep : separate b.
Hypothesis NA : num_act b = O.
Hypothesis Lw : (w < e_num_wl e)%nat.
Hypothesis PA : passive b w.
Hypothesis OP : one_partner b.
Hypothesis SY : sym_C b.
Notation mc := (mc_nodes e b).
Notation n := (length mc).
Notation D := (i_depth m).
Notation nsrc := (node_source 0 (num_src b) source).
Notation exact t buf := (snd (fst (step 0 Rplus Rmult Rminus act b m s0 t (nsrc t) buf))).
Notation out := (out 0 Rplus Rmult Rminus act b m nsrc s0 D).
Notation lg := (fun k => lag e b (nth k mc O)).
Notation col x := (column x w c).

Definition Cv (x : nat -> R * R) (k : nat) : R * R := zcsum (fun j => zcmul (fst (i_C m w) k j, snd (i_C m w) k j) (x j)) (seq 0 n).
Definition Sv (x : nat -> R * R) (k : nat) : R * R := zcsum (fun j => zcmul (b_S b (nth k mc O) (nth j mc O) w) (x j)) (seq 0 n).
Definition traj (M : nat -> field R) (t k : nat) : R * R := at_ (M t) w k c.

Lemma depth1 : (1 <= D)%nat.
Proof. destruct (initialize_inv EI) as (_ & _ & _ & _ & _ & _ & HD). rewrite HD. lia. Qed.
Lemma lg1 k : (k < n)%nat -> lag e b (nth k mc O) <> 0%nat.
Proof. intros L. rewrite (lag_mc Sep L). lia. Qed.
Lemma slot k : (k < n)%nat -> (pred (steps e (b_del b (nth k mc O))) < D)%nat.
Proof.
  intros L. destruct (initialize_inv EI) as (_ & _ & _ & _ & _ & _ & HD). rewrite HD.
  assert (steps e (b_del b (nth k mc O)) <= maxl (map (fun i => steps e (b_del b i)) (seq 0 (b_np b))))%nat; [|lia].
  apply maxl_le, in_map_iff. eexists. split; [reflexivity|]. apply in_seq.
  assert (I : In (nth k mc O) mc) by (apply nth_In; auto). apply in_mc in I; auto. lia.
Qed.
Lemma slot_past M t k (f : field R -> R) : (k < n)%nat ->
  (nth (pred (steps e (b_del b (nth k mc O)))) (memory D M t) (zero_field 0)) = 
  if (t <? lag e b (nth k mc O))%nat then zero_field 0 else M (t - lag e b (nth k mc O))%nat.
Proof.
  intros L. rewrite (lag_mc Sep L). rewrite memory_nth by (apply depth1 || apply slot; exact L).
  set (q := pred _). destruct (Nat.ltb_spec q t), (Nat.ltb_spec t (S q)); try lia; auto. f_equal. lia.
Qed.
Lemma read_mem M t k : (k < n)%nat ->
  at_ (read_buffer 0 Rplus Rmult m (memory D M t)) w k c = pastv lg (traj M) t k.
Proof.
  intros L. destruct (initialize_inv EI) as (_ & _ & _ & _ & _ & HM & _).
  set (q := pred (steps e (b_del b (nth k mc O)))). pose proof (slot L) as LD. fold q in LD.
  assert (E : forall f : field R -> R,
    rsum (fun t0 => Rmult (i_mask m t0 k) (f (nth t0 (memory D M t) (zero_field 0)))) (seq 0 D) = f (nth q (memory D M t) (zero_field 0))).
  { intros f. rewrite (@lsum_ext _ 0 Rplus _ _ (fun t0 => if (t0 =? q)%nat then f (nth t0 (memory D M t) (zero_field 0)) else 0)).
    - rewrite (lsum_one RTheory). apply Nat.ltb_lt in LD. rewrite LD. reflexivity.
    - intros x _. rewrite HM. fold q. destruct (x =? q)%nat; ring. }
  unfold read_buffer. rewrite (memory_length M depth1). unfold at_ at 1. cbn [fst snd].
  rewrite (E (fun x => fst x w k c)), (E (fun x => snd x w k c)). unfold q. rewrite (slot_past M t (fun _ => 0) L).
  unfold pastv, past, traj, at_. destruct (t <? _)%nat; reflexivity.
Qed.
Definition sv (t k : nat) : R * R := at_ (nsrc t) w k c.

Lemma exact_at M t k : at_ (exact t (memory D M t)) w k c = Cv (fun j => zcadd (sv t j) (Sv (pastv lg (traj M) t) j)) k.
Proof.
  unfold step. rewrite NA. cbn [Nat.eqb fst snd]. destruct (initialize_inv EI) as (_ & _ & Emc & HS & _). rewrite Emc.
  rewrite (cmv_at RTheory). apply lsum_ext. intros j Ij. apply in_seq in Ij. f_equal.
  match goal with |- at_ (add_field _ ?x ?y) w j c = _ => transitivity (zcadd (at_ y w j c) (at_ x w j c)) end.
  { unfold at_, add_field, cadd. cbn [fst snd]. f_equal; ring. }
  f_equal. rewrite (cmv_at RTheory). apply lsum_ext. intros l Il. apply in_seq in Il. rewrite read_mem by lia. f_equal.
  rewrite HS. symmetry. apply surjective_pairing.
Qed.
Lemma out_exact t : out t = exact t (memory D out t).
Proof.
  unfold SimProofs.out at 1.
  assert (E : forall t, window 0 D (snd (hist 0 Rplus Rmult Rminus act b m nsrc s0 D t)) = memory D out t).
  { intros u. induction u as [|u IH].
    - cbn [hist snd memory]. unfold window. cbn [app]. apply firstn_all2. rewrite repeat_length. auto.
    - rewrite hist_S. cbn [snd memory]. rewrite <- IH, (window_cons 0 depth1). reflexivity. }
  rewrite E. unfold step. rewrite NA. reflexivity.
Qed.

Lemma Cv_size x : size n (Cv x) <= size n x.
Proof. destruct (initialize_inv EI) as (_ & _ & _ & _ & HC & _). apply (@contr_C b e w Sep PA OP SY solve SS _ x (HC w Lw)). Qed.
Lemma Sv_size x : size n (Sv x) <= size n x.
Proof. apply (@contr_S b e w Sep PA). Qed.
Lemma Cv_sub x y k : zcsub (Cv x k) (Cv y k) = Cv (fun j => zcsub (x j) (y j)) k.
Proof. unfold Cv. rewrite <- (lsum_sub ZR). apply lsum_ext. intros j _. ring. Qed.
Lemma Sv_sub x y k : zcsub (Sv x k) (Sv y k) = Sv (fun j => zcsub (x j) (y j)) k.
Proof. unfold Sv. rewrite <- (lsum_sub ZR). apply lsum_ext. intros j _. ring. Qed.
Lemma Cv_ext x y k : (forall j, (j < n)%nat -> x j = y j) -> Cv x k = Cv y k.
Proof. intros H. apply lsum_ext. intros j Ij. apply in_seq in Ij. rewrite H by lia. reflexivity. Qed.
Lemma Sv_ext x y k : (forall j, (j < n)%nat -> x j = y j) -> Sv x k = Sv y k.
Proof. intros H. apply lsum_ext. intros j Ij. apply in_seq in Ij. rewrite H by lia. reflexivity. Qed.

(** The difference of a computed and the exact simulation. *)
Definition off (M : nat -> field R) (t k : nat) : R * R := zcsub (traj M t k) (traj out t k).
Lemma off_past M t k : pastv lg (off M) t k = zcsub (pastv lg (traj M) t k) (pastv lg (traj out) t k).
Proof. unfold pastv, past, off. destruct (t <? _)%nat; [ring|reflexivity]. Qed.
Definition step_error (M : nat -> field R) (t : nat) : R := gap n (col (M t)) (col (exact t (memory D M t))).

Lemma off_step M t : size n (off M t) <= size n (pastv lg (off M) t) + step_error M t.
Proof.
  assert (H : size n (off M t) <= gap n (col (M t)) (col (exact t (memory D M t))) + gap n (col (exact t (memory D M t))) (col (out t))).
  { eapply Rle_trans; [|apply gap_tri]. apply Rle_refl. }
  fold (step_error M t) in H.
  assert (G : gap n (col (exact t (memory D M t))) (col (out t)) <= size n (pastv lg (off M) t)); [|lra].
  rewrite out_exact. unfold gap, column.
  eapply Rle_trans; [|apply Sv_size]. eapply Rle_trans; [|apply Cv_size]. apply Req_le, size_ext. intros k _.
  rewrite !exact_at, Cv_sub. apply Cv_ext. intros j _.
  transitivity (zcsub (Sv (pastv lg (traj M) t) j) (Sv (pastv lg (traj out) t) j)); [ring|]. rewrite Sv_sub. apply Sv_ext.
  intros l _. symmetry. apply off_past.
Qed.

Theorem errors_add M T : forall t, (t < T)%nat ->
  gap n (col (M t)) (col (out t)) <= rsum (step_error M) (seq 0 (S t)).
Proof.
  intros t _. apply (@growth_now n lg (fun k => @lg1 k) (off M) (step_error M) t).
  intros s _. split; [apply size_pos|apply off_step].
Qed.
Lemma errors_past M t : size n (pastv lg (off M) t) <= rsum (step_error M) (seq 0 t).
Proof.
  apply (@growth_past n lg (fun k => @lg1 k) (off M) (step_error M) t). intros s _. split; [apply size_pos|apply off_step].
Qed.

(** The exact simulation. *)
Lemma src_size t : size n (sv t) <= size (num_src b) (col (source t)).
Proof.
  apply size_le. unfold power_all. destruct (le_lt_dec n (num_src b)) as [L|L].
  - replace (num_src b) with (n + (num_src b - n))%nat by lia. rewrite seq_app, (lsum_app RTheory).
    assert (P : forall l, 0 <= rsum (fun i => norm2R (col (source t) i)) l) by (intros; apply sum_pos; intros; apply norm2_pos).
    pose proof (P (seq (0 + n) (num_src b - n))).
    assert (E : rsum (fun i => norm2R (sv t i)) (seq 0 n) = rsum (fun i => norm2R (col (source t) i)) (seq 0 n)).
    { apply lsum_ext. intros i Ii. apply in_seq in Ii. unfold sv, node_source, column, at_. cbn [fst snd].
      destruct (Nat.ltb_spec i (num_src b)); [reflexivity|lia]. }
    lra.
  - replace n with (num_src b + (n - num_src b))%nat by lia. rewrite seq_app, (lsum_app RTheory).
    rewrite (lsum_0 RTheory _ (seq (0 + num_src b) _)).
    + match goal with |- ?a + 0 <= ?c => assert (E : a = c); [|lra] end.
      apply lsum_ext. intros i Ii. apply in_seq in Ii. unfold sv, node_source, column, at_. cbn [fst snd].
      destruct (Nat.ltb_spec i (num_src b)); [reflexivity|lia].
    + intros i Ii. apply in_seq in Ii. unfold sv, node_source, at_. cbn [fst snd].
      destruct (Nat.ltb_spec i (num_src b)); [lia|]. apply (norm2_0 RTheory).
Qed.
Lemma exact_past t : size n (pastv lg (traj out) t) <= sent_sizes (num_src b) source w c t.
Proof.
  apply (@growth_past n lg (fun k => @lg1 k) (traj out) (fun s => size (num_src b) (col (source s))) t).
  intros s _. split; [apply size_pos|].
  eapply Rle_trans; [apply Req_le, size_ext; intros k _; unfold traj; rewrite out_exact; apply exact_at|].
  eapply Rle_trans; [apply Cv_size|]. eapply Rle_trans; [apply size_add|].
  pose proof (src_size s). pose proof (Sv_size (pastv lg (traj out) s)). lra.
Qed.
Lemma exact_now t : size n (col (out t)) <= sent_sizes (num_src b) source w c (S t).
Proof.
  apply (@growth_now n lg (fun k => @lg1 k) (traj out) (fun s => size (num_src b) (col (source s))) t).
  intros s _. split; [apply size_pos|].
  eapply Rle_trans; [apply Req_le, size_ext; intros k _; unfold traj; rewrite out_exact; apply exact_at|].
  eapply Rle_trans; [apply Cv_size|]. eapply Rle_trans; [apply size_add|].
  pose proof (src_size s). pose proof (Sv_size (pastv lg (traj out) s)). lra.
Qed.
Lemma computed_past M t : size n (pastv lg (traj M) t) <= sent_sizes (num_src b) source w c t + rsum (step_error M) (seq 0 t).
Proof.
  pose proof (exact_past t). pose proof (errors_past M t).
  pose proof (size_tri n (pastv lg (traj M) t) (pastv lg (traj out) t)) as T.
  assert (E : gap n (pastv lg (traj M) t) (pastv lg (traj out) t) = size n (pastv lg (off M) t)).
  { apply size_ext. intros k _. symmetry. apply off_past. }
  lra.
Qed.

Lemma sent_S t : sent_sizes (num_src b) source w c (S t) = sent_sizes (num_src b) source w c t + size (num_src b) (col (source t)).
Proof. unfold sent_sizes. rewrite seq_S, (lsum_app RTheory). cbn [Nat.add]. rewrite lsum_cons, lsum_nil. ring. Qed.

Theorem errors_relative M v h T : 0 <= v -> 0 <= h ->
  (forall t, (t < T)%nat -> step_error M t <=
     v * (size n (col (read_buffer 0 Rplus Rmult m (memory D M t))) + size (num_src b) (col (source t))) + h) ->
  forall t, (t <= T)%nat -> rsum (step_error M) (seq 0 t) <=
    ((1 + v) ^ t - 1) * sent_sizes (num_src b) source w c t + INR t * h * (1 + v) ^ t.
Proof.
  intros V H HE t. induction t as [|t IH]; intros Lt.
  { cbn [seq INR pow]. rewrite lsum_nil. lra. }
  specialize (IH ltac:(lia)). specialize (HE t ltac:(lia)). rewrite seq_S, (lsum_app RTheory). cbn [Nat.add]. rewrite lsum_cons, lsum_nil.
  pose proof (computed_past M t) as CP.
  assert (E : size n (col (read_buffer 0 Rplus Rmult m (memory D M t))) = size n (pastv lg (traj M) t)).
  { apply size_ext. intros k Lk. apply read_mem. exact Lk. }
  rewrite E in HE. rewrite sent_S, S_INR. cbn [pow].
  set (F := rsum (step_error M) (seq 0 t)) in *. set (Nt := sent_sizes (num_src b) source w c t) in *.
  set (st := size (num_src b) (col (source t))) in *. assert (0 <= st) by apply size_pos.
  set (P := (1 + v) ^ t) in *. assert (P1 : 1 <= P) by (apply pow_R1_Rle; lra).
  pose proof (pos_INR t). set (q := INR t) in *.
  assert (Q1 : step_error M t <= v * (Nt + F + st) + h) by (eapply Rle_trans; [exact HE|]; apply Rplus_le_compat_r, Rmult_le_compat_l; lra).
  assert (Q2 : F + (v * (Nt + F + st) + h) <= (1 + v) * ((P - 1) * Nt + q * h * P) + v * (Nt + st) + h) by nra.
  assert (Q3 : (1 + v) * ((P - 1) * Nt + q * h * P) + v * (Nt + st) + h = ((1 + v) * P - 1) * Nt + v * st + h + q * h * ((1 + v) * P)) by ring.
  set (W := (1 + v) * P) in *.
  assert (W1 : 1 + v <= W) by (unfold W; rewrite <- (Rmult_1_r (1 + v)) at 1; apply Rmult_le_compat_l; lra).
  assert (Q4 : v * st <= (W - 1) * st) by (apply Rmult_le_compat_r; lra).
  assert (Q5 : h * 1 <= h * W) by (apply Rmult_le_compat_l; lra).
  rewrite Q3 in Q2. replace ((q + 1) * h * W) with (q * h * W + h * W) by ring.
  replace ((W - 1) * (Nt + st)) with ((W - 1) * Nt + (W - 1) * st) by ring. lra.
Qed.
End Run.
