(** Amplifiers in a simulated circuit. *)
From Coq Require Import QArith Reals Lia Lra RealField.
From Verif Require Import Base NetModel SimModel SimAlg SimSpec ActModel ActSpec ActProofs.
Set Implicit Arguments.
Unset Strict Implicit.
Local Open Scope R_scope.

Lemma acts_placed V (v0 : V) c off y o c' off' : acts v0 c off y o -> placed c off c' off' -> acts v0 c' off' y o.
Proof.
  intros A L. induction L as [|cs1 c' cs2 off' L IH]; [exact A|].
  rewrite acts_nested in IH. clear L. revert off' IH. induction cs1 as [|d r IHr]; intros off' H.
  - cbn [app acts_list] in H. unfold a_np. cbn. rewrite Nat.add_0_r. apply H.
  - cbn [app acts_list] in H. destruct H as [_ H]. specialize (IHr _ H).
    replace (off' + a_np (Nested (d :: r)))%nat with (off' + a_np d + a_np (Nested r))%nat; [exact IHr|].
    unfold a_np. cbn. rewrite app_length. lia.
Qed.

Lemma steps_0 e : steps e 0 = 0%nat.
Proof.
  unfold steps. destruct (e_dt e) as [[n d]|]; [|reflexivity].
  replace (if e_freq e then 0%Q else 0%Q) with 0%Q by (destruct (e_freq e); reflexivity).
  unfold long, Qdiv, Qmult, Qinv, Qplus. destruct n as [|n|n]; cbn; [reflexivity| |];
    rewrite Z.quot_small; auto; lia.
Qed.

Notation waves_R := (waves_active 0 Rplus Rmult Rminus).
Notation cadd := (cadd Rplus).
Notation csum := (lsum (0, 0) cadd).

Lemma csum_one n p (f : nat -> R * R) : (p < n)%nat -> (forall j, (j < n)%nat -> j <> p -> f j = (0, 0)) ->
  csum f (seq 0 n) = f p.
Proof.
  intros L H. pose proof (cx_ring RTheory) as CR.
  rewrite (@lsum_ext _ (0, 0) cadd _ f (fun j => if (j =? p)%nat then f j else (0, 0))).
  - transitivity (if (p <? n)%nat then f p else (0, 0)); [apply (lsum_one CR)|]. apply Nat.ltb_lt in L. rewrite L. reflexivity.
  - intros j Ij. apply in_seq in Ij. destruct (Nat.eqb_spec j p); auto. apply H; auto. lia.
Qed.

Section Amp.
Variables (e : env) (b : net R) (net : nat -> acomp fieldv) (T : nat) (src y a o : nat -> nat -> fieldv).
Variables (dt : R) (rate : nat -> R * R -> R * R -> R * R) (off : nat).
Hypothesis W : waves_R e b net T src y a o.
Hypothesis AT : amplifier_at b off.
Hypothesis LOC : forall t, (t < T)%nat -> placed (net t) 0 (soa dt (rate t)) off.
Hypothesis NS : forall t i w c, b_src b i = false -> src t i w c = (0, 0).

Lemma amp_action t : (t < T)%nat ->
  o t off = y t off /\
  (forall w c, o t (off + 1)%nat w c =
     (fst (y t (off + 1)%nat w c) + dt * fst (rate t (y t (off + 1)%nat w c) (y t off w c)),
      snd (y t (off + 1)%nat w c) + dt * snd (rate t (y t (off + 1)%nat w c) (y t off w c)))) /\
  (forall w c, o t (off + 2)%nat w c =
     (fst (y t off w c) * exp (fst (y t (off + 1)%nat w c) / 2), snd (y t off w c) * exp (snd (y t (off + 1)%nat w c) / 2))).
Proof.
  intros L. destruct (W L) as [A _]. apply (@acts_placed _ _ _ _ _ _ _ _ A) in LOC; auto.
  cbn in LOC. injection LOC as E0 E1 E2. rewrite <- !plus_n_Sm, <- !plus_n_O.
  split; [auto|]. split; intros w c.
  - rewrite <- E1. reflexivity.
  - rewrite <- E2. cbn. f_equal; f_equal; f_equal; field.
Qed.

Lemma amp_read t i w c : (t < T)%nat -> (i < 3)%nat -> (w < e_num_wl e)%nat ->
  y t (off + i)%nat w c = before 0 a (lag e b (off + i)) t (off + i)%nat w c.
Proof.
  intros L Li Lw. destruct AT as [Lb H]. destruct (H i Li) as (Hs & _ & HS & _).
  destruct (W L) as [_ Q]. destruct (@Q (off + i)%nat ltac:(lia) w c Lw) as [_ ->].
  rewrite NS by auto. change (c0 0) with (0, 0).
  rewrite (csum_one (p := (off + i)%nat)).
  - rewrite HS, Nat.eqb_refl by lia. unfold SimAlg.cadd, cmul. cbn [fst snd].
    rewrite (surjective_pairing (before _ _ _ _ _ _ _)). cbn [fst snd]. f_equal; ring.
  - lia.
  - intros j Lj N. rewrite HS by auto. apply Nat.eqb_neq in N. rewrite N. unfold cmul. cbn [fst snd]. f_equal; ring.
Qed.

Lemma amp_state t w c : (t < T)%nat -> (w < e_num_wl e)%nat ->
  y t (off + 1)%nat w c = match t with O => (0, 0) | S k => o k (off + 1)%nat w c end.
Proof.
  intros L Lw. rewrite amp_read by (auto; lia). destruct AT as [Lb H]. destruct (H 1%nat ltac:(lia)) as (Hs & Ha & HS & HD).
  destruct (HD eq_refl) as [D0 HC]. unfold lag. rewrite Ha, D0, steps_0, !orb_true_r. cbn [Nat.max].
  unfold before. destruct t as [|k]; [reflexivity|]. cbn [Nat.ltb Nat.leb Nat.sub]. rewrite Nat.sub_0_r.
  destruct (W (t := k) ltac:(lia)) as [_ Q]. destruct (@Q (off + 1)%nat ltac:(lia) w c Lw) as [-> _].
  change (c0 0) with (0, 0). rewrite (csum_one (p := (off + 1)%nat)).
  - rewrite HC, Nat.eqb_refl by lia. reflexivity.
  - lia.
  - intros j Lj N. rewrite HC by auto. apply Nat.eqb_neq in N. rewrite N. reflexivity.
Qed.

Theorem amp_gain t w c : (t < T)%nat -> (w < e_num_wl e)%nat ->
  y t (off + 1)%nat w c = gain dt rate (fun t => y t off w c) t.
Proof.
  induction t as [|t IH]; intros L Lw; rewrite amp_state by auto; [reflexivity|].
  destruct (@amp_action t ltac:(lia)) as (_ & -> & _). rewrite IH by (auto; lia). reflexivity.
Qed.
Theorem amp_out t w c : (t < T)%nat -> (w < e_num_wl e)%nat ->
  o t (off + 2)%nat w c = amplified dt rate (fun t => y t off w c) t.
Proof.
  intros L Lw. destruct (@amp_action t L) as (_ & _ & ->). rewrite amp_gain by auto. reflexivity.
Qed.
Theorem amp_reflects t w c : (t < T)%nat -> (w < e_num_wl e)%nat ->
  o t off w c = before 0 a (lag e b off) t off w c.
Proof.
  intros L Lw. destruct (@amp_action t L) as (-> & _). rewrite <- (Nat.add_0_r off). apply amp_read; auto.
Qed.
End Amp.

(** *** Start-up gain *)
Section Startup.
Variables (dt t0 startup A : R) (a : nat -> R * R).
Notation rate := (fun t => soa_dhdt startup A (t0 + INR t * dt)).
Hypothesis Hdt : 0 < dt.

Lemma startup_gain K : 0 < startup -> (forall k, (k < K)%nat -> t0 + INR k * dt < startup) -> startup <= t0 + INR K * dt ->
  forall n, gain dt rate a n = (INR (Nat.min n K) * (dt / startup) * ln A, INR (Nat.min n K) * (dt / startup) * ln A).
Proof.
  intros Hs H1 H2. induction n as [|n IH].
  - cbn. f_equal; ring.
  - cbn [gain]. rewrite IH. cbn [fst snd]. unfold soa_dhdt. cbn [fst snd].
    destruct (Rlt_dec _ _) as [R|R].
    + assert (n < K)%nat.
      { destruct (Nat.ltb_spec n K); auto. exfalso. apply le_INR in H.
        assert (INR K * dt <= INR n * dt) by (apply Rmult_le_compat_r; lra). lra. }
      rewrite !Nat.min_l by lia. rewrite S_INR. f_equal; field; lra.
    + assert (K <= n)%nat. { destruct (Nat.leb_spec K n); auto. exfalso. apply R, H1. lia. }
      rewrite !Nat.min_r by lia. f_equal; ring.
Qed.

Lemma late_gain : startup <= t0 -> forall n, gain dt rate a n = (0, 0).
Proof.
  intros H. induction n as [|n IH]; [reflexivity|]. cbn [gain]. rewrite IH. unfold soa_dhdt.
  destruct (Rlt_dec _ _) as [R|R].
  - exfalso. pose proof (pos_INR n). assert (0 <= INR n * dt) by (apply Rmult_le_pos; lra). lra.
  - cbn. f_equal; ring.
Qed.
End Startup.

(** A number of steps as in [startup_gain] exists. *)
Lemma startup_steps dt startup : 0 < dt -> 0 < startup ->
  exists K, (0 < K)%nat /\ (forall k, (k < K)%nat -> INR k * dt < startup) /\ startup <= INR K * dt.
Proof.
  intros Hd Hs. destruct (archimed (startup / dt)) as [U1 U2].
  assert (P : 0 < startup / dt) by (apply Rdiv_lt_0_compat; auto).
  assert (Z0 : (0 < up (startup / dt))%Z) by (apply lt_IZR; lra).
  set (u := up (startup / dt)) in *.
  assert (E : forall x, x < startup / dt -> x * dt < startup).
  { intros x Hx. apply Rmult_lt_compat_r with (r := dt) in Hx; auto. unfold Rdiv in Hx. rewrite Rmult_assoc, Rinv_l in Hx; lra. }
  assert (E' : forall x, startup / dt <= x -> startup <= x * dt).
  { intros x Hx. apply Rmult_le_compat_r with (r := dt) in Hx; [|lra]. unfold Rdiv in Hx. rewrite Rmult_assoc, Rinv_l in Hx; lra. }
  assert (I : forall z, (0 <= z)%Z -> INR (Z.to_nat z) = IZR z).
  { intros z Hz. rewrite INR_IZR_INZ, Z2Nat.id; auto. }
  destruct (Rle_dec (startup / dt) (IZR (u - 1))) as [L|L].
  - (* exactly [u - 1] steps *)
    exists (Z.to_nat (u - 1)).
    assert (0 < u - 1)%Z by (apply lt_IZR; lra).
    split; [lia|]. split.
    + intros k Lk. apply E.
      assert (INR k <= IZR (u - 2)).
      { rewrite <- I by lia. apply le_INR. lia. }
      rewrite minus_IZR in *. lra.
    + apply E'. rewrite I by lia. exact L.
  - exists (Z.to_nat u). split; [lia|]. split.
    + intros k Lk. apply E. assert (INR k <= IZR (u - 1)); [|lra].
      rewrite <- I by lia. apply le_INR. lia.
    + apply E'. rewrite I by lia. lra.
Qed.
