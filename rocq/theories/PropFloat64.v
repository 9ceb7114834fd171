(** The number of grid points in binary64 itself, for all numbers: C46, C47.  The quotients of the code are
    those of [FloatModel]; what they mean as real numbers is proved in [SFloat]. *)
From Coq Require Import SpecFloat ZArith Reals Lra Lia Psatz.
From Verif Require Import Base FloatModel PropFloat SFloat.
Set Implicit Arguments.
Unset Strict Implicit.
Local Open Scope R_scope.

Local Notation rounds_to := (rounds_to 53 1024).
Local Notation valid := (valid 53 1024).
Local Notation largest := (largest 53 1024).
Local Notation u64 := (unit_error 53).
Lemma sub_rounds x y : valid x -> valid y -> finite x = true -> finite y = true -> rounds_to (fsub x y) (value x - value y).
Proof. apply SFloat.sub_rounds; reflexivity. Qed.
Lemma div_rounds x y : finite x = true -> finite y = true -> value y <> 0 ->
  (value x = 0 \/ bpow (-1022) <= Rabs (value x / value y)) -> rounds_to (fdiv x y) (value x / value y).
Proof. apply (@SFloat.div_rounds 53 1024); reflexivity. Qed.
Lemma valid_largest x : valid x -> Rabs (value x) <= largest.
Proof. apply SFloat.valid_largest; reflexivity. Qed.
Lemma int_rounds n : rounds_to (fint n) (IZR n).
Proof. apply SFloat.int_rounds; reflexivity. Qed.

Lemma u64_small : 0 < u64 < / 2 ^ 52.
Proof.
  unfold unit_error. split; [apply bpow_pos|]. replace (/ 2 ^ 52) with (bpow (-52)) by reflexivity. apply bpow_lt. lia.
Qed.
Lemma u64_eq : u64 * IZR (2 ^ 53) = 1.
Proof. unfold unit_error. rewrite <- bpow_Z by lia. rewrite <- bpow_add. reflexivity. Qed.

Lemma largest_big : IZR (2 ^ 60) <= largest.
Proof.
  unfold SFloat.largest. rewrite <- bpow_Z by lia. apply Rle_trans with (1 * bpow 971); [rewrite Rmult_1_l; apply bpow_le; lia|].
  apply Rmult_le_compat_r; [left; apply bpow_pos|apply IZR_le; lia].
Qed.

Lemma one_exact : value (fint 1) = 1.
Proof.
  vm_compute fint. cbn [value]. change 4503599627370496%Z with (2 ^ 52)%Z. rewrite <- bpow_Z, <- bpow_add by lia. cbn. ring.
Qed.

Lemma factor r v : rounds_to r v -> finite r = true -> exists d, Rabs d <= u64 /\ value r = v * (1 + d).
Proof.
  intros (H & _) Hf. specialize (H Hf). destruct (Req_dec v 0) as [->|Hv].
  - exists 0. rewrite Rabs_R0 in *. rewrite Rmult_0_r in H. split; [pose proof u64_small; lra|].
    rewrite Rminus_0_r in H. assert (Rabs (value r) = 0) by (apply Rle_antisym; [exact H|apply Rabs_pos]).
    destruct (Req_dec (value r) 0) as [->|N]; [ring|]. apply Rabs_pos_lt in N. lra.
  - exists ((value r - v) / v). split; [|field; exact Hv]. unfold Rdiv. rewrite Rabs_mult, Rabs_inv.
    assert (P : 0 < Rabs v) by (apply Rabs_pos_lt; exact Hv).
    apply Rmult_le_reg_r with (Rabs v); [exact P|]. rewrite Rmult_assoc, Rinv_l by lra. lra.
Qed.

Lemma fits r v : rounds_to r v -> Rabs v <= largest -> finite r = true.
Proof. intros (_ & H & _) Hv. destruct (finite r); [reflexivity|]. specialize (H eq_refl). lra. Qed.

(** int() cuts off the digits behind the point. *)
Lemma trunc_real x : finite x = true -> exists z, ftrunc x = Some z /\
  (0 <= value x -> IZR z <= value x < IZR z + 1) /\ (value x <= 0 -> IZR z - 1 < value x <= IZR z).
Proof.
  destruct x as [s|s| |s m e]; try discriminate; intros _; cbn [ftrunc].
  - exists 0%Z. split; [reflexivity|]. cbn. lra.
  - set (v := if (0 <=? e)%Z then (Z.pos m * 2 ^ e)%Z else (Z.pos m / 2 ^ (- e))%Z).
    assert (Hv : IZR v <= IZR (Z.pos m) * bpow e < IZR v + 1).
    { unfold v. destruct (Z.leb_spec 0 e) as [H|H].
      - rewrite mult_IZR, <- bpow_Z by exact H. lra.
      - assert (P : (0 < 2 ^ (- e))%Z) by (apply Z.pow_pos_nonneg; lia).
        pose proof (Z.mul_div_le (Z.pos m) (2 ^ (- e)) P) as L. pose proof (Z.mul_succ_div_gt (Z.pos m) (2 ^ (- e)) P) as G.
        set (q := (Z.pos m / 2 ^ (- e))%Z) in *. apply IZR_le in L. assert (G' : (Z.pos m < 2 ^ (- e) * (q + 1))%Z) by lia. apply IZR_lt in G'.
        rewrite mult_IZR, <- bpow_Z in L, G' by lia. rewrite plus_IZR in G'.
        assert (E : bpow (- e) * bpow e = 1) by (rewrite <- bpow_add; replace (- e + e)%Z with 0%Z by lia; reflexivity).
        pose proof (bpow_pos e) as Pe. split.
        + apply Rle_trans with (bpow (- e) * IZR q * bpow e); [right; transitivity (bpow (- e) * bpow e * IZR q); [rewrite E; ring|ring]|].
          apply Rmult_le_compat_r; lra.
        + apply Rlt_le_trans with (bpow (- e) * (IZR q + 1) * bpow e); [apply Rmult_lt_compat_r; assumption|].
          right. transitivity (bpow (- e) * bpow e * (IZR q + 1)); [ring|rewrite E; ring]. }
    assert (P : 0 < IZR (Z.pos m) * bpow e) by (apply Rmult_lt_0_compat; [apply IZR_lt; lia|apply bpow_pos]).
    eexists. split; [reflexivity|]. fold v. cbn [value]. destruct s; [rewrite opp_IZR|]; split; intros; lra.
Qed.

Lemma abs_le x a : Rabs x <= a -> - a <= x <= a.
Proof. apply Rabs_between. Qed.

(** [num_wl=n] (or any number of points up to 2^51) with any two different ends: [n] or [n-1] points. *)
Theorem C47_binary64 : forall wl0 wl1 n, valid wl0 -> valid wl1 -> finite wl0 = true -> finite wl1 = true ->
  (0 < n <= 2 ^ 51)%Z -> let d := fsub wl1 wl0 in finite d = true ->
  bpow (-1021) <= Rabs (value d) / IZR n ->
  fcount_num wl0 wl1 n = Some n \/ fcount_num wl0 wl1 n = Some (n - 1)%Z.
Proof.
  intros wl0 wl1 n V0 V1 F0 F1 Hn d Fd Hd. pose proof u64_small as U. pose proof u64_eq as U53.
  assert (U2 : u64 < / 100) by (eapply Rlt_trans; [apply U|apply Rinv_lt_contravar; lra]).
  pose proof (sub_rounds V1 V0 F1 F0) as Rd. fold d in Rd. pose proof (rounds_valid Rd) as Vd.
  assert (N : 0 < IZR n) by (apply IZR_lt; lia). assert (N1 : 1 <= IZR n) by (apply IZR_le; lia).
  assert (N51 : IZR n <= IZR (2 ^ 51)) by (apply IZR_le; lia).
  assert (D0 : value d <> 0).
  { intros E. rewrite E, Rabs_R0 in Hd. unfold Rdiv in Hd. rewrite Rmult_0_l in Hd. pose proof (bpow_pos (-1021)). lra. }
  assert (AD : 0 < Rabs (value d)) by (apply Rabs_pos_lt; exact D0).
  (* float(n) *)
  pose proof (int_rounds n) as Rn. assert (Fn : finite (fint n) = true).
  { apply (fits Rn). rewrite Rabs_pos_eq by lra. eapply Rle_trans; [|exact largest_big]. apply IZR_le. lia. }
  destruct (factor Rn Fn) as (e0 & He0 & E0). pose proof (abs_le He0) as B0.
  assert (PN : 0 < value (fint n)). { rewrite E0. apply Rmult_lt_0_compat; lra. }
  (* the step *)
  assert (Q1 : Rabs (value d / value (fint n)) = Rabs (value d) / IZR n / (1 + e0)).
  { unfold Rdiv at 1. rewrite Rabs_mult, Rabs_inv, (Rabs_pos_eq (value (fint n))) by lra. rewrite E0. field. split; lra. }
  assert (Rs : rounds_to (fdiv d (fint n)) (value d / value (fint n))).
  { apply div_rounds; try assumption; [lra|]. right. rewrite Q1.
    apply Rmult_le_reg_r with (1 + e0); [lra|]. unfold Rdiv at 1. rewrite Rmult_assoc, Rinv_l by lra. rewrite Rmult_1_r.
    apply Rle_trans with (bpow (-1021)); [|exact Hd]. replace (-1021)%Z with (-1022 + 1)%Z by lia. rewrite bpow_add, bpow_1.
    pose proof (bpow_pos (-1022)). nra. }
  set (step := fdiv d (fint n)) in *.
  assert (Fs : finite step = true).
  { apply (fits Rs). pose proof (valid_largest Vd) as L. destruct (Z.eq_dec n 1) as [->|N2].
    - replace (value (fint 1)) with 1 by (rewrite one_exact; reflexivity). unfold Rdiv. rewrite Rinv_1, Rmult_1_r. exact L.
    - rewrite Q1. assert (2 <= IZR n) by (apply IZR_le; lia). apply Rle_trans with (Rabs (value d)); [|exact L].
      apply Rmult_le_reg_r with (IZR n * (1 + e0)); [nra|].
      replace (Rabs (value d) / IZR n / (1 + e0) * (IZR n * (1 + e0))) with (Rabs (value d)) by (field; split; lra).
      assert (G : 1 <= IZR n * (1 + e0)) by nra. rewrite <- (Rmult_1_r (Rabs (value d))) at 1. apply Rmult_le_compat_l; lra. }
  destruct (factor Rs Fs) as (e & He & E). pose proof (abs_le He) as B.
  assert (S0 : value step <> 0).
  { rewrite E. apply Rmult_integral_contrapositive_currified; [|lra]. unfold Rdiv. apply Rmult_integral_contrapositive_currified; [exact D0|]. apply Rinv_neq_0_compat. lra. }
  (* the quotient *)
  assert (EQ : value d / value step = IZR n * (1 + e0) / (1 + e)).
  { rewrite E, E0. field. repeat split; lra. }
  assert (QB : IZR n * (1 + e0) / (1 + e) <= 4 * IZR n /\ / 4 <= IZR n * (1 + e0) / (1 + e)).
  { assert (EE : IZR n * (1 + e0) / (1 + e) * (1 + e) = IZR n * (1 + e0)) by (field; lra).
    split; apply Rmult_le_reg_r with (1 + e); try lra; rewrite EE; nra. }
  assert (Rq : rounds_to (fdiv d step) (value d / value step)).
  { apply div_rounds; try assumption. right. rewrite EQ, Rabs_pos_eq by lra.
    apply Rle_trans with (/ 4); [|lra]. replace (/ 4) with (bpow (-2)) by (unfold powerRZ; change (Pos.to_nat 2) with 2%nat; field). apply bpow_le. lia. }
  set (q := fdiv d step) in *.
  assert (Fq : finite q = true).
  { apply (fits Rq). rewrite EQ, Rabs_pos_eq by lra. apply Rle_trans with (4 * IZR (2 ^ 51)); [lra|]. rewrite <- mult_IZR.
    eapply Rle_trans; [|exact largest_big]. apply IZR_le. lia. }
  destruct (factor Rq Fq) as (g & Hg & Eg). pose proof (abs_le Hg) as Bg. rewrite EQ in Eg.
  assert (Near : IZR n - 1 < value q < IZR n + 1).
  { assert (Ud : u64 = / IZR (2 ^ 53)) by (apply Rmult_eq_reg_r with (IZR (2 ^ 53)); [rewrite U53, Rinv_l by (apply Rgt_not_eq, IZR_lt; lia); reflexivity|apply Rgt_not_eq, IZR_lt; lia]).
    apply (@near u64 ltac:(lra) (IZR n) (2 * u64 + u64 * u64) (value q) e He N) with (d := e0 + g + e0 * g).
    - apply Rle_lt_trans with (IZR (2 ^ 51) * (3 * u64 + u64 * u64)); [replace (2 * u64 + u64 * u64 + u64) with (3 * u64 + u64 * u64) by ring; apply Rmult_le_compat_r; nra|].
      assert (IZR (2 ^ 51) * u64 = / 4). { replace (2 ^ 53)%Z with (4 * 2 ^ 51)%Z in U53 by reflexivity. rewrite mult_IZR in U53. lra. }
      replace (IZR (2 ^ 51) * (3 * u64 + u64 * u64)) with (IZR (2 ^ 51) * u64 * (3 + u64)) by ring. rewrite H. assert (/ 2 ^ 52 < / 100) by (apply Rinv_lt_contravar; lra). lra.
    - eapply Rle_trans; [apply Rabs_triang|]. apply Rplus_le_compat; [eapply Rle_trans; [apply Rabs_triang|lra]|].
      rewrite Rabs_mult. apply Rmult_le_compat; try apply Rabs_pos; assumption.
    - rewrite Eg. field. lra. }
  destruct (trunc_real Fq) as (z & Ez & Z1 & _).
  change (fcount_num wl0 wl1 n) with (ftrunc q). rewrite Ez.
  destruct (@count_near n z (value q) Near) as [-> | ->]; [apply Z1; lra|left; reflexivity|right; reflexivity].
Qed.

(** Any [start], [stop], [step]: when the exact number of steps [x] is at most 2^51, the code makes [z] steps
    with [|z - x| < 2]; never an exception.  (Quotients of numbers that differ by less than 2^-1022 of the step
    are left out, as is the overflow of [stop - start].) *)
Theorem C46_binary64 : forall start stop step, valid start -> valid stop -> finite start = true -> finite stop = true -> finite step = true ->
  let d := fsub stop start in finite d = true -> value step <> 0 ->
  value d = 0 \/ bpow (-1022) <= Rabs (value d / value step) ->
  let x := (value stop - value start) / value step in Rabs x <= IZR (2 ^ 51) ->
  exists z, fcount start stop step = Some z /\ Rabs (IZR z - x) < 2 /\ (0 <= x -> 0 <= IZR z < x + 1) /\ (x <= 0 -> x - 1 < IZR z <= 0).
Proof.
  intros start stop step V0 V1 F0 F1 Fs d Fd S0 Hd x Hx. pose proof u64_small as U. pose proof u64_eq as U53.
  assert (U2 : u64 < / 100) by (eapply Rlt_trans; [apply U|apply Rinv_lt_contravar; lra]).
  assert (U51 : IZR (2 ^ 51) * u64 = / 4). { replace (2 ^ 53)%Z with (4 * 2 ^ 51)%Z in U53 by reflexivity. rewrite mult_IZR in U53. lra. }
  pose proof (sub_rounds V1 V0 F1 F0) as Rd. fold d in Rd. destruct (factor Rd Fd) as (e & He & E). pose proof (abs_le He) as B.
  assert (EQ : value d / value step = x * (1 + e)) by (unfold x; rewrite E; field; exact S0).
  pose proof (@div_rounds d step Fd Fs S0 Hd) as Rq. set (q := fdiv d step) in *.
  assert (Fq : finite q = true).
  { apply (fits Rq). rewrite EQ, Rabs_mult, (Rabs_pos_eq (1 + e)) by lra. apply Rle_trans with (IZR (2 ^ 51) * 2).
    - apply Rmult_le_compat; [apply Rabs_pos|lra|exact Hx|lra].
    - rewrite <- mult_IZR. eapply Rle_trans; [|exact largest_big]. apply IZR_le. lia. }
  destruct (factor Rq Fq) as (g & Hg & Eg). pose proof (abs_le Hg) as Bg. rewrite EQ in Eg.
  destruct (trunc_real Fq) as (z & Ez & Z1 & Z2). exists z. split; [exact Ez|].
  assert (Pg : 0 < (1 + e) * (1 + g) < 1 + 3 * u64) by nra. assert (Pl : 1 - 3 * u64 < (1 + e) * (1 + g)) by nra.
  assert (Hq : Rabs (value q - x) < 1).
  { replace (value q - x) with (x * ((1 + e) * (1 + g) - 1)) by (rewrite Eg; ring). rewrite Rabs_mult.
    apply Rle_lt_trans with (IZR (2 ^ 51) * (3 * u64)).
    - apply Rmult_le_compat; [apply Rabs_pos|apply Rabs_pos|exact Hx|]. apply Rabs_le. lra.
    - replace (IZR (2 ^ 51) * (3 * u64)) with (3 * (IZR (2 ^ 51) * u64)) by ring. lra. }
  pose proof (Rabs_def2 _ _ Hq) as Hq2.
  assert (Pos : 0 <= x -> 0 <= value q). { intros H. rewrite Eg, Rmult_assoc. apply Rmult_le_pos; lra. }
  assert (Neg : x <= 0 -> value q <= 0). { intros H. rewrite Eg, Rmult_assoc. nra. }
  split; [|split].
  - apply Rabs_def1; destruct (Rle_or_lt 0 x) as [H|H]; [specialize (Z1 (Pos H))|specialize (Z2 (Neg (Rlt_le _ _ H)))|specialize (Z1 (Pos H))|specialize (Z2 (Neg (Rlt_le _ _ H)))]; lra.
  - intros H. specialize (Z1 (Pos H)). specialize (Pos H). split; [|lra]. apply IZR_le. assert (0 < z + 1)%Z by (apply lt_IZR; rewrite plus_IZR; lra). lia.
  - intros H. specialize (Z2 (Neg H)). specialize (Neg H). split; [lra|]. apply IZR_le. assert (z - 1 < 0)%Z by (apply lt_IZR; rewrite minus_IZR; lra). lia.
Qed.

(** t0=0, t1 the number nearest to n*dt and dt rounded as well: n or n-1 steps. *)
Theorem C46_binary64_grid : forall dt n stop step, 0 < dt -> (0 < n <= 2 ^ 50)%Z ->
  rounds_to stop (IZR n * dt) -> rounds_to step dt -> finite stop = true -> finite step = true ->
  fcount (fint 0) stop step = Some n \/ fcount (fint 0) stop step = Some (n - 1)%Z.
Proof.
  intros dt n stop step Hdt Hn R1 R2 F1 F2. pose proof u64_small as U. pose proof u64_eq as U53.
  assert (U2 : u64 < / 100) by (eapply Rlt_trans; [apply U|apply Rinv_lt_contravar; lra]).
  assert (U50 : IZR (2 ^ 50) * u64 = / 8). { replace (2 ^ 53)%Z with (8 * 2 ^ 50)%Z in U53 by reflexivity. rewrite mult_IZR in U53. lra. }
  assert (N : 0 < IZR n) by (apply IZR_lt; lia). assert (N1 : 1 <= IZR n) by (apply IZR_le; lia).
  assert (N50 : IZR n <= IZR (2 ^ 50)) by (apply IZR_le; lia).
  destruct (factor R1 F1) as (a & Ha & Ea). destruct (factor R2 F2) as (e & He & Ee).
  pose proof (abs_le Ha) as Ba. pose proof (abs_le He) as Be.
  assert (Fd : fsub stop (fint 0) = stop).
  { destruct stop as [s|s| |s m k]; try discriminate F1; try reflexivity. exfalso. cbn [value] in Ea.
    assert (0 < IZR n * dt * (1 + a)); [|lra]. apply Rmult_lt_0_compat; [apply Rmult_lt_0_compat; assumption|lra]. }
  assert (S0 : value step <> 0) by (rewrite Ee; apply Rgt_not_eq, Rmult_lt_0_compat; lra).
  assert (EQ : value stop / value step = IZR n * (1 + a) / (1 + e)) by (rewrite Ea, Ee; field; split; lra).
  assert (QB : IZR n * (1 + a) / (1 + e) <= 4 * IZR n /\ / 4 <= IZR n * (1 + a) / (1 + e)).
  { assert (EE : IZR n * (1 + a) / (1 + e) * (1 + e) = IZR n * (1 + a)) by (field; lra).
    split; apply Rmult_le_reg_r with (1 + e); try lra; rewrite EE; nra. }
  assert (Rq : rounds_to (fdiv stop step) (value stop / value step)).
  { apply div_rounds; try assumption. right. rewrite EQ, Rabs_pos_eq by lra.
    apply Rle_trans with (/ 4); [|lra]. replace (/ 4) with (bpow (-2)) by (unfold powerRZ; change (Pos.to_nat 2) with 2%nat; field). apply bpow_le. lia. }
  unfold fcount. rewrite Fd. set (q := fdiv stop step) in *.
  assert (Fq : finite q = true).
  { apply (fits Rq). rewrite EQ, Rabs_pos_eq by lra. apply Rle_trans with (4 * IZR (2 ^ 50)); [lra|]. rewrite <- mult_IZR.
    eapply Rle_trans; [|exact largest_big]. apply IZR_le. lia. }
  destruct (factor Rq Fq) as (g & Hg & Eg). pose proof (abs_le Hg) as Bg. rewrite EQ in Eg.
  assert (Near : IZR n - 1 < value q < IZR n + 1).
  { apply (@near u64 ltac:(lra) (IZR n) (2 * u64 + u64 * u64) (value q) e He N) with (d := a + g + a * g).
    - apply Rle_lt_trans with (IZR (2 ^ 50) * (3 * u64 + u64 * u64)); [replace (2 * u64 + u64 * u64 + u64) with (3 * u64 + u64 * u64) by ring; apply Rmult_le_compat_r; nra|].
      replace (IZR (2 ^ 50) * (3 * u64 + u64 * u64)) with (IZR (2 ^ 50) * u64 * (3 + u64)) by ring. rewrite U50. lra.
    - eapply Rle_trans; [apply Rabs_triang|]. apply Rplus_le_compat; [eapply Rle_trans; [apply Rabs_triang|lra]|].
      rewrite Rabs_mult. apply Rmult_le_compat; try apply Rabs_pos; assumption.
    - rewrite Eg. field. lra. }
  destruct (trunc_real Fq) as (z & Ez & Z1 & _). rewrite Ez.
  destruct (@count_near n z (value q) Near) as [-> | ->]; [apply Z1; lra|left; reflexivity|right; reflexivity].
Qed.

(** ** The conditions hold for the numbers of the examples. *)
Lemma lit_rounds a b : (0 < a < 2 ^ 53)%Z -> (0 < b < 2 ^ 53)%Z -> value (fint a) = IZR a -> value (fint b) = IZR b ->
  rounds_to (flit a b) (IZR a / IZR b).
Proof.
  intros Ha Hb Ea Eb. assert (Pa : 0 < IZR a) by (apply IZR_lt; lia). assert (Pb : 0 < IZR b) by (apply IZR_lt; lia).
  unfold flit. rewrite <- Ea, <- Eb. apply div_rounds.
  - apply (fits (int_rounds a)). rewrite Rabs_pos_eq by lra. eapply Rle_trans; [|exact largest_big]. apply IZR_le. lia.
  - apply (fits (int_rounds b)). rewrite Rabs_pos_eq by lra. eapply Rle_trans; [|exact largest_big]. apply IZR_le. lia.
  - rewrite Eb. lra.
  - right. rewrite Ea, Eb. assert (P : 0 < IZR a / IZR b) by (apply Rmult_lt_0_compat; [lra|apply Rinv_0_lt_compat; lra]).
    rewrite Rabs_pos_eq by lra. apply Rle_trans with (bpow (-53)); [apply bpow_le; lia|].
    apply Rmult_le_reg_r with (IZR b); [lra|]. unfold Rdiv. rewrite Rmult_assoc, Rinv_l by lra. rewrite Rmult_1_r.
    apply Rle_trans with 1; [|apply IZR_le; lia]. rewrite <- u64_eq. unfold unit_error. apply Rmult_le_compat_l; [left; apply bpow_pos|apply IZR_le; lia].
Qed.

(** dt = 0.1, t1 = 0.3: the exact number of steps is 3, the code makes 2. *)
Example C46_binary64_example : rounds_to (flit 3 10) (3 * (1 / 10)) /\ rounds_to (flit 1 10) (1 / 10) /\
  finite (flit 3 10) = true /\ finite (flit 1 10) = true /\ fcount (fint 0) (flit 3 10) (flit 1 10) = Some (3 - 1)%Z.
Proof.
  assert (E3 : value (fint 3) = 3).
  { vm_compute fint. cbn [value]. change 6755399441055744%Z with (3 * 2 ^ 51)%Z. rewrite mult_IZR, <- bpow_Z, Rmult_assoc, <- bpow_add by lia. cbn. ring. }
  assert (E10 : value (fint 10) = 10).
  { vm_compute fint. cbn [value]. change 5629499534213120%Z with (10 * 2 ^ 49)%Z. rewrite mult_IZR, <- bpow_Z, Rmult_assoc, <- bpow_add by lia. cbn. ring. }
  split; [|split; [|split; [|split]]].
  - replace (3 * (1 / 10)) with (3 / 10) by field. apply (@lit_rounds 3 10); [lia|lia|exact E3|exact E10].
  - apply (@lit_rounds 1 10); [lia|lia|exact one_exact|exact E10].
  - reflexivity.
  - reflexivity.
  - vm_compute. reflexivity.
Qed.

(** The default bounds and num_wl=51. *)
Example C47_binary64_example : let wl0 := flit 15 10000000 in let wl1 := flit 16 10000000 in
  valid wl0 /\ valid wl1 /\ finite wl0 = true /\ finite wl1 = true /\ finite (fsub wl1 wl0) = true /\
  bpow (-1021) <= Rabs (value (fsub wl1 wl0)) / IZR 51 /\ fcount_num wl0 wl1 51 = Some (51 - 1)%Z.
Proof.
  intros wl0 wl1.
  assert (V : forall x, match x with S754_finite _ m e => ((Z.pos m <? 2 ^ 53) && (-1074 <=? e) && (e <=? 971))%Z%bool | _ => true end = true -> valid x).
  { intros x H s m e ->. rewrite lowest_eq. apply andb_true_iff in H as [H H3]. apply andb_true_iff in H as [H1 H2]. lia. }
  split; [apply V; vm_compute; reflexivity|]. split; [apply V; vm_compute; reflexivity|].
  split; [vm_compute; reflexivity|]. split; [vm_compute; reflexivity|]. split; [vm_compute; reflexivity|].
  split; [|vm_compute; reflexivity].
  assert (E : exists m e, fsub wl1 wl0 = S754_finite false m e /\ (-1000 <= e)%Z).
  { vm_compute. eexists _, _. split; [reflexivity|discriminate]. }
  destruct E as (m & e & -> & He). cbn [value]. rewrite Rmult_1_l. pose proof (bpow_pos e) as P.
  assert (1 <= IZR (Z.pos m)) by (apply IZR_le; lia). rewrite Rabs_pos_eq by nra.
  apply Rmult_le_reg_r with 51; [lra|]. replace (IZR (Z.pos m) * bpow e / 51 * 51) with (IZR (Z.pos m) * bpow e) by field.
  apply Rle_trans with (1 * bpow e); [|apply Rmult_le_compat_r; lra]. rewrite Rmult_1_l.
  apply Rle_trans with (bpow (-1021) * bpow 6); [apply Rmult_le_compat_l; [left; apply bpow_pos|rewrite bpow_Z by lia; apply IZR_le; lia]|].
  rewrite <- bpow_add. apply bpow_le. lia.
Qed.

Print Assumptions C47_binary64.
Print Assumptions C46_binary64.
Print Assumptions C46_binary64_grid.
