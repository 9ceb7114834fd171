(** The division, addition and subtraction of [SpecFloat] in any precision, seen as real numbers: relative
    errors of at most [2^-prec], and no overflow below the largest number. *)
From Coq Require Import SpecFloat ZArith Reals Lra Lia Psatz.
From Verif Require Import Base FloatModel.
Set Implicit Arguments.
Unset Strict Implicit.
Local Open Scope R_scope.

Notation bpow := (powerRZ 2).
Lemma bpow_pos e : 0 < bpow e.
Proof. apply powerRZ_lt. lra. Qed.
Lemma bpow_1 : bpow 1 = 2.
Proof. unfold powerRZ. change (Pos.to_nat 1) with 1%nat. ring. Qed.
Lemma bpow_m1 : bpow (-1) = / 2.
Proof. unfold powerRZ. change (Pos.to_nat 1) with 1%nat. f_equal. ring. Qed.
Lemma bpow_add a b : bpow (a + b) = bpow a * bpow b.
Proof. apply powerRZ_add. lra. Qed.
Lemma bpow_Z n : (0 <= n)%Z -> bpow n = IZR (2 ^ n).
Proof.
  intros H. rewrite <- (Z2Nat.id n) by exact H. rewrite <- pow_powerRZ. rewrite <- pow_IZR. reflexivity.
Qed.
Lemma bpow_le a b : (a <= b)%Z -> bpow a <= bpow b.
Proof.
  intros H. replace b with (a + (b - a))%Z by lia. rewrite bpow_add. pose proof (bpow_pos a).
  assert (1 <= bpow (b - a)). { rewrite bpow_Z by lia. apply IZR_le. pose proof (Z.pow_pos_nonneg 2 (b - a)). lia. }
  nra.
Qed.
Lemma bpow_lt a b : (a < b)%Z -> bpow a < bpow b.
Proof.
  intros H. apply Rlt_le_trans with (bpow (a + 1)); [|apply bpow_le; lia]. rewrite bpow_add. pose proof (bpow_pos a).
  rewrite bpow_1. lra.
Qed.
Lemma bpow_half e : bpow (e - 1) = bpow e / 2.
Proof. replace (e - 1)%Z with (e + -1)%Z by lia. rewrite bpow_add. rewrite bpow_m1. lra. Qed.
Lemma bpow_cancel x e e' : x * bpow (e - e') * bpow e' = x * bpow e.
Proof. rewrite Rmult_assoc, <- bpow_add. do 2 f_equal. lia. Qed.

(** ** Shifting *)
(** [x] lies in the interval starting at [shr_m], at the place described by the two bits. *)
Definition inrec (mrs : shr_record) (x : R) : Prop :=
  let m := IZR (shr_m mrs) in
  match shr_r mrs, shr_s mrs with
  | false, false => x = m
  | false, true => m < x < m + / 2
  | true, false => x = m + / 2
  | true, true => m + / 2 < x < m + 1
  end.

Lemma inrec_floor mrs x : inrec mrs x -> IZR (shr_m mrs) <= x < IZR (shr_m mrs) + 1.
Proof. unfold inrec. destruct (shr_r mrs), (shr_s mrs); lra. Qed.

Lemma shr_1_in mrs x : (0 <= shr_m mrs)%Z -> inrec mrs x -> (0 <= shr_m (shr_1 mrs))%Z /\ inrec (shr_1 mrs) (x * bpow (-1)).
Proof.
  rewrite bpow_m1. destruct mrs as [[|[p|p|]|p] r s]; unfold inrec; cbn [shr_m shr_r shr_s]; intros H; [| | | |lia].
  - intros Hx. split; [cbn; lia|]. destruct r, s; cbn in *; lra.
  - intros Hx. rewrite Pos2Z.inj_xI, plus_IZR, mult_IZR in Hx. split; [cbn; lia|]. destruct r, s; cbn [shr_1 shr_m shr_r shr_s orb] in *; lra.
  - intros Hx. rewrite Pos2Z.inj_xO, mult_IZR in Hx. split; [cbn; lia|]. destruct r, s; cbn [shr_1 shr_m shr_r shr_s orb] in *; lra.
  - intros Hx. split; [cbn; lia|]. destruct r, s; cbn in *; lra.
Qed.

Lemma iter_in n : forall mrs x, (0 <= shr_m mrs)%Z -> inrec mrs x ->
  (0 <= shr_m (SpecFloat.iter_pos shr_1 n mrs))%Z /\ inrec (SpecFloat.iter_pos shr_1 n mrs) (x * bpow (- Z.pos n)).
Proof.
  induction n as [n IH|n IH|]; intros mrs x Hm Hx; cbn [SpecFloat.iter_pos].
  - destruct (shr_1_in Hm Hx) as [Hm1 Hx1]. destruct (IH _ _ Hm1 Hx1) as [Hm2 Hx2]. destruct (IH _ _ Hm2 Hx2) as [Hm3 Hx3].
    split; [exact Hm3|]. replace (x * bpow (- Z.pos n~1)) with (x * bpow (-1) * bpow (- Z.pos n) * bpow (- Z.pos n)); [exact Hx3|].
    rewrite !Rmult_assoc, <- !bpow_add. do 2 f_equal. lia.
  - destruct (IH _ _ Hm Hx) as [Hm2 Hx2]. destruct (IH _ _ Hm2 Hx2) as [Hm3 Hx3].
    split; [exact Hm3|]. replace (x * bpow (- Z.pos n~0)) with (x * bpow (- Z.pos n) * bpow (- Z.pos n)); [exact Hx3|].
    rewrite !Rmult_assoc, <- !bpow_add. do 2 f_equal. lia.
  - apply shr_1_in; assumption.
Qed.

Lemma shr_in mrs e n x : (0 <= shr_m mrs)%Z -> inrec mrs x ->
  (0 <= shr_m (fst (shr mrs e n)))%Z /\ snd (shr mrs e n) = (e + Z.max 0 n)%Z /\
  inrec (fst (shr mrs e n)) (x * bpow (e - snd (shr mrs e n))) /\ ((n <= 0)%Z -> fst (shr mrs e n) = mrs).
Proof.
  intros Hm Hx. assert (G : forall k, inrec mrs (x * bpow (k - k))) by (intros k; rewrite Z.sub_diag; cbn; rewrite Rmult_1_r; exact Hx).
  destruct n as [|n|n]; cbn [shr fst snd].
  - split; [exact Hm|]. split; [lia|]. split; [apply G|auto].
  - destruct (iter_in n Hm Hx) as [H1 H2]. split; [exact H1|]. split; [lia|]. split; [|lia].
    replace (e - (e + Z.pos n))%Z with (- Z.pos n)%Z by lia. exact H2.
  - split; [exact Hm|]. split; [lia|]. split; [apply G|auto].
Qed.

(** ** Rounding to integers *)
Lemma round_in mrs x : (0 <= shr_m mrs)%Z -> inrec mrs x ->
  let m := round_nearest_even (shr_m mrs) (loc_of_shr_record mrs) in
  (0 <= m)%Z /\ Rabs (IZR m - x) <= / 2 /\ (forall k, x <= IZR k -> (m <= k)%Z) /\ (forall k, IZR k <= x -> (k <= m)%Z) /\
  (shr_r mrs = false -> shr_s mrs = false -> IZR m = x).
Proof.
  intros Hm Hx. pose proof (inrec_floor Hx) as Hf. cbv zeta.
  assert (A : forall k, x <= IZR k -> (shr_m mrs <= k)%Z) by (intros k Hk; apply le_IZR; lra).
  assert (A' : forall k, x <= IZR k -> x <> IZR (shr_m mrs) -> (shr_m mrs + 1 <= k)%Z).
  { intros k Hk Hn. assert (IZR (shr_m mrs) < IZR k) by lra. apply lt_IZR in H. lia. }
  assert (B : forall k, IZR k <= x -> (k <= shr_m mrs)%Z).
  { intros k Hk. assert (IZR k < IZR (shr_m mrs + 1)) by (rewrite plus_IZR; lra). apply lt_IZR in H. lia. }
  destruct mrs as [m r s]. unfold inrec in Hx. cbn [shr_m shr_r shr_s] in *. destruct r, s; cbn [loc_of_shr_record round_nearest_even].
  - rewrite plus_IZR. split; [lia|]. split; [apply Rabs_le; lra|]. split; [intros k Hk; apply A'; [exact Hk|lra]|]. split; [intros k Hk; specialize (B k Hk); lia|discriminate].
  - destruct (Z.even m).
    + split; [exact Hm|]. split; [apply Rabs_le; lra|]. split; [exact A|]. split; [exact B|discriminate].
    + rewrite plus_IZR. split; [lia|]. split; [apply Rabs_le; lra|]. split; [intros k Hk; apply A'; [exact Hk|lra]|]. split; [intros k Hk; specialize (B k Hk); lia|discriminate].
  - split; [exact Hm|]. split; [apply Rabs_le; lra|]. split; [exact A|]. split; [exact B|discriminate].
  - split; [exact Hm|]. split; [apply Rabs_le; lra|]. split; [exact A|]. split; [exact B|]. intros; lra.
Qed.

(** ** Digits *)
(** Ties go to even numbers. *)
Lemma round_tie mrs x : inrec mrs x -> let m := round_nearest_even (shr_m mrs) (loc_of_shr_record mrs) in Rabs (IZR m - x) = / 2 -> Z.even m = true.
Proof.
  intros Hx. destruct mrs as [m r s]. unfold inrec in Hx. cbn [shr_m shr_r shr_s] in *. cbv zeta. destruct r, s; cbn [loc_of_shr_record round_nearest_even].
  - rewrite plus_IZR. intros H. exfalso. rewrite Rabs_pos_eq in H; lra.
  - destruct (Z.even m) eqn:E; [auto|]. intros _. rewrite Z.even_add, E. reflexivity.
  - intros H. exfalso. rewrite Rabs_left in H; lra.
  - subst x. rewrite Rminus_diag_eq, Rabs_R0 by reflexivity. lra.
Qed.

Lemma digits_pos p : (2 ^ (Z.pos (digits2_pos p) - 1) <= Z.pos p < 2 ^ Z.pos (digits2_pos p))%Z.
Proof.
  induction p as [p IH|p IH|]; cbn [digits2_pos]; [| |cbn; lia]; rewrite Pos2Z.inj_succ;
    replace (Z.succ (Z.pos (digits2_pos p)) - 1)%Z with (Z.succ (Z.pos (digits2_pos p) - 1)) by lia;
    rewrite !Z.pow_succ_r by lia; lia.
Qed.
Lemma digits_Z m : (0 < m)%Z -> (2 ^ (Zdigits2 m - 1) <= m < 2 ^ Zdigits2 m)%Z /\ (0 < Zdigits2 m)%Z.
Proof. destruct m as [|p|p]; intros H; try lia. cbn [Zdigits2]. split; [apply digits_pos|lia]. Qed.
Lemma digits_ge m k : (0 <= k)%Z -> (2 ^ k <= m)%Z -> (k + 1 <= Zdigits2 m)%Z.
Proof.
  intros Hk H. assert (Hm : (0 < m)%Z) by (pose proof (Z.pow_pos_nonneg 2 k); lia). destruct (digits_Z Hm) as [[_ H2] H3].
  destruct (Z.lt_ge_cases k (Zdigits2 m)); [lia|]. pose proof (Z.pow_le_mono_r 2 (Zdigits2 m) k). lia.
Qed.
Lemma digits_le m k : (0 < m)%Z -> (m < 2 ^ k)%Z -> (Zdigits2 m <= k)%Z.
Proof.
  intros Hm H. destruct (digits_Z Hm) as [[H1 _] H3]. destruct (Z.lt_ge_cases k (Zdigits2 m)); [|lia].
  pose proof (Z.pow_le_mono_r 2 k (Zdigits2 m - 1)). lia.
Qed.

(** ** Rounding *)
Section Format.
(** Precision and largest exponent: 53 and 1024 in binary64, 24 and 128 in binary32. *)
Variables prec emax : Z.
Hypothesis prec_big : (1 < prec)%Z.
Hypothesis emax_big : (prec < emax)%Z.
Notation lowest := (emin prec emax).
Lemma lowest_eq : lowest = (3 - emax - prec)%Z.
Proof. reflexivity. Qed.

Definition magnitude (x : f64) : R := match x with S754_finite _ m e => IZR (Z.pos m) * bpow e | _ => 0 end.
Definition negative (x : f64) : bool := match x with S754_finite s _ _ | S754_zero s | S754_infinity s => s | S754_nan => false end.
(** The value of a number. *)
Definition value (x : f64) : R := match x with S754_finite s m e => (if s then -1 else 1) * (IZR (Z.pos m) * bpow e) | _ => 0 end.
Definition finite (x : f64) : bool := match x with S754_finite _ _ _ | S754_zero _ => true | _ => false end.
(** The largest number. *)
Definition largest : R := IZR (2 ^ prec - 1) * bpow (emax - prec).

(** The unit of rounding errors. *)
Definition unit_error : R := bpow (- prec).

Lemma round_aux sx mx ex lx x : (0 < mx)%Z -> inrec (shr_record_of_loc mx lx) x ->
  (ex <= fexp prec emax (Zdigits2 mx + ex))%Z ->
  let r := binary_round_aux prec emax sx mx ex lx in
  let v := x * bpow ex in
  negative r = sx /\ r <> S754_nan /\
  (finite r = true -> (lowest <= Zdigits2 mx + ex - prec)%Z \/ (lx = loc_Exact /\ lowest = ex) -> Rabs (magnitude r - v) <= unit_error * v) /\
  (finite r = false -> largest < v) /\
  (forall m e, r = S754_finite sx m e -> (Z.pos m < 2 ^ prec)%Z /\ (lowest <= e <= emax - prec)%Z).
Proof.
  intros Hmx Hx He. cbv zeta. remember (binary_round_aux prec emax sx mx ex lx) as r eqn:Er. unfold binary_round_aux in Er.
  set (n := (fexp prec emax (Zdigits2 mx + ex) - ex)%Z).
  assert (Hm0 : (0 <= shr_m (shr_record_of_loc mx lx))%Z) by (destruct lx as [|[| |]]; cbn; lia).
  assert (Hm00 : shr_m (shr_record_of_loc mx lx) = mx) by (destruct lx as [|[| |]]; reflexivity).
  unfold shr_fexp at 1 in Er. change (fexp prec emax (Zdigits2 mx + ex) - ex)%Z with n in Er. destruct (@shr_in _ ex n x Hm0 Hx) as (Hm1 & E1 & Hx1 & Hn1).
  destruct (shr (shr_record_of_loc mx lx) ex n) as [mrs e1]. cbn [fst snd] in *.
  assert (E1' : e1 = fexp prec emax (Zdigits2 mx + ex)) by lia. clear E1.
  destruct (digits_Z Hmx) as [[Dl Du] Dp]. set (d := Zdigits2 mx) in *.
  pose proof (inrec_floor Hx) as Hfl. rewrite Hm00 in Hfl.
  assert (Vl : bpow (d - 1) <= x).
  { rewrite bpow_Z by lia. apply Rle_trans with (IZR mx); [apply IZR_le; exact Dl|apply Hfl]. }
  assert (Vu : x < bpow d).
  { rewrite bpow_Z by lia. apply Rlt_le_trans with (IZR mx + 1); [apply Hfl|]. rewrite <- plus_IZR. apply IZR_le. lia. }
  destruct (round_in Hm1 Hx1) as (Rm & Rerr & Rup & Rdn & Rex).
  set (m1 := round_nearest_even (shr_m mrs) (loc_of_shr_record mrs)) in *. set (x1 := x * bpow (ex - e1)) in *.
  assert (EV : x1 * bpow e1 = x * bpow ex) by (unfold x1; apply bpow_cancel).
  assert (X53 : x1 < IZR (2 ^ prec)).
  { unfold x1. apply Rlt_le_trans with (bpow d * bpow (ex - e1)); [apply Rmult_lt_compat_r; [apply bpow_pos|exact Vu]|].
    rewrite <- bpow_add. change (IZR (2 ^ prec)) with (IZR (2 ^ prec)). rewrite <- bpow_Z by lia. apply bpow_le. unfold fexp in E1'. lia. }
  assert (M53 : (m1 <= 2 ^ prec)%Z) by (apply Rup; lra).
  assert (E1l : (lowest <= e1)%Z) by (unfold fexp in E1'; lia).
  (* the error *)
  assert (Err : (lowest <= d + ex - prec)%Z \/ (lx = loc_Exact /\ lowest = ex) -> Rabs (IZR m1 * bpow e1 - x * bpow ex) <= unit_error * (x * bpow ex)).
  { intros HC. rewrite <- EV. replace (IZR m1 * bpow e1 - x1 * bpow e1) with ((IZR m1 - x1) * bpow e1) by ring.
    rewrite Rabs_mult, (Rabs_pos_eq (bpow e1)) by (left; apply bpow_pos). destruct (Z.le_gt_cases lowest (d + ex - prec)) as [HC'|HC'].
    - assert (E1e : e1 = (d + ex - prec)%Z) by (unfold fexp in E1'; lia).
      apply Rle_trans with (/ 2 * bpow e1); [apply Rmult_le_compat_r; [left; apply bpow_pos|exact Rerr]|].
      rewrite EV. apply Rle_trans with (unit_error * (bpow (d - 1) * bpow ex)).
      + unfold unit_error. rewrite <- !bpow_add. rewrite E1e. replace (- prec + (d - 1 + ex))%Z with (d + ex - prec - 1)%Z by lia. rewrite bpow_half. lra.
      + apply Rmult_le_compat_l; [left; apply bpow_pos|]. apply Rmult_le_compat_r; [left; apply bpow_pos|exact Vl].
    - destruct HC as [HC|[-> HC]]; [lia|]. assert (E1e : e1 = lowest) by (unfold fexp in E1'; lia).
      assert (Hn : (n <= 0)%Z) by (unfold n; lia). specialize (Hn1 Hn). subst mrs. cbn in Rex.
      assert (Z0 : IZR m1 = x1) by (apply Rex; reflexivity). rewrite Z0, Rminus_diag_eq, Rabs_R0, Rmult_0_l by reflexivity.
      apply Rmult_le_pos; [left; apply bpow_pos|]. rewrite EV. apply Rmult_le_pos; [|left; apply bpow_pos].
      apply Rle_trans with (bpow (d - 1)); [left; apply bpow_pos|exact Vl]. }
  (* overflow *)
  assert (Over : (emax - prec + 1 <= e1)%Z \/ (e1 = (emax - prec)%Z /\ m1 = (2 ^ prec)%Z) -> largest < x * bpow ex).
  { unfold largest. intros [HO|[HO HM]].
    - apply Rlt_le_trans with (bpow (prec + (emax - prec))).
      + rewrite bpow_add. apply Rmult_lt_compat_r; [apply bpow_pos|]. rewrite bpow_Z by lia. apply IZR_lt. lia.
      + apply Rle_trans with (bpow (d - 1) * bpow ex).
        * rewrite <- bpow_add. apply bpow_le. unfold fexp in E1'. rewrite lowest_eq in *. lia.
        * apply Rmult_le_compat_r; [left; apply bpow_pos|exact Vl].
    - rewrite <- EV, HO. apply Rmult_lt_compat_r; [apply bpow_pos|].
      apply Rnot_le_lt. intros HL. apply Rup in HL. lia. }
  (* the second shift *)
  set (n2 := (fexp prec emax (Zdigits2 m1 + e1) - e1)%Z).
  unfold shr_fexp in Er. change (fexp prec emax (Zdigits2 m1 + e1) - e1)%Z with n2 in Er.
  assert (Hx2 : inrec (shr_record_of_loc m1 loc_Exact) (IZR m1)) by reflexivity.
  destruct (@shr_in (shr_record_of_loc m1 loc_Exact) e1 n2 (IZR m1) Rm Hx2) as (Hm2 & E2 & Hx2' & Hn2).
  destruct (Z.eq_dec m1 0) as [Z1|Z1].
  { assert (N2 : (n2 <= 0)%Z) by (unfold n2; rewrite Z1; cbn [Zdigits2]; unfold fexp; rewrite lowest_eq in *; lia).
    specialize (Hn2 N2). destruct (shr (shr_record_of_loc m1 loc_Exact) e1 n2) as [mrs2 e2]. cbn [fst snd] in *. subst mrs2.
    cbn [shr_m shr_record_of_loc] in Er. rewrite Z1 in Er. cbv iota in Er. subst r. cbn [negative finite magnitude]. split; [reflexivity|]. split; [discriminate|].
    split; [|split; discriminate]. intros _ HC. specialize (Err HC). rewrite Z1, Rmult_0_l in Err. exact Err. }
  assert (M1 : (0 < m1)%Z) by lia.
  destruct (Z.eq_dec m1 (2 ^ prec)) as [Z2|Z2].
  - (* a carry *)
    assert (P2 : (2 ^ prec = 2 * 2 ^ (prec - 1))%Z) by (rewrite <- Z.pow_succ_r by lia; f_equal; lia).
    assert (Dg : Zdigits2 (2 ^ prec) = (prec + 1)%Z).
    { pose proof (@digits_ge (2 ^ prec) prec). pose proof (@digits_le (2 ^ prec) (prec + 1)). rewrite Z.pow_add_r in H0 by lia. lia. }
    assert (N2 : n2 = 1%Z) by (unfold n2; rewrite Z2, Dg; unfold fexp; lia).
    destruct (2 ^ (prec - 1))%Z as [|p|p] eqn:P1; [lia| |lia].
    assert (S2 : shr (shr_record_of_loc m1 loc_Exact) e1 n2 = (Build_shr_record (Z.pos p) false false, (e1 + 1)%Z)) by (rewrite N2, Z2, P2; reflexivity).
    rewrite S2 in Er. cbn [shr_m] in Er. cbv iota in Er.
    assert (MV : IZR (Z.pos p) * bpow (e1 + 1) = IZR m1 * bpow e1).
    { rewrite bpow_add. rewrite bpow_1. rewrite Z2, P2, mult_IZR. ring. }
    destruct (Z.leb_spec (e1 + 1) (emax - prec)) as [HO|HO].
    + subst r. cbn [negative finite magnitude]. rewrite MV. split; [reflexivity|]. split; [discriminate|]. split; [intros _; exact Err|]. split; [discriminate|].
      intros m e [= <- <-]. split; [lia|lia].
    + subst r. cbn [negative finite magnitude]. split; [reflexivity|]. split; [discriminate|]. split; [discriminate|]. split; [|discriminate].
      intros _. apply Over. lia.
  - assert (D2 : (Zdigits2 m1 <= prec)%Z) by (apply digits_le; lia).
    assert (N2 : (n2 <= 0)%Z) by (unfold n2, fexp; rewrite lowest_eq in *; lia).
    specialize (Hn2 N2). destruct (shr (shr_record_of_loc m1 loc_Exact) e1 n2) as [mrs2 e2]. cbn [fst snd] in *. subst mrs2.
    replace e2 with e1 in Er by lia. cbn [shr_m shr_record_of_loc] in Er. destruct m1 as [|p|p] eqn:EM; try lia. cbv iota in Er.
    destruct (Z.leb_spec e1 (emax - prec)) as [HO|HO].
    + subst r. cbn [negative finite magnitude]. split; [reflexivity|]. split; [discriminate|]. split; [intros _; exact Err|]. split; [discriminate|].
      intros m e [= <- <-]. split; [lia|lia].
    + subst r. cbn [negative finite magnitude]. split; [reflexivity|]. split; [discriminate|]. split; [discriminate|]. split; [|discriminate].
      intros _. apply Over. lia.
Qed.

(** ** Normalization *)
Lemma shift_pos_Z k m : Z.pos (shift_pos k m) = (Z.pos m * 2 ^ Z.pos k)%Z.
Proof. rewrite shift_pos_correct, Z.pow_pos_fold. lia. Qed.

Lemma digits_shift k m : Z.pos (digits2_pos (shift_pos k m)) = (Z.pos (digits2_pos m) + Z.pos k)%Z.
Proof.
  pose proof (digits_pos m) as H. set (d := Z.pos (digits2_pos m)) in *.
  assert (P : (0 < 2 ^ Z.pos k)%Z) by (apply Z.pow_pos_nonneg; lia).
  change (Z.pos (digits2_pos (shift_pos k m))) with (Zdigits2 (Z.pos (shift_pos k m))). apply Z.le_antisymm.
  - apply digits_le; [lia|]. rewrite shift_pos_Z, Z.pow_add_r by (unfold d; lia). nia.
  - assert (d - 1 + Z.pos k + 1 <= Zdigits2 (Z.pos (shift_pos k m)))%Z; [|lia].
    apply digits_ge; [unfold d; lia|]. rewrite shift_pos_Z, Z.pow_add_r by (unfold d; lia). nia.
Qed.

Lemma align m e e' : let '(m', e'') := shl_align m e e' in
  IZR (Z.pos m') * bpow e'' = IZR (Z.pos m) * bpow e /\ (e'' = Z.min e e')%Z /\ (Zdigits2 (Z.pos m') + e'' = Zdigits2 (Z.pos m) + e)%Z.
Proof.
  unfold shl_align. destruct (e' - e)%Z as [|k|k] eqn:E.
  - split; [reflexivity|]. split; [lia|reflexivity].
  - split; [reflexivity|]. split; [lia|reflexivity].
  - split; [rewrite shift_pos_Z, mult_IZR, <- bpow_Z, Rmult_assoc, <- bpow_add by lia; do 2 f_equal; lia|]. split; [lia|].
    unfold Zdigits2. rewrite digits_shift. lia.
Qed.

(** What a correctly rounded operation says about its result [r] and the exact value [v]. *)
Definition rounds_to (r : f64) (v : R) : Prop :=
  (finite r = true -> Rabs (value r - v) <= unit_error * Rabs v) /\ (finite r = false -> largest < Rabs v) /\ r <> S754_nan /\
  (forall s m e, r = S754_finite s m e -> (Z.pos m < 2 ^ prec)%Z /\ (lowest <= e <= emax - prec)%Z).

Lemma rounds_signed r s v : 0 <= v -> negative r = s -> r <> S754_nan ->
  (finite r = true -> Rabs (magnitude r - v) <= unit_error * v) -> (finite r = false -> largest < v) ->
  (forall m e, r = S754_finite s m e -> (Z.pos m < 2 ^ prec)%Z /\ (lowest <= e <= emax - prec)%Z) ->
  rounds_to r ((if s then -1 else 1) * v).
Proof.
  intros Hv Hs Hn H1 H2 H3. assert (A : Rabs ((if s then -1 else 1) * v) = v).
  { rewrite Rabs_mult, (Rabs_pos_eq v) by exact Hv. destruct s; [rewrite Rabs_left by lra; lra|rewrite Rabs_R1; lra]. }
  split; [|split; [|split]].
  - intros Hf. specialize (H1 Hf). rewrite A. destruct r as [s'|s'| |s' m e]; try discriminate; cbn [value magnitude negative] in *; subst s'.
    + destruct s; [|rewrite Rmult_1_l; exact H1]. replace (0 - -1 * v) with (- (0 - v)) by ring. rewrite Rabs_Ropp. exact H1.
    + replace ((if s then -1 else 1) * (IZR (Z.pos m) * bpow e) - (if s then -1 else 1) * v)
        with ((if s then -1 else 1) * (IZR (Z.pos m) * bpow e - v)) by ring.
      rewrite Rabs_mult. destruct s; [rewrite (Rabs_left (-1)) by lra|rewrite Rabs_R1]; lra.
  - rewrite A. exact H2.
  - exact Hn.
  - intros s' m e E. subst r. cbn in Hs. subst s'. eapply H3. reflexivity.
Qed.

Lemma fexp_mono a b : (a <= b)%Z -> (fexp prec emax a <= fexp prec emax b)%Z.
Proof. unfold fexp. lia. Qed.

Lemma round_exact s m e : (lowest <= e)%Z -> rounds_to (binary_round prec emax s m e) ((if s then -1 else 1) * (IZR (Z.pos m) * bpow e)).
Proof.
  intros He. unfold binary_round. pose proof (align m e (fexp prec emax (Z.pos (digits2_pos m) + e))) as A.
  destruct (shl_align m e (fexp prec emax (Z.pos (digits2_pos m) + e))) as [mz ez]. destruct A as (A1 & A2 & A3).
  rewrite <- A1. cbn [Zdigits2] in A3.
  assert (Hin : inrec (shr_record_of_loc (Z.pos mz) loc_Exact) (IZR (Z.pos mz))) by reflexivity.
  destruct (@round_aux s (Z.pos mz) ez loc_Exact (IZR (Z.pos mz))) as (R1 & R2 & R3 & R4 & R5); [lia|exact Hin| |].
  { cbn [Zdigits2]. rewrite A3. lia. }
  apply rounds_signed; auto.
  - apply Rmult_le_pos; [apply IZR_le; lia|left; apply bpow_pos].
  - intros Hf. apply R3; [exact Hf|]. cbn [Zdigits2]. rewrite A3. unfold fexp in A2. destruct (Z.le_gt_cases lowest (Z.pos (digits2_pos m) + e - prec)); [left; lia|right; split; [reflexivity|lia]].
Qed.

Lemma normalize m e sz : (lowest <= e)%Z -> rounds_to (binary_normalize prec emax m e sz) (IZR m * bpow e).
Proof.
  intros He. destruct m as [|m|m]; cbn [binary_normalize].
  - rewrite Rmult_0_l. split; [|split; [discriminate|split; [discriminate|discriminate]]]. intros _. cbn. rewrite Rminus_0_r, Rabs_R0. lra.
  - pose proof (@round_exact false m e He) as H. rewrite Rmult_1_l in H. exact H.
  - pose proof (@round_exact true m e He) as H. replace (IZR (Z.neg m) * bpow e) with (-1 * (IZR (Z.pos m) * bpow e)); [exact H|].
    change (Z.neg m) with (- Z.pos m)%Z. rewrite opp_IZR. ring.
Qed.

(** ** Numbers of the format *)
(** The numbers that exist: mantissas and exponents in the range of the format. *)
Definition valid (x : f64) : Prop := forall s m e, x = S754_finite s m e -> (Z.pos m < 2 ^ prec)%Z /\ (lowest <= e <= emax - prec)%Z.

Lemma rounds_valid r v : rounds_to r v -> valid r.
Proof. intros (_ & _ & _ & H). exact H. Qed.

Lemma valid_largest x : valid x -> Rabs (value x) <= largest.
Proof.
  intros H. destruct x as [s|s| |s m e]; cbn [value]; try (rewrite Rabs_R0; unfold largest; apply Rmult_le_pos; [apply IZR_le; lia|left; apply bpow_pos]).
  destruct (H s m e eq_refl) as [Hm He]. assert (P : 0 <= IZR (Z.pos m) * bpow e) by (apply Rmult_le_pos; [apply IZR_le; lia|left; apply bpow_pos]).
  rewrite Rabs_mult, (Rabs_pos_eq (IZR (Z.pos m) * bpow e)) by exact P.
  replace (Rabs (if s then -1 else 1)) with 1 by (destruct s; [rewrite Rabs_left; lra|rewrite Rabs_R1; reflexivity]). rewrite Rmult_1_l.
  unfold largest. apply Rmult_le_compat; [apply IZR_le; lia|left; apply bpow_pos|apply IZR_le; lia|apply bpow_le; lia].
Qed.

Lemma int_rounds n : rounds_to (binary_normalize prec emax n 0 false) (IZR n).
Proof.
  pose proof (@normalize n 0 false) as H. rewrite lowest_eq in H. specialize (H ltac:(lia)).
  replace (IZR n * bpow 0) with (IZR n) in H by (cbn; ring). exact H.
Qed.

Lemma sub_rounds x y : valid x -> valid y -> finite x = true -> finite y = true -> rounds_to (SFsub prec emax x y) (value x - value y).
Proof.
  intros Vx Vy Fx Fy.
  assert (Self : forall z w, valid z -> finite z = true -> w = value z -> rounds_to z w).
  { intros z w Vz Fz ->. split; [intros _; rewrite Rminus_diag_eq, Rabs_R0 by reflexivity; apply Rmult_le_pos; [left; apply bpow_pos|apply Rabs_pos]|].
    split; [congruence|]. split; [destruct z; discriminate|exact Vz]. }
  destruct x as [sx|sx| |sx mx ex]; try discriminate; destruct y as [sy|sy| |sy my ey]; try discriminate; cbn [SFsub].
  - apply Self; [|destruct (Bool.eqb sx (negb sy)); reflexivity|destruct (Bool.eqb sx (negb sy)); cbn; ring].
    intros s m e E. destruct (Bool.eqb sx (negb sy)); discriminate.
  - apply Self; [|reflexivity|destruct sy; cbn; ring]. intros s m e [= <- <- <-]. eapply Vy. reflexivity.
  - apply Self; [exact Vx|reflexivity|cbn; ring].
  - destruct (Vx _ _ _ eq_refl) as [Hmx Hex]. destruct (Vy _ _ _ eq_refl) as [Hmy Hey].
    pose proof (align mx ex (Z.min ex ey)) as A. pose proof (align my ey (Z.min ex ey)) as B.
    destruct (shl_align mx ex (Z.min ex ey)) as [m1 e1]. destruct (shl_align my ey (Z.min ex ey)) as [m2 e2]. cbn [fst].
    destruct A as (A1 & A2 & _). destruct B as (B1 & B2 & _).
    match goal with |- rounds_to (binary_normalize _ _ ?m _ _) ?v => replace v with (IZR m * bpow (Z.min ex ey)); [apply normalize; lia|] end.
    replace e1 with (Z.min ex ey) in A1 by lia. replace e2 with (Z.min ex ey) in B1 by lia.
    cbn [value]. rewrite <- A1, <- B1, minus_IZR. destruct sx, sy; cbn [cond_Zopp]; rewrite ?opp_IZR; ring.
Qed.

Lemma add_rounds x y : valid x -> valid y -> finite x = true -> finite y = true -> rounds_to (SFadd prec emax x y) (value x + value y).
Proof.
  intros Vx Vy Fx Fy.
  assert (Self : forall z w, valid z -> finite z = true -> w = value z -> rounds_to z w).
  { intros z w Vz Fz ->. split; [intros _; rewrite Rminus_diag_eq, Rabs_R0 by reflexivity; apply Rmult_le_pos; [left; apply bpow_pos|apply Rabs_pos]|].
    split; [congruence|]. split; [destruct z; discriminate|exact Vz]. }
  destruct x as [sx|sx| |sx mx ex]; try discriminate; destruct y as [sy|sy| |sy my ey]; try discriminate; cbn [SFadd].
  - apply Self; [|destruct (Bool.eqb sx sy); reflexivity|destruct (Bool.eqb sx sy); cbn; ring].
    intros s m e E. destruct (Bool.eqb sx sy); discriminate.
  - apply Self; [|reflexivity|destruct sy; cbn; ring]. intros s m e [= <- <- <-]. eapply Vy; reflexivity.
  - apply Self; [exact Vx|reflexivity|cbn; ring].
  - destruct (Vx _ _ _ eq_refl) as [Hmx Hex]. destruct (Vy _ _ _ eq_refl) as [Hmy Hey].
    pose proof (align mx ex (Z.min ex ey)) as A. pose proof (align my ey (Z.min ex ey)) as B.
    destruct (shl_align mx ex (Z.min ex ey)) as [m1 e1]. destruct (shl_align my ey (Z.min ex ey)) as [m2 e2]. cbn [fst].
    destruct A as (A1 & A2 & _). destruct B as (B1 & B2 & _).
    match goal with |- rounds_to (binary_normalize _ _ ?m _ _) ?v => replace v with (IZR m * bpow (Z.min ex ey)); [apply normalize; lia|] end.
    replace e1 with (Z.min ex ey) in A1 by lia. replace e2 with (Z.min ex ey) in B1 by lia.
    cbn [value]. rewrite <- A1, <- B1, plus_IZR. destruct sx, sy; cbn [cond_Zopp]; rewrite ?opp_IZR; ring.
Qed.

(** ** Division *)
Lemma location q r m2 l : (0 < m2)%Z -> (0 <= r < m2)%Z -> l = new_location m2 r ->
  inrec (shr_record_of_loc q l) (IZR q + IZR r / IZR m2).
Proof.
  intros Hm Hr ->. assert (Pm : 0 < IZR m2) by (apply IZR_lt; exact Hm).
  assert (Lt1 : IZR r / IZR m2 < 1). { apply Rmult_lt_reg_r with (IZR m2); [exact Pm|]. unfold Rdiv. rewrite Rmult_assoc, Rinv_l by lra. rewrite Rmult_1_r, Rmult_1_l. apply IZR_lt. lia. }
  assert (LtH : (2 * r < m2)%Z -> IZR r / IZR m2 < / 2).
  { intros H. apply IZR_lt in H. rewrite mult_IZR in H. apply Rmult_lt_reg_r with (IZR m2); [exact Pm|]. unfold Rdiv. rewrite Rmult_assoc, Rinv_l by lra. lra. }
  assert (GtH : (m2 < 2 * r)%Z -> / 2 < IZR r / IZR m2).
  { intros H. apply IZR_lt in H. rewrite mult_IZR in H. apply Rmult_lt_reg_r with (IZR m2); [exact Pm|]. unfold Rdiv. rewrite Rmult_assoc, Rinv_l by lra. lra. }
  assert (EqH : (m2 = 2 * r)%Z -> IZR r / IZR m2 = / 2).
  { intros H. apply (f_equal IZR) in H. rewrite mult_IZR in H. rewrite H. field. lra. }
  assert (Pos : (0 < r)%Z -> 0 < IZR r / IZR m2).
  { intros H. apply Rmult_lt_0_compat; [apply IZR_lt; exact H|apply Rinv_0_lt_compat; exact Pm]. }
  unfold new_location. destruct (Z.even m2) eqn:Ev.
  - unfold new_location_even. destruct (Zeq_bool r 0) eqn:Er.
    + apply Zeq_bool_eq in Er. subst r. unfold inrec. cbn. field. lra.
    + apply Zeq_bool_neq in Er. unfold inrec. destruct (Z.compare_spec (2 * r) m2) as [H|H|H]; cbn.
      * rewrite EqH by lia. lra. * specialize (LtH H). specialize (Pos ltac:(lia)). lra. * specialize (GtH H). lra.
  - unfold new_location_odd. destruct (Zeq_bool r 0) eqn:Er.
    + apply Zeq_bool_eq in Er. subst r. unfold inrec. cbn. field. lra.
    + apply Zeq_bool_neq in Er. specialize (Pos ltac:(lia)). unfold inrec. destruct (Z.compare_spec (2 * r + 1) m2) as [H|H|H]; cbn.
      * specialize (LtH ltac:(lia)). lra. * specialize (LtH ltac:(lia)). lra.
      * assert (2 * r <> m2)%Z. { intros E. rewrite <- E, Z.even_mul in Ev. discriminate. } specialize (GtH ltac:(lia)). lra.
Qed.

Lemma div_shape sx mx ex sy my ey : let v := IZR (Z.pos mx) * bpow ex / (IZR (Z.pos my) * bpow ey) in bpow (2 - emax) <= v ->
  exists q e' l x, SFdiv prec emax (S754_finite sx mx ex) (S754_finite sy my ey) = binary_round_aux prec emax (xorb sx sy) q e' l /\ (0 < q)%Z /\ inrec (shr_record_of_loc q l) x
    /\ (e' <= fexp prec emax (Zdigits2 q + e'))%Z /\ x * bpow e' = v /\ (3 - emax <= Zdigits2 q + e')%Z.
Proof.
    intros v Hv. assert (Pmx : 0 < IZR (Z.pos mx)) by (apply IZR_lt; lia). assert (Pmy : 0 < IZR (Z.pos my)) by (apply IZR_lt; lia).
    pose proof (bpow_pos ex) as Pex. pose proof (bpow_pos ey) as Pey.
    cbn [SFdiv]. unfold SFdiv_core_binary.
    set (d1 := Zdigits2 (Z.pos mx)). set (d2 := Zdigits2 (Z.pos my)). set (F := fexp prec emax (d1 + ex - (d2 + ey))).
    set (e' := Z.min F (ex - ey)). set (s := (ex - ey - e')%Z).
    assert (Hs : (0 <= s)%Z) by (unfold s, e'; lia).
    set (m' := match s with Z0 => Z.pos mx | Z.pos _ => Z.shiftl (Z.pos mx) s | Z.neg _ => 0%Z end).
    assert (Em' : m' = (Z.pos mx * 2 ^ s)%Z).
    { unfold m'. destruct s as [|p|p] eqn:Es; [cbn; lia|apply Z.shiftl_mul_pow2; lia|lia]. }
    pose proof (Z_div_mod m' (Z.pos my)) as DM. specialize (DM ltac:(lia)). destruct (Z.div_eucl m' (Z.pos my)) as [q r]. destruct DM as [DM Hr].
    destruct (digits_pos mx) as [X1 X2]. destruct (digits_pos my) as [Y1 Y2]. fold d1 in X1, X2. change (Z.pos (digits2_pos mx)) with d1 in X1, X2. change (Z.pos (digits2_pos my)) with d2 in Y1, Y2.
    assert (D1 : (1 <= d1)%Z) by (unfold d1; cbn [Zdigits2]; lia). assert (D2 : (1 <= d2)%Z) by (unfold d2; cbn [Zdigits2]; lia).
    assert (Xv : IZR q + IZR r / IZR (Z.pos my) = IZR m' / IZR (Z.pos my)).
    { rewrite DM, plus_IZR, mult_IZR. field. lra. }
    assert (Ev : (IZR q + IZR r / IZR (Z.pos my)) * bpow e' = v).
    { rewrite Xv, Em', mult_IZR, <- bpow_Z by exact Hs. unfold v, s.
      assert (E2 : bpow (ex - ey - e') * bpow e' * bpow ey = bpow ex) by (rewrite <- !bpow_add; f_equal; lia).
      apply Rmult_eq_reg_r with (IZR (Z.pos my) * bpow ey); [|apply Rgt_not_eq; nra].
      transitivity (IZR (Z.pos mx) * (bpow (ex - ey - e') * bpow e' * bpow ey)); [field; lra|]. rewrite E2. field. lra. }
    assert (Hin : inrec (shr_record_of_loc q (new_location (Z.pos my) r)) (IZR q + IZR r / IZR (Z.pos my))) by (apply location; [lia|lia|reflexivity]).
    pose proof (inrec_floor Hin) as Fl. replace (shr_m (shr_record_of_loc q (new_location (Z.pos my) r))) with q in Fl by (destruct (new_location (Z.pos my) r) as [|[| |]]; reflexivity).
    (* digits of the quotient from below *)
    assert (Dq : forall k, (e' <= k)%Z -> bpow k <= v -> (0 < q)%Z /\ (k + 1 <= Zdigits2 q + e')%Z).
    { intros k Hk HV. assert (Hq : (2 ^ (k - e') <= q)%Z).
      { assert (IZR (2 ^ (k - e')) < IZR (q + 1)).
        { rewrite <- bpow_Z by lia. rewrite plus_IZR. apply Rle_lt_trans with (IZR q + IZR r / IZR (Z.pos my)); [|apply Fl].
          apply Rmult_le_reg_r with (bpow e'); [apply bpow_pos|]. rewrite Ev, <- bpow_add. replace (k - e' + e')%Z with k by lia. exact HV. }
        apply lt_IZR in H. lia. }
      pose proof (Z.pow_pos_nonneg 2 (k - e')). split; [lia|]. pose proof (@digits_ge q (k - e') ltac:(lia) Hq). lia. }
    assert (He' : (e' <= F)%Z) by (unfold e'; lia).
    assert (Vlow : bpow (d1 + ex - (d2 + ey) - 1) <= v).
    { unfold v. apply Rmult_le_reg_r with (IZR (Z.pos my) * bpow ey); [nra|]. unfold Rdiv. rewrite Rmult_assoc, Rinv_l by nra. rewrite Rmult_1_r.
      apply Rle_trans with (bpow (d1 - 1) * bpow ex).
      - apply Rle_trans with (bpow (d1 + ex - (d2 + ey) - 1) * (bpow d2 * bpow ey)).
        + apply Rmult_le_compat_l; [left; apply bpow_pos|]. apply Rmult_le_compat_r; [lra|]. rewrite bpow_Z by lia. apply IZR_le. lia.
        + rewrite <- !bpow_add. apply bpow_le. lia.
      - apply Rmult_le_compat_r; [lra|]. rewrite bpow_Z by lia. apply IZR_le. exact X1. }
    assert (Flow : (lowest <= F)%Z) by (unfold F, fexp; lia).
    assert (Hq : (0 < q)%Z /\ (3 - emax <= Zdigits2 q + e')%Z).
    { destruct (Z.le_gt_cases e' (2 - emax)) as [H|H].
      - destruct (Dq (2 - emax)%Z H Hv). split; [assumption|lia].
      - assert (F = d1 + ex - (d2 + ey) - prec)%Z by (unfold F, fexp in *; rewrite lowest_eq in *; lia).
        destruct (Dq (d1 + ex - (d2 + ey) - 1)%Z) as [H1 H2]; [lia|exact Vlow|]. split; [exact H1|lia]. }
    destruct Hq as [Hq0 Hq1].
    exists q, e', (new_location (Z.pos my) r), (IZR q + IZR r / IZR (Z.pos my)). split; [reflexivity|]. split; [exact Hq0|]. split; [exact Hin|]. split; [|split; [exact Ev|exact Hq1]].
    destruct (Z.le_gt_cases F lowest) as [H|H]; [unfold fexp; lia|].
    assert (F = d1 + ex - (d2 + ey) - prec)%Z by (unfold F, fexp in *; lia).
    destruct (Dq (d1 + ex - (d2 + ey) - 1)%Z) as [_ H2]; [lia|exact Vlow|]. apply Z.le_trans with F; [exact He'|]. apply fexp_mono. lia.
Qed.
Lemma div_rounds x y : finite x = true -> finite y = true -> value y <> 0 ->
  (value x = 0 \/ bpow (2 - emax) <= Rabs (value x / value y)) -> rounds_to (SFdiv prec emax x y) (value x / value y).
Proof.
  intros Fx Fy Hy0 Hn. destruct y as [sy|sy| |sy my ey]; try discriminate; [exfalso; apply Hy0; reflexivity|].
  destruct x as [sx|sx| |sx mx ex]; try discriminate.
  - cbn [SFdiv value]. unfold Rdiv. rewrite Rmult_0_l. split; [|split; [discriminate|split; discriminate]].
    intros _. cbn. rewrite Rminus_0_r, Rabs_R0. lra.
  - assert (Pmx : 0 < IZR (Z.pos mx)) by (apply IZR_lt; lia). assert (Pmy : 0 < IZR (Z.pos my)) by (apply IZR_lt; lia).
    pose proof (bpow_pos ex) as Pex. pose proof (bpow_pos ey) as Pey.
    assert (EV : value (S754_finite sx mx ex) / value (S754_finite sy my ey)
                 = (if xorb sx sy then -1 else 1) * (IZR (Z.pos mx) * bpow ex / (IZR (Z.pos my) * bpow ey))).
    { cbn [value]. destruct sx, sy; cbn [xorb]; field; lra. }
    rewrite EV in *. set (v := IZR (Z.pos mx) * bpow ex / (IZR (Z.pos my) * bpow ey)) in *.
    assert (Pv : 0 < v). { unfold v. apply Rmult_lt_0_compat; [nra|apply Rinv_0_lt_compat; nra]. }
    assert (Hv : bpow (2 - emax) <= v).
    { destruct Hn as [H|H]; [exfalso; cbn [value] in H; destruct sx; nra|].
      rewrite Rabs_mult, (Rabs_pos_eq v) in H by lra. destruct (xorb sx sy); [rewrite Rabs_left in H by lra; lra|rewrite Rabs_R1 in H; lra]. }
    destruct (@div_shape sx mx ex sy my ey Hv) as (q & e' & l & x & -> & Hq0 & Hin & Hf & Ev & Hq1).
    destruct (@round_aux (xorb sx sy) q e' l x Hq0 Hin Hf) as (R1 & R2 & R3 & R4 & R5).
    fold v in Ev. rewrite Ev in R3, R4. apply rounds_signed; auto; [lra|].
    intros Hg. apply R3; [exact Hg|]. left. rewrite lowest_eq. lia.
Qed.

End Format.
