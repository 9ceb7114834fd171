(** Rounded operations are monotone. *)
From Coq Require Import SpecFloat ZArith Reals Lra Lia Psatz.
From Verif Require Import Base FloatModel PropFloat SFloat PropFloat64.
Set Implicit Arguments.
Unset Strict Implicit.
Local Open Scope R_scope.

Section Format.
Variables prec emax : Z.
Hypothesis prec_big : (1 < prec)%Z.
Hypothesis emax_big : (prec < emax)%Z.
Notation fexp := (fexp prec emax).
Notation lowest := (emin prec emax).

(** [y] is [v] rounded to the nearest number with [prec] digits, to the even one of two, without a largest number. *)
Definition near (v y : R) : Prop := exists g k, bpow (g - 1) <= v < bpow g /\ y = IZR k * bpow (fexp g)
  /\ Rabs (IZR k * bpow (fexp g) - v) <= / 2 * bpow (fexp g) /\ (Rabs (IZR k * bpow (fexp g) - v) = / 2 * bpow (fexp g) -> Z.even k = true)
  /\ 0 <= y <= bpow (fexp g + prec) /\ (fexp g = (g - prec)%Z -> bpow (g - 1) <= y).

Lemma near_mono v v' y y' : near v y -> near v' y' -> v <= v' -> y <= y'.
Proof.
  intros (g & k & [G1 G2] & E & A & T & [B0 B] & C) (g' & k' & [G1' G2'] & E' & A' & T' & [B0' B'] & C') L.
  assert (GG : (g <= g')%Z).
  { destruct (Z.le_gt_cases g g') as [H|H]; [exact H|exfalso]. assert (bpow g' <= bpow (g - 1)) by (apply bpow_le; lia). lra. }
  assert (FF : (fexp g <= fexp g')%Z) by (apply fexp_mono; exact GG).
  destruct (Z.eq_dec (fexp g) (fexp g')) as [Q|Q].
  - subst y y'. rewrite <- Q in *. pose proof (bpow_pos (fexp g)) as P. set (w := bpow (fexp g)) in *.
    destruct (Z.le_gt_cases k k') as [H|H]; [apply Rmult_le_compat_r; [lra|apply IZR_le; exact H]|exfalso].
    assert (H1 : IZR k' + 1 <= IZR k) by (rewrite <- plus_IZR; apply IZR_le; lia).
    pose proof (Rabs_between A) as A1. pose proof (Rabs_between A') as A1'.
    assert (H2 : IZR k = IZR k' + 1) by nra. assert (H3 : k = (k' + 1)%Z) by (apply eq_IZR; rewrite plus_IZR; exact H2).
    rewrite H2 in *. assert (V : v = IZR k' * w + / 2 * w) by nra. assert (V' : v' = IZR k' * w + / 2 * w) by nra.
    assert (K : Z.even k = true) by (apply T; rewrite V, Rabs_pos_eq; nra). assert (K' : Z.even k' = true) by (apply T'; rewrite V', Rabs_left; nra).
    rewrite H3, Z.even_add, K' in K. discriminate.
  - assert (fexp g' = (g' - prec)%Z) by (unfold SpecFloat.fexp in *; lia). specialize (C' H).
    eapply Rle_trans; [exact B|]. eapply Rle_trans; [|exact C']. apply bpow_le. lia.
Qed.

(** What is returned for [v]: the rounded number, or an infinity if that is too large. *)
Definition returns (r : f64) (v : R) : Prop := negative r = false /\ exists y, near v y /\ (if finite r then magnitude r = y /\ y < bpow emax else bpow emax <= y).

Lemma returns_mono r r' v v' : returns r v -> returns r' v' -> v <= v' -> finite r' = true -> finite r = true /\ magnitude r <= magnitude r'.
Proof.
  intros (_ & y & N & H) (_ & y' & N' & H') L F. rewrite F in H'. destruct H' as [E' B']. pose proof (near_mono N N' L).
  destruct (finite r); [|lra]. destruct H as [E _]. split; [reflexivity|]. lra.
Qed.

Lemma aux_returns mx ex lx x : (0 < mx)%Z -> inrec (shr_record_of_loc mx lx) x -> (ex <= fexp (Zdigits2 mx + ex))%Z ->
  returns (binary_round_aux prec emax false mx ex lx) (x * bpow ex).
Proof.
  intros Hmx Hx He. split; [exact (proj1 (@round_aux prec emax prec_big emax_big false mx ex lx x Hmx Hx He))|].
  remember (binary_round_aux prec emax false mx ex lx) as r eqn:Er. unfold binary_round_aux in Er.
  set (n := (fexp (Zdigits2 mx + ex) - ex)%Z).
  assert (Hm0 : (0 <= shr_m (shr_record_of_loc mx lx))%Z) by (destruct lx as [|[| |]]; cbn; lia).
  assert (Hm00 : shr_m (shr_record_of_loc mx lx) = mx) by (destruct lx as [|[| |]]; reflexivity).
  unfold shr_fexp at 1 in Er. change (fexp (Zdigits2 mx + ex) - ex)%Z with n in Er. destruct (@shr_in _ ex n x Hm0 Hx) as (Hm1 & E1 & Hx1 & _).
  destruct (shr (shr_record_of_loc mx lx) ex n) as [mrs e1]. cbn [fst snd] in *.
  assert (E1' : e1 = fexp (Zdigits2 mx + ex)) by lia. clear E1.
  destruct (digits_Z Hmx) as [[Dl Du] Dp]. set (d := Zdigits2 mx) in *.
  pose proof (inrec_floor Hx) as Hfl. rewrite Hm00 in Hfl.
  assert (Vl : bpow (d - 1) <= x).
  { rewrite bpow_Z by lia. apply Rle_trans with (IZR mx); [apply IZR_le; exact Dl|apply Hfl]. }
  assert (Vu : x < bpow d).
  { rewrite bpow_Z by lia. apply Rlt_le_trans with (IZR mx + 1); [apply Hfl|]. rewrite <- plus_IZR. apply IZR_le. lia. }
  destruct (round_in Hm1 Hx1) as (Rm & Rerr & Rup & Rdn & _). pose proof (round_tie Hx1) as Rt. cbv zeta in Rt.
  set (m1 := round_nearest_even (shr_m mrs) (loc_of_shr_record mrs)) in *. set (x1 := x * bpow (ex - e1)) in *.
  assert (EV : x1 * bpow e1 = x * bpow ex) by (unfold x1; apply bpow_cancel).
  assert (X53 : x1 < IZR (2 ^ prec)).
  { unfold x1. apply Rlt_le_trans with (bpow d * bpow (ex - e1)); [apply Rmult_lt_compat_r; [apply bpow_pos|exact Vu]|].
    rewrite <- bpow_add. rewrite <- bpow_Z by lia. apply bpow_le. unfold SpecFloat.fexp in E1'. lia. }
  assert (M53 : (m1 <= 2 ^ prec)%Z) by (apply Rup; lra).
  assert (E1l : (lowest <= e1)%Z) by (unfold SpecFloat.fexp in E1'; lia).
  pose proof (bpow_pos e1) as P1.
  assert (Low : e1 = (d + ex - prec)%Z -> bpow (d + ex - 1) <= IZR m1 * bpow e1).
  { intros H. assert (K : (2 ^ (prec - 1) <= m1)%Z).
    { apply Rdn. rewrite <- bpow_Z by lia. unfold x1. apply Rle_trans with (bpow (d - 1) * bpow (ex - e1)); [|apply Rmult_le_compat_r; [left; apply bpow_pos|exact Vl]].
      rewrite <- bpow_add. apply bpow_le. lia. }
    apply IZR_le in K. rewrite <- bpow_Z in K by lia. replace (d + ex - 1)%Z with (prec - 1 + e1)%Z by lia. rewrite bpow_add. apply Rmult_le_compat_r; lra. }
  assert (N : near (x * bpow ex) (IZR m1 * bpow e1)).
  { exists (d + ex)%Z, m1. rewrite <- E1'.
    assert (AB : Rabs (IZR m1 * bpow e1 - x * bpow ex) = Rabs (IZR m1 - x1) * bpow e1).
    { rewrite <- EV. replace (IZR m1 * bpow e1 - x1 * bpow e1) with ((IZR m1 - x1) * bpow e1) by ring. rewrite Rabs_mult, (Rabs_pos_eq (bpow e1)) by lra. reflexivity. }
    split.
    { replace (d + ex - 1)%Z with (d - 1 + ex)%Z by lia. rewrite !bpow_add. pose proof (bpow_pos ex). split; [apply Rmult_le_compat_r; lra|apply Rmult_lt_compat_r; lra]. }
    split; [reflexivity|]. rewrite AB. split; [apply Rmult_le_compat_r; lra|]. split; [intros H; apply Rt; apply Rmult_eq_reg_r with (bpow e1); [exact H|lra]|].
    split; [|exact Low]. split; [apply Rmult_le_pos; [apply IZR_le; exact Rm|lra]|].
    rewrite Z.add_comm, bpow_add. apply Rmult_le_compat_r; [lra|]. rewrite bpow_Z by lia. apply IZR_le. exact M53. }
  exists (IZR m1 * bpow e1). split; [exact N|].
  assert (Big : (emax - prec + 1 <= e1)%Z -> bpow emax <= IZR m1 * bpow e1).
  { intros H. assert (e1 = (d + ex - prec)%Z) by (unfold SpecFloat.fexp in E1'; rewrite lowest_eq in *; lia).
    eapply Rle_trans; [|apply Low; assumption]. apply bpow_le. lia. }
  assert (Small : (m1 < 2 ^ prec)%Z -> (e1 <= emax - prec)%Z -> IZR m1 * bpow e1 < bpow emax).
  { intros H1 H2. apply Rlt_le_trans with (bpow prec * bpow e1); [apply Rmult_lt_compat_r; [lra|]; rewrite bpow_Z by lia; apply IZR_lt; exact H1|].
    rewrite <- bpow_add. apply bpow_le. lia. }
  (* the second shift *)
  set (n2 := (fexp (Zdigits2 m1 + e1) - e1)%Z).
  unfold shr_fexp in Er. change (fexp (Zdigits2 m1 + e1) - e1)%Z with n2 in Er.
  assert (Hx2 : inrec (shr_record_of_loc m1 loc_Exact) (IZR m1)) by reflexivity.
  destruct (@shr_in (shr_record_of_loc m1 loc_Exact) e1 n2 (IZR m1) Rm Hx2) as (Hm2 & E2 & Hx2' & Hn2).
  destruct (Z.eq_dec m1 0) as [Z1|Z1].
  { assert (N2 : (n2 <= 0)%Z) by (unfold n2; rewrite Z1; cbn [Zdigits2]; unfold SpecFloat.fexp; rewrite lowest_eq in *; lia).
    specialize (Hn2 N2). destruct (shr (shr_record_of_loc m1 loc_Exact) e1 n2) as [mrs2 e2]. cbn [fst snd] in *. subst mrs2.
    cbn [shr_m shr_record_of_loc] in Er. rewrite Z1 in Er. cbv iota in Er. subst r. cbn [finite magnitude]. rewrite Z1, Rmult_0_l.
    split; [reflexivity|apply bpow_pos]. }
  assert (M1 : (0 < m1)%Z) by lia.
  destruct (Z.eq_dec m1 (2 ^ prec)) as [Z2|Z2].
  - assert (P2 : (2 ^ prec = 2 * 2 ^ (prec - 1))%Z) by (rewrite <- Z.pow_succ_r by lia; f_equal; lia).
    assert (Dg : Zdigits2 (2 ^ prec) = (prec + 1)%Z).
    { pose proof (@digits_ge (2 ^ prec) prec). pose proof (@digits_le (2 ^ prec) (prec + 1)). rewrite Z.pow_add_r in H0 by lia. lia. }
    assert (N2 : n2 = 1%Z) by (unfold n2; rewrite Z2, Dg; unfold SpecFloat.fexp; lia).
    assert (MB : IZR m1 * bpow e1 = bpow (prec + e1)) by (rewrite Z2, <- bpow_Z, bpow_add by lia; reflexivity).
    destruct (2 ^ (prec - 1))%Z as [|p|p] eqn:P1'; [lia| |lia].
    assert (S2 : shr (shr_record_of_loc m1 loc_Exact) e1 n2 = (Build_shr_record (Z.pos p) false false, (e1 + 1)%Z)) by (rewrite N2, Z2, P2; reflexivity).
    rewrite S2 in Er. cbn [shr_m] in Er. cbv iota in Er.
    assert (MV : IZR (Z.pos p) * bpow (e1 + 1) = IZR m1 * bpow e1).
    { rewrite bpow_add. rewrite bpow_1. rewrite Z2, P2, mult_IZR. ring. }
    destruct (Z.leb_spec (e1 + 1) (emax - prec)) as [HO|HO]; subst r; cbn [finite magnitude].
    + split; [exact MV|]. rewrite MB. apply bpow_lt. lia.
    + rewrite MB. apply bpow_le. lia.
  - assert (D2 : (Zdigits2 m1 <= prec)%Z) by (apply digits_le; lia).
    assert (N2 : (n2 <= 0)%Z) by (unfold n2, SpecFloat.fexp; rewrite lowest_eq in *; lia).
    specialize (Hn2 N2). destruct (shr (shr_record_of_loc m1 loc_Exact) e1 n2) as [mrs2 e2]. cbn [fst snd] in *. subst mrs2.
    replace e2 with e1 in Er by lia. cbn [shr_m shr_record_of_loc] in Er. destruct m1 as [|p|p] eqn:EM; try lia. cbv iota in Er.
    destruct (Z.leb_spec e1 (emax - prec)) as [HO|HO]; subst r; cbn [finite magnitude].
    + split; [reflexivity|]. apply Small; lia.
    + apply Big. lia.
Qed.

Lemma round_returns m e : returns (binary_round prec emax false m e) (IZR (Z.pos m) * bpow e).
Proof.
  unfold binary_round. pose proof (align prec_big m e (fexp (Z.pos (digits2_pos m) + e))) as A.
  destruct (shl_align m e (fexp (Z.pos (digits2_pos m) + e))) as [mz ez]. destruct A as (A1 & A2 & A3).
  rewrite <- A1. cbn [Zdigits2] in A3. apply aux_returns; [lia|reflexivity|]. cbn [Zdigits2]. rewrite A3. lia.
Qed.

(** The quotient of positive numbers. *)
Lemma div_returns mx ex my ey : let v := IZR (Z.pos mx) * bpow ex / (IZR (Z.pos my) * bpow ey) in bpow (2 - emax) <= v ->
  returns (SFdiv prec emax (S754_finite false mx ex) (S754_finite false my ey)) v.
Proof.
  intros v Hv. destruct (@div_shape prec emax prec_big false mx ex false my ey Hv) as (q & e' & l & x & -> & Hq0 & Hin & Hf & Ev & _).
  fold v in Ev. rewrite <- Ev. apply aux_returns; assumption.
Qed.

(** The sum of positive numbers. *)
Lemma add_returns mx ex my ey : returns (SFadd prec emax (S754_finite false mx ex) (S754_finite false my ey)) (IZR (Z.pos mx) * bpow ex + IZR (Z.pos my) * bpow ey).
Proof.
  cbn [SFadd]. pose proof (align prec_big mx ex (Z.min ex ey)) as A. pose proof (align prec_big my ey (Z.min ex ey)) as B.
  destruct (shl_align mx ex (Z.min ex ey)) as [m1 e1]. destruct (shl_align my ey (Z.min ex ey)) as [m2 e2]. cbn [fst cond_Zopp].
  destruct A as (A1 & A2 & _). destruct B as (B1 & B2 & _). replace e1 with (Z.min ex ey) in A1 by lia. replace e2 with (Z.min ex ey) in B1 by lia.
  rewrite <- A1, <- B1, <- Rmult_plus_distr_r, <- plus_IZR. change (Z.pos m1 + Z.pos m2)%Z with (Z.pos (m1 + m2)). cbn [binary_normalize]. apply round_returns.
Qed.

(** ** The steps of a delay *)
Variable mh : positive.
Variable eh : Z.
Hypothesis half_is : binary_normalize prec emax 1 (-1) false = S754_finite false mh eh.
Hypothesis half_exact : IZR (Z.pos mh) * bpow eh = / 2.
Notation half := (S754_finite false mh eh).

Lemma add_half q : negative q = false -> finite q = true -> returns (SFadd prec emax q half) (magnitude q + / 2).
Proof.
  intros Hs Hf. destruct q as [s|s| |s m e]; try discriminate; cbn [negative magnitude] in *; subst s.
  - cbn [SFadd]. rewrite Rplus_0_l, <- bpow_m1. pose proof (round_returns 1 (-1)) as H. cbn [binary_normalize] in half_is. rewrite half_is, Rmult_1_l in H. exact H.
  - rewrite <- half_exact. apply add_returns.
Qed.
Lemma value_magnitude r : negative r = false -> value r = magnitude r.
Proof. destruct r as [s|s| |s m e]; try reflexivity. cbn. intros ->. ring. Qed.
Lemma positive_shape d : finite d = true -> 0 < value d -> exists m e, d = S754_finite false m e.
Proof.
  destruct d as [s|s| |s m e]; try discriminate; cbn [value]; intros _ H; [lra|]. destruct s; [|eauto].
  assert (0 < IZR (Z.pos m) * bpow e) by (apply Rmult_lt_0_compat; [apply IZR_lt; lia|apply bpow_pos]). lra.
Qed.
Lemma magnitude_pos r : 0 <= magnitude r.
Proof. destruct r as [s|s| |s m e]; cbn [magnitude]; try lra. apply Rmult_le_pos; [apply IZR_le; lia|left; apply bpow_pos]. Qed.
Lemma trunc_finite r z : ftrunc r = Some z -> finite r = true.
Proof. destruct r; try discriminate; reflexivity. Qed.

(** The rounded quotient: a zero of any sign for a zero delay. *)
Definition quotient (q : f64) (x : R) : Prop := (x = 0 /\ exists s, q = S754_zero s) \/ returns q x.
Lemma quotient_of d dt : finite d = true -> finite dt = true -> 0 <= value d -> 0 < value dt -> let x := value d / value dt in x = 0 \/ bpow (2 - emax) <= x ->
  quotient (SFdiv prec emax d dt) x.
Proof.
  intros Fd Ft Hd Ht x Hx. destruct (positive_shape Ft Ht) as (mt & et & ->). destruct (Req_dec (value d) 0) as [Z|Z].
  - left. unfold x. rewrite Z. split; [unfold Rdiv; ring|]. destruct d as [s|s| |s m e]; try discriminate; [cbn [SFdiv]; eauto|exfalso].
    assert (0 < IZR (Z.pos m) * bpow e) by (apply Rmult_lt_0_compat; [apply IZR_lt; lia|apply bpow_pos]). cbn [value] in Z. destruct s; lra.
  - assert (Pd : 0 < value d) by lra. destruct (positive_shape Fd Pd) as (m & e & ->). right. assert (P : 0 < x) by (apply Rmult_lt_0_compat; [exact Pd|apply Rinv_0_lt_compat; exact Ht]).
    destruct Hx as [Hx|Hx]; [lra|]. unfold x in *. cbn [value] in *. rewrite !Rmult_1_l in *. apply div_returns. exact Hx.
Qed.
Lemma quotient_sum q x : quotient q x -> finite q = true -> returns (SFadd prec emax q half) (magnitude q + / 2).
Proof.
  intros [[_ (s & ->)]|(Hs & _)] Hf; [|apply add_half; assumption]. change (SFadd prec emax (S754_zero s) half) with half. cbn [magnitude].
  apply (@add_half (S754_zero false)); reflexivity.
Qed.

Lemma steps_mono d d' dt z' : finite d = true -> finite d' = true -> finite dt = true -> 0 <= value d <= value d' -> 0 < value dt ->
  (value d / value dt = 0 \/ bpow (2 - emax) <= value d / value dt) -> (value d' / value dt = 0 \/ bpow (2 - emax) <= value d' / value dt) ->
  fsteps prec emax d' dt = Some z' -> exists z, fsteps prec emax d dt = Some z /\ (0 <= z <= z')%Z.
Proof.
  intros Fd Fd' Ft [D0 D] Ht Hx Hx' E'. unfold fsteps in *. rewrite half_is in *.
  assert (X : value d / value dt <= value d' / value dt) by (apply Rmult_le_compat_r; [left; apply Rinv_0_lt_compat; exact Ht|exact D]).
  pose proof (quotient_of Fd Ft D0 Ht Hx) as Q. pose proof (quotient_of Fd' Ft (Rle_trans _ _ _ D0 D) Ht Hx') as Q'.
  set (q := SFdiv prec emax d dt) in *. set (q' := SFdiv prec emax d' dt) in *.
  assert (Fq' : finite q' = true). { apply trunc_finite in E'. destruct q' as [s|s| |s m e]; try reflexivity; discriminate. }
  assert (QQ : finite q = true /\ magnitude q <= magnitude q').
  { destruct Q as [[_ (s & ->)]|Q]; [split; [reflexivity|apply magnitude_pos]|].
    destruct Q' as [[Z' (s' & E)]|Q']; [|exact (returns_mono Q Q' X Fq')]. exfalso.
    destruct Q as (_ & y & (g & k & [G1 _] & _) & _). pose proof (bpow_pos (g - 1)). lra. }
  destruct QQ as [Fq LQ]. pose proof (quotient_sum Q Fq) as A. pose proof (quotient_sum Q' Fq') as A'.
  set (s := SFadd prec emax q half) in *. set (s' := SFadd prec emax q' half) in *.
  destruct (returns_mono A A' ltac:(lra) (trunc_finite E')) as [Fs LS].
  destruct (trunc_real Fs) as (z & Ez & Z1 & _). destruct (trunc_real (trunc_finite E')) as (w & Ew & W1 & _).
  rewrite E' in Ew. injection Ew as <-. exists z. split; [exact Ez|].
  rewrite value_magnitude in Z1 by apply A. rewrite value_magnitude in W1 by apply A'. specialize (Z1 (magnitude_pos _)). specialize (W1 (magnitude_pos _)).
  pose proof (magnitude_pos s). split; (apply Z.lt_succ_r; apply lt_IZR; rewrite succ_IZR; lra).
Qed.
End Format.
