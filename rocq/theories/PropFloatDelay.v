(** Delays in floating point numbers: C28. *)
From Coq Require Import SpecFloat ZArith Reals Lra Lia Psatz.
From Verif Require Import Base FloatModel PropFloat SFloat PropFloat64 FloatMono.
Set Implicit Arguments.
Unset Strict Implicit.
Local Open Scope R_scope.

(** binary32, time step 1: a delay just below half a step takes a step, and a delay of 8388609 steps takes
    one more. *)
Theorem C28_float_refuted :
  let one := binary_normalize 24 128 1 0 false in let d := S754_finite false 16777215 (-25) in
  value d < / 2 /\ fsteps 24 128 d one = Some 1%Z /\
  fsteps 24 128 (binary_normalize 24 128 8388609 0 false) one = Some 8388610%Z.
Proof.
  intros one d. split; [|split; vm_compute; reflexivity]. cbn [d value]. rewrite Rmult_1_l.
  apply Rlt_le_trans with (IZR (2 ^ 24) * bpow (-25)).
  - apply Rmult_lt_compat_r; [apply bpow_pos|apply IZR_lt; lia].
  - rewrite <- bpow_Z, <- bpow_add by lia. rewrite <- bpow_m1. right. reflexivity.
Qed.

Section Format.
Variables prec emax : Z.
Hypothesis prec_big : (1 < prec)%Z.
Hypothesis emax_big : (prec < emax)%Z.
Hypothesis half_exact : value (binary_normalize prec emax 1 (-1) false) = / 2.
Hypothesis half_finite : finite (binary_normalize prec emax 1 (-1) false) = true.
Notation u := (unit_error prec).
Notation rounds_to := (rounds_to prec emax).
Notation valid := (valid prec emax).

Lemma unit_small : 0 < u <= / 4.
Proof.
  split; [apply bpow_pos|]. unfold unit_error. replace (/ 4) with (bpow (-2)) by (unfold powerRZ; change (Pos.to_nat 2) with 2%nat; field).
  apply bpow_le. lia.
Qed.
Lemma factor_any r v : rounds_to r v -> finite r = true -> exists d, Rabs d <= u /\ value r = v * (1 + d).
Proof.
  intros (H & _) Hf. specialize (H Hf). destruct (Req_dec v 0) as [->|Hv].
  - exists 0. rewrite Rabs_R0 in *. rewrite Rmult_0_r in H. split; [pose proof unit_small; lra|].
    rewrite Rminus_0_r in H. assert (Rabs (value r) = 0) by (apply Rle_antisym; [exact H|apply Rabs_pos]).
    destruct (Req_dec (value r) 0) as [->|N]; [ring|]. apply Rabs_pos_lt in N. lra.
  - exists ((value r - v) / v). split; [|field; exact Hv]. unfold Rdiv. rewrite Rabs_mult, Rabs_inv.
    assert (P : 0 < Rabs v) by (apply Rabs_pos_lt; exact Hv).
    apply Rmult_le_reg_r with (Rabs v); [exact P|]. rewrite Rmult_assoc, Rinv_l by lra. lra.
Qed.
Lemma fits_any r v : rounds_to r v -> Rabs v <= largest prec emax -> finite r = true.
Proof. intros (_ & H & _) Hv. destruct (finite r); [reflexivity|]. specialize (H eq_refl). lra. Qed.
Lemma largest_any : bpow prec <= largest prec emax.
Proof.
  unfold largest. destruct (Z.eq_dec (emax - prec) 1) as [E|E].
  - rewrite E, bpow_1. replace prec with (prec - 1 + 1)%Z at 1 by lia. rewrite bpow_add, bpow_1. apply Rmult_le_compat_r; [lra|]. rewrite bpow_Z by lia. apply IZR_le.
    assert (2 ^ prec = 2 * 2 ^ (prec - 1))%Z by (rewrite <- Z.pow_succ_r by lia; f_equal; lia). pose proof (Z.pow_pos_nonneg 2 (prec - 1)). lia.
  - replace prec with (prec - 2 + 2)%Z at 1 by lia. rewrite bpow_add. apply Rmult_le_compat; [left; apply bpow_pos|left; apply bpow_pos| |apply bpow_le; lia].
    rewrite bpow_Z by lia. apply IZR_le. assert (2 ^ prec = 4 * 2 ^ (prec - 2))%Z by (change 4%Z with (2 ^ 2)%Z; rewrite <- Z.pow_add_r by lia; f_equal; lia). pose proof (Z.pow_pos_nonneg 2 (prec - 2)). lia.
Qed.

Lemma steps_any : forall delay dt, finite delay = true -> finite dt = true -> 0 <= value delay -> 0 < value dt ->
  let x := value delay / value dt in let err := u * (2 * x + 1) in x = 0 \/ bpow (2 - emax) <= x -> err < / 2 ->
  exists z, fsteps prec emax delay dt = Some z /\ Rabs (IZR z - x) <= / 2 + err /\ (forall k, Rabs (x - IZR k) < / 2 - err -> z = k).
Proof.
  intros delay dt Fd Ft Hd Ht x err Hx Herr. pose proof unit_small as U.
  assert (X0 : 0 <= x) by (apply Rmult_le_pos; [exact Hd|left; apply Rinv_0_lt_compat; exact Ht]).
  assert (UX : u * x <= / 4) by (unfold err in Herr; nra).
  assert (XB : x <= bpow (prec - 2)).
  { apply Rmult_le_reg_l with u; [lra|]. unfold unit_error at 2. rewrite <- bpow_add. replace (- prec + (prec - 2))%Z with (-2)%Z by lia.
    replace (bpow (-2)) with (/ 4) by (unfold powerRZ; change (Pos.to_nat 2) with 2%nat; field). exact UX. }
  pose proof largest_any as LB.
  assert (B2 : bpow prec = 4 * bpow (prec - 2)).
  { replace prec with (2 + (prec - 2))%Z at 1 by lia. rewrite bpow_add. f_equal. unfold powerRZ; change (Pos.to_nat 2) with 2%nat; ring. }
  assert (B1 : 1 <= bpow (prec - 2)). { apply Rle_trans with (bpow 0); [right; reflexivity|apply bpow_le; lia]. }
  assert (Rq : rounds_to (SFdiv prec emax delay dt) x).
  { apply SFloat.div_rounds; try assumption; [lra|]. fold x. rewrite Rabs_pos_eq by exact X0. destruct Hx as [Hx|Hx]; [left|right; exact Hx].
    replace (value delay) with (x * value dt) by (unfold x; field; lra). rewrite Hx. ring. }
  pose proof (rounds_valid Rq) as Vq. assert (Fq : finite (SFdiv prec emax delay dt) = true) by (apply (fits_any Rq); rewrite Rabs_pos_eq; lra).
  destruct (factor_any Rq Fq) as (a & Ha & Ea). pose proof (abs_le Ha) as Ba.
  set (h := binary_normalize prec emax 1 (-1) false) in *.
  assert (Vh : valid h) by (apply rounds_valid with (IZR 1 * bpow (-1)); apply normalize; try assumption; rewrite lowest_eq; lia).
  pose proof (@SFloat.add_rounds prec emax prec_big emax_big _ _ Vq Vh Fq half_finite) as Rs. rewrite half_exact, Ea in Rs.
  set (s := SFadd prec emax (SFdiv prec emax delay dt) h) in *.
  assert (XA : 0 <= x * (1 + a) <= 2 * x) by nra.
  assert (Fs : finite s = true) by (apply (fits_any Rs); rewrite Rabs_pos_eq; lra).
  destruct (factor_any Rs Fs) as (b & Hb & Eb). pose proof (abs_le Hb) as Bb.
  destruct (trunc_real Fs) as (z & Ez & Z1 & _). exists z. split; [exact Ez|].
  assert (S0 : 0 <= value s) by (rewrite Eb; apply Rmult_le_pos; lra). specialize (Z1 S0).
  assert (E1 : Rabs (value s - (x + / 2)) <= err).
  { rewrite Eb. replace ((x * (1 + a) + / 2) * (1 + b) - (x + / 2)) with (x * a + (x * (1 + a) + / 2) * b) by ring.
    eapply Rle_trans; [apply Rabs_triang|]. rewrite !Rabs_mult, (Rabs_pos_eq x), (Rabs_pos_eq (x * (1 + a) + / 2)) by lra.
    apply Rle_trans with (x * u + (x * (1 + u) + / 2) * u).
    - apply Rplus_le_compat; [apply Rmult_le_compat_l; lra|]. apply Rmult_le_compat; [lra|apply Rabs_pos| |exact Hb]. nra.
    - unfold err. nra. }
  pose proof (abs_le E1) as E2. split.
  - apply Rabs_le. lra.
  - intros k Hk. apply Rabs_def2 in Hk. assert (IZR k - 1 < IZR z < IZR k + 1) by lra.
    assert (k - 1 < z)%Z by (apply lt_IZR; rewrite minus_IZR; lra). assert (z < k + 1)%Z by (apply lt_IZR; rewrite plus_IZR; lra). lia.
Qed.
End Format.

(** The number of steps differs from the exact quotient [x] by at most half a step and
    [u*(2x+1)], so that it is the nearest integer unless [x] is that near to the middle of two integers; in
    particular delays of a whole number of steps are exact as long as [u*(2x+1)] is less than a half: up to
    4194302 steps in binary32. *)
Definition good_steps (prec emax : Z) : Prop := forall delay dt, finite delay = true -> finite dt = true -> 0 <= value delay -> 0 < value dt ->
  let x := value delay / value dt in let err := bpow (- prec) * (2 * x + 1) in x = 0 \/ bpow (2 - emax) <= x -> err < / 2 ->
  exists z, fsteps prec emax delay dt = Some z /\ Rabs (IZR z - x) <= / 2 + err /\ (forall k, Rabs (x - IZR k) < / 2 - err -> z = k).

Theorem C28_binary32 : good_steps 24 128.
Proof.
  intros delay dt. apply (@steps_any 24 128); try reflexivity. vm_compute binary_normalize. cbn [value]. change 8388608%Z with (2 ^ 23)%Z.
  rewrite Rmult_1_l, <- bpow_Z, <- bpow_add, <- bpow_m1 by lia. reflexivity.
Qed.
Theorem C28_binary64 : good_steps 53 1024.
Proof.
  intros delay dt. apply (@steps_any 53 1024); try reflexivity. vm_compute binary_normalize. cbn [value]. change 4503599627370496%Z with (2 ^ 52)%Z.
  rewrite Rmult_1_l, <- bpow_Z, <- bpow_add, <- bpow_m1 by lia. reflexivity.
Qed.

(** Delays of [k] steps, up to 4194302 of them, are exact in binary32. *)
Theorem C28_whole : forall delay dt k, finite delay = true -> finite dt = true -> 0 < value dt -> (0 <= k <= 4194302)%Z ->
  value delay = IZR k * value dt -> fsteps 24 128 delay dt = Some k.
Proof.
  intros delay dt k Fd Ft Ht Hk E. assert (K : 0 <= IZR k <= 4194302) by (split; apply IZR_le; lia).
  assert (X : value delay / value dt = IZR k) by (rewrite E; field; lra).
  assert (Er : bpow (- 24) * (2 * IZR k + 1) < / 2).
  { apply Rlt_le_trans with (bpow (-24) * bpow 23).
    - apply Rmult_lt_compat_l; [apply bpow_pos|]. rewrite bpow_Z by lia. rewrite <- mult_IZR, <- plus_IZR. apply IZR_lt. lia.
    - rewrite <- bpow_add, <- bpow_m1. right. reflexivity. }
  destruct (@C28_binary32 delay dt Fd Ft) as (z & Ez & _ & Hz); rewrite ?X; try assumption.
  - rewrite E. apply Rmult_le_pos; lra.
  - destruct (Z.eq_dec k 0) as [->|N]; [left; reflexivity|right]. apply Rle_trans with (bpow 0); [apply bpow_le; lia|]. apply IZR_le. lia.
  - rewrite Ez. f_equal. apply Hz. rewrite X, Rminus_diag_eq, Rabs_R0 by reflexivity. change (- (24))%Z with (-24)%Z. lra.
Qed.

(** The buffer has the length of the mask (network.py:547, 572) in every arithmetic whose rounding is
    monotone: the steps of the longest delay are the largest number of steps. *)
Definition rsteps (rnd : R -> R) (dt d : R) : Z := Int_part (rnd (rnd (d / dt) + / 2)).
Definition is_max {A} (le : A -> A -> Prop) (m : A) (l : list A) : Prop := In m l /\ forall y, In y l -> le y m.
Theorem C28_rounded_buffer : forall (rnd : R -> R) dt, (forall x y, x <= y -> rnd x <= rnd y) -> 0 < dt ->
  forall m ds, is_max Rle m ds -> is_max Z.le (rsteps rnd dt m) (map (rsteps rnd dt) ds).
Proof.
  intros rnd dt M Hdt m ds [H1 H2]. split; [apply in_map; exact H1|]. intros y Hy. apply in_map_iff in Hy as (d & <- & Hd). specialize (H2 d Hd).
  unfold rsteps. set (a := rnd (rnd (d / dt) + / 2)). set (b := rnd (rnd (m / dt) + / 2)).
  assert (a <= b). { apply M. apply Rplus_le_compat_r. apply M. apply Rmult_le_compat_r; [left; apply Rinv_0_lt_compat; exact Hdt|exact H2]. }
  destruct (base_Int_part a) as [A1 A2]. destruct (base_Int_part b) as [B1 B2].
  assert (Int_part a < Int_part b + 1)%Z; [|lia]. apply lt_IZR. rewrite plus_IZR. lra.
Qed.

(** binary32 and binary64 are such arithmetics: if the longest delay has a number of steps (no overflow), then
    all delays have, and that of the longest one is the largest of them. *)
Definition normal_quotient (emax : Z) (d dt : f64) : Prop := value d / value dt = 0 \/ bpow (2 - emax) <= value d / value dt.
Definition buffer_fits (prec emax : Z) : Prop := forall dt m ds n, finite dt = true -> 0 < value dt ->
  (forall d, In d ds -> finite d = true /\ 0 <= value d <= value m /\ normal_quotient emax d dt) -> In m ds ->
  fsteps prec emax m dt = Some n ->
  exists zs, map (fun d => fsteps prec emax d dt) ds = map Some zs /\ is_max Z.le n zs /\ forall z, In z zs -> (0 <= z)%Z.
Lemma fits_of_mono prec emax dt (m : f64) n : fsteps prec emax m dt = Some n ->
  (forall d, finite d = true -> 0 <= value d <= value m -> normal_quotient emax d dt -> exists z, fsteps prec emax d dt = Some z /\ (0 <= z <= n)%Z) ->
  forall ds, (forall d, In d ds -> finite d = true /\ 0 <= value d <= value m /\ normal_quotient emax d dt) ->
  exists zs, map (fun d => fsteps prec emax d dt) ds = map Some zs /\ (In m ds -> In n zs) /\ forall z, In z zs -> (0 <= z <= n)%Z.
Proof.
  intros E M. induction ds as [|d ds IH]; intros H; [exists []; split; [reflexivity|]; split; [auto|intros z []]|].
  destruct IH as (zs & Ezs & I & B); [intros d' Hd'; apply H; right; exact Hd'|]. destruct (H d (or_introl eq_refl)) as (F & V & Q).
  destruct (M d F V Q) as (z & Ez & Hz). exists (z :: zs). split; [cbn [map]; rewrite Ez, Ezs; reflexivity|]. split.
  - intros [->|Hm]; [left; congruence|right; auto].
  - intros y [<-|Hy]; [exact Hz|apply B; exact Hy].
Qed.
Theorem C28_buffer32 : buffer_fits 24 128.
Proof.
  intros dt m ds n Ft Ht H Hm E. destruct (H m Hm) as (Fm & Vm & Qm).
  destruct (@fits_of_mono 24 128 dt m n E) with (ds := ds) as (zs & Ezs & I & B); [|exact H|].
  - intros d F V Q. apply (@steps_mono 24 128) with (mh := 8388608%positive) (eh := (-24)%Z) (d' := m); try assumption; try reflexivity; try lra.
    change 8388608%Z with (2 ^ 23)%Z. rewrite <- bpow_Z, <- bpow_add, <- bpow_m1 by lia. reflexivity.
  - exists zs. split; [exact Ezs|]. split; [split; [apply I; exact Hm|]|]; intros z Hz; apply B in Hz; lia.
Qed.
Theorem C28_buffer64 : buffer_fits 53 1024.
Proof.
  intros dt m ds n Ft Ht H Hm E. destruct (H m Hm) as (Fm & Vm & Qm).
  destruct (@fits_of_mono 53 1024 dt m n E) with (ds := ds) as (zs & Ezs & I & B); [|exact H|].
  - intros d F V Q. apply (@steps_mono 53 1024) with (mh := 4503599627370496%positive) (eh := (-53)%Z) (d' := m); try assumption; try reflexivity; try lra.
    change 4503599627370496%Z with (2 ^ 52)%Z. rewrite <- bpow_Z, <- bpow_add, <- bpow_m1 by lia. reflexivity.
  - exists zs. split; [exact Ezs|]. split; [split; [apply I; exact Hm|]|]; intros z Hz; apply B in Hz; lia.
Qed.

(** A delay of three and a third steps: 3 steps; of two steps: 2. *)
Example C28_binary32_example : let third := S754_finite false 13981013 (-22) in let one := binary_normalize 24 128 1 0 false in
  finite third = true /\ finite one = true /\ value one = 1 /\ 3 < value third < 4 /\ fsteps 24 128 third one = Some 3%Z /\
  fsteps 24 128 (binary_normalize 24 128 2 0 false) one = Some 2%Z.
Proof.
  intros third one. assert (B : bpow (-22) * IZR (2 ^ 22) = 1) by (rewrite <- bpow_Z, <- bpow_add by lia; reflexivity). pose proof (bpow_pos (-22)).
  split; [reflexivity|]. split; [reflexivity|]. split.
  - unfold one. vm_compute binary_normalize. cbn [value]. change 8388608%Z with (2 ^ 23)%Z. rewrite Rmult_1_l, <- bpow_Z, <- bpow_add by lia. reflexivity.
  - split; [|split; vm_compute; reflexivity]. cbn [third value]. change (IZR (2 ^ 22)) with 4194304 in B. lra.
Qed.
Example C28_buffer32_example : let one := binary_normalize 24 128 1 0 false in let third := S754_finite false 13981013 (-22) in
  let ds := [S754_zero false; third; one] in
  (forall d, In d ds -> finite d = true /\ 0 <= value d <= value third /\ normal_quotient 128 d one) /\ fsteps 24 128 third one = Some 3%Z /\
  map (fun d => fsteps 24 128 d one) ds = map Some [0; 3; 1]%Z.
Proof.
  intros one third ds. destruct C28_binary32_example as (_ & _ & V1 & V3 & E3 & _). fold third one in V1, V3, E3.
  split; [|split; [exact E3|vm_compute; reflexivity]].
  assert (B : bpow (2 - 128) <= 1) by (apply Rle_trans with (bpow 0); [apply bpow_le; lia|right; reflexivity]).
  unfold normal_quotient. rewrite V1. intros d [<-|[<-|[<-|[]]]].
  - split; [reflexivity|]. change (value (S754_zero false)) with 0. split; [lra|left; unfold Rdiv; ring].
  - split; [reflexivity|]. split; [lra|right; unfold Rdiv; rewrite Rinv_1; lra].
  - split; [reflexivity|]. rewrite V1. split; [lra|right; unfold Rdiv; rewrite Rinv_1; lra].
Qed.
Example C28_rounded_buffer_example : (forall x y : R, x <= y -> x * / 2 <= y * / 2) /\ is_max Rle 3 [1; 3; 2].
Proof.
  split; [intros; lra|]. split; [cbn; auto|]. intros y [<-|[<-|[<-|[]]]]; lra.
Qed.

Print Assumptions C28_float_refuted.
Print Assumptions C28_binary32.
Print Assumptions C28_binary64.
Print Assumptions C28_whole.
Print Assumptions C28_rounded_buffer.
Print Assumptions C28_buffer32.
Print Assumptions C28_buffer64.
