(** Properties C57-C59, C76 and C77: filters and detectors. *)
From Coq Require Import Ring Lia QArith Reals Lra Qreals Qcanon.
From Verif Require Import Base SimModel SimAlg NNModel FilterModel FilterSpec FilterProofs FilterMore.
Set Implicit Arguments.
Unset Strict Implicit.
Local Open Scope nat_scope.

Section Generic.
Variables (K : Type) (k0 k1 : K) (kadd kmul ksub : K -> K -> K) (kopp : K -> K) (kdiv : K -> K -> K) (is0 : K -> bool).
Notation lfilter := (lfilter k0 kadd kmul ksub kdiv is0).
Notation solves := (solves k0 kadd kmul ksub).
Definition field_like := ring_theory k0 k1 kadd kmul ksub kopp (@eq K) /\
  (forall x d, is0 d = false -> kmul d (kdiv x d) = x) /\ (forall x d, is0 d = false -> kdiv (kmul d x) d = x).

(** * C57 *)
(** What [lfilter] computes: the difference equation with the numerator reversed. *)
Theorem C57_lfilter_reversed b a x : field_like -> length a = length b -> 1 <= length b <= length x -> is0 (nth 0 a k0) = false ->
  exists y, lfilter b a x = Ok y /\ solves (rev b) a x y /\ forall y', solves (rev b) a x y' -> y' = y.
Proof.
  intros (KR & D & D') Lab Lb H0. destruct (lfilter_ok KR D D' Lab Lb H0) as (y & E & S). exists y.
  split; [exact E|]. split; [exact S|]. intros y' S'. exact (solves_unique KR D' H0 S' S).
Qed.
(** For numerators that read the same backwards this is the difference equation. *)
Theorem C57_lfilter_symmetric_partial b a x : field_like -> length a = length b -> 1 <= length b <= length x -> is0 (nth 0 a k0) = false ->
  rev b = b -> exists y, lfilter b a x = Ok y /\ solves b a x y /\ forall y', solves b a x y' -> y' = y.
Proof. intros F Lab Lb H0 R. destruct (@C57_lfilter_reversed b a x F Lab Lb H0) as (y & H). rewrite R in H. eauto. Qed.
(** ... and for no others. *)
Theorem C57_symmetric_needed b a n : field_like -> length a = length b -> 1 <= length b <= n -> is0 (nth 0 a k0) = false ->
  (forall x y, length x = n -> lfilter b a x = Ok y -> solves b a x y) -> rev b = b.
Proof. intros (KR & D & D'). exact (@symmetric_needed _ _ _ _ _ _ _ _ _ KR D D' b a n). Qed.
(** Signals shorter than the filter are refused. *)
Theorem C57_short b a x : field_like -> length a = length b -> 1 <= length x < length b -> is0 (nth 0 a k0) = false ->
  lfilter b a x = Err IndexError.
Proof. intros (KR & _). exact (lfilter_short kdiv KR (b := b) (a := a) (x := x)). Qed.
(** Filters without feedback fail from order 3 on. *)
Theorem C57_fir b a0 x : 3 <= length b -> 3 <= length x -> is0 a0 = false -> lfilter b [a0] x = Err RuntimeError.
Proof. exact (@fir_fails K k0 kadd kmul ksub kdiv is0 b a0 x). Qed.
Theorem C57_zero b a0 a x : is0 a0 = true -> lfilter b (a0 :: a) x = Err ZeroDivisionError.
Proof. intros H. unfold FilterModel.lfilter. cbn [hd_error of_option bind]. rewrite H. reflexivity. Qed.
(** Empty lists are refused: of coefficients, of samples. *)
Theorem C57_refused b a a0 x : lfilter b [] x = Err IndexError /\
  (is0 a0 = false -> lfilter b (a0 :: a) [] = Err RuntimeError /\ (x <> [] -> lfilter [] (a0 :: a) x = Err IndexError)).
Proof.
  split; [reflexivity|]. intros H. unfold FilterModel.lfilter. cbn [hd_error of_option bind]. rewrite H. split; [reflexivity|].
  intros N. destruct x; [contradiction|reflexivity].
Qed.

(** * C58 *)
(** Linearity, for coefficient lists of any lengths. *)
Theorem C58_linear b a p q x x' y y' : field_like -> length x = length x' -> lfilter b a x = Ok y -> lfilter b a x' = Ok y' ->
  lfilter b a (combine_lin kadd kmul p q x x') = Ok (combine_lin kadd kmul p q y y').
Proof. intros (KR & _). exact (lfilter_linear KR p q (b := b) (a := a) (x := x) (x' := x') (y := y) (y' := y')). Qed.
(** Causality, for coefficient lists of any lengths. *)
Theorem C58_causal b a x x' y y' N : lfilter b a x = Ok y -> lfilter b a x' = Ok y' ->
  N <= length x -> N <= length x' -> firstn N x = firstn N x' -> firstn N y = firstn N y'.
Proof. exact (@lfilter_causal K k0 kadd kmul ksub kdiv is0 b a x x' y y' N). Qed.
(** Delaying the signal delays the output, for coefficient lists of the same length. *)
Theorem C58_delay_partial b a d x y : field_like -> length a = length b -> b <> [] -> lfilter b a x = Ok y ->
  lfilter b a (repeat k0 d ++ x) = Ok (repeat k0 d ++ y).
Proof. intros (KR & D & D'). exact (lfilter_delay KR D D' d (b := b) (a := a) (x := x) (y := y)). Qed.
End Generic.
Print Assumptions C57_lfilter_reversed.
Print Assumptions C57_lfilter_symmetric_partial.
Print Assumptions C57_symmetric_needed.
Print Assumptions C57_short.
Print Assumptions C57_fir.
Print Assumptions C57_zero.
Print Assumptions C57_refused.
Print Assumptions C58_linear.
Print Assumptions C58_causal.
Print Assumptions C58_delay_partial.

(** ** The rational numbers *)
Section Rational.
Definition Qcis0 (x : Qc) : bool := Qc_eq_bool x (Q2Qc 0).
Lemma Qcis0_false d : Qcis0 d = false -> d <> Q2Qc 0.
Proof. intros H ->. unfold Qcis0, Qc_eq_bool in H. destruct (Qc_eq_dec (Q2Qc 0) (Q2Qc 0)); congruence. Qed.
Lemma Qc_field : field_like (Q2Qc 0) (Q2Qc 1) Qcplus Qcmult Qcminus Qcopp Qcdiv Qcis0.
Proof.
  split; [exact Qcrt|]. split; intros x d H; apply Qcis0_false in H.
  - apply Qcmult_div_r; auto.
  - rewrite Qcmult_comm. unfold Qcdiv. rewrite <- Qcmult_assoc, Qcmult_inv_r, Qcmult_1_r; auto.
Qed.
Notation qf := (lfilter (Q2Qc 0) Qcplus Qcmult Qcminus Qcdiv Qcis0).
Notation qs := (solves (Q2Qc 0) Qcplus Qcmult Qcminus).
Definition values (r : res (list Qc)) : res (list Q) := match r with Ok y => Ok (map this y) | Err e => Err e end.
Notation "^ z" := (Q2Qc (inject_Z z)) (at level 1, format "^ z").

(** A first-order low-pass filter. *)
Example C57_lowpass : values (qf [^1; ^1] [^3; (- ^1)%Qc] [^3; ^3; ^3]) = Ok [1; (7 # 3); (25 # 9)]%Q /\ rev [^1; ^1] = [^1; ^1].
Proof. split; [vm_compute; reflexivity|reflexivity]. Qed.
Example C57_lowpass_ok : exists y, qf [^1; ^1] [^3; (- ^1)%Qc] [^3; ^3; ^3] = Ok y /\ qs [^1; ^1] [^3; (- ^1)%Qc] [^3; ^3; ^3] y.
Proof.
  destruct (@C57_lfilter_symmetric_partial _ _ _ _ _ _ _ _ _ [^1; ^1] [^3; (- ^1)%Qc] [^3; ^3; ^3] Qc_field) as (y & E & S & _);
    try reflexivity; [cbn; lia|eauto].
Qed.
(** The identity filter b = [1, 0] delays by one step instead. *)
Theorem C57_lfilter_refuted : exists b a x y, length a = length b /\ qf b a x = Ok y /\ ~ qs b a x y.
Proof.
  exists [^1; ^0], [^1; ^0], [^1; ^2; ^5]. eexists. split; [reflexivity|]. split; [vm_compute; reflexivity|].
  intros [_ H]. specialize (H 0 ltac:(cbn; lia)). revert H. vm_compute. discriminate.
Qed.
(** A denominator of another length than the numerator is silently stretched. *)
Theorem C57_lengths_refuted : exists b a x y, rev b = b /\ qf b a x = Ok y /\ ~ qs b a x y.
Proof.
  exists [^1; ^0; ^1], [^1; ^1], [^1; ^1; ^0; ^0]. eexists. split; [reflexivity|]. split; [vm_compute; reflexivity|].
  intros [_ H]. specialize (H 2 ltac:(cbn; lia)). revert H. vm_compute. discriminate.
Qed.
Example C57_short_ex : qf [^1; ^2; ^1] [^4; ^0; ^0] [^1; ^1] = Err IndexError. Proof. vm_compute. reflexivity. Qed.
Example C57_refused_ex : qf [^1] [^1] [] = Err RuntimeError /\ qf [] [^1] [^1] = Err IndexError. Proof. split; vm_compute; reflexivity. Qed.
Example C57_fir_ex : qf [^1; ^2; ^1] [^4] [^1; ^1; ^1; ^1] = Err RuntimeError. Proof. vm_compute. reflexivity. Qed.
Theorem C58_delay_refuted : exists b a d x y, qf b a x = Ok y /\
  (exists y', qf b a (repeat ^0 d ++ x) = Ok y' /\ y' <> repeat ^0 d ++ y).
Proof.
  exists [^1; ^1], [^1; ^1; ^1], 1, [^1; ^0]. eexists. split; [vm_compute; reflexivity|].
  eexists. split; [vm_compute; reflexivity|]. vm_compute. discriminate.
Qed.
Example C58_linear_ex : values (qf [^1; ^1] [^2; ^1] [^1; ^2; ^3]) = Ok [(1 # 2); (5 # 4); (15 # 8)]%Q /\
  values (qf [^1; ^1] [^2; ^1] [^0; ^1; ^0]) = Ok [0; (1 # 2); (1 # 4)]%Q /\
  values (qf [^1; ^1] [^2; ^1] [^1; ^3; ^3]) = Ok [(1 # 2); (7 # 4); (17 # 8)]%Q.
Proof. repeat split; vm_compute; reflexivity. Qed.
Example C58_delay_ex : values (qf [^1; ^1] [^2; ^1] [^0; ^0; ^1; ^2; ^3]) = Ok [0; 0; (1 # 2); (5 # 4); (15 # 8)]%Q.
Proof. vm_compute. reflexivity. Qed.
Example C58_causal_ex : values (qf [^1; ^1] [^2; ^1] [^1; ^2; ^7; ^8]) = Ok [(1 # 2); (5 # 4); (31 # 8); (89 # 16)]%Q.
Proof. vm_compute. reflexivity. Qed.
End Rational.
Print Assumptions C57_lfilter_refuted.
Print Assumptions C57_lengths_refuted.
Print Assumptions C58_delay_refuted.

(** ** The real numbers *)
Lemma R_field : field_like 0%R 1%R Rplus Rmult Rminus Ropp Rdiv Ris0.
Proof.
  split; [exact RTheory|]. split; intros x d H; unfold Ris0 in H; destruct (Req_EM_T d 0); try discriminate; field; auto.
Qed.

Section Detector.
Variable butter : Z -> Q -> res (list R * list R).
Notation detect := (detect butter).
Notation photodetect := (photodetect butter).

(** A tensor whose first dimension is not of length 2. *)
Definition not_two (sh : list nat) : Prop := match sh with [] => False | n :: _ => n <> 2 end.
Lemma to_power_id s : not_two (t_shape s) -> to_power s = Ok s.
Proof.
  unfold to_power, not_two. destruct (t_shape s) as [|n r]; [tauto|]. intros N.
  destruct (Nat.eqb_spec n 2); [contradiction|reflexivity].
Qed.
Lemma lfilter_shape b a s r : lfilter_tensor b a s = Ok r -> t_shape r = t_shape s.
Proof.
  unfold lfilter_tensor. destruct (t_shape s) as [|T sh]; [discriminate|]. destruct (filt b a (repeat 0%R T)); [|discriminate].
  intros [= <-]. reflexivity.
Qed.
Lemma detect_shape d env s sr co o rs r : detect d env s sr co o rs = Ok r ->
  exists p, to_power s = Ok p /\ t_shape r = t_shape p.
Proof.
  unfold FilterModel.detect. destruct (to_power s) as [p|]; [|discriminate]. cbn [bind].
  destruct (too_fast _ _) as [bad|]; [|discriminate]. cbn [bind].
  intros H. exists p. split; [reflexivity|]. destruct (Qeq_bool _ _).
  - injection H as <-. reflexivity.
  - destruct bad; [discriminate|]. destruct (butter _ _) as [ba|]; [|discriminate]. cbn [bind] in H.
    apply lfilter_shape in H. exact H.
Qed.

(** * C59 *)
(** Power signals, for every number of time steps but two. *)
Theorem C59_power_partial d env s sr co o rs r : not_two (t_shape s) -> detect d env s sr co o rs = Ok r -> t_shape r = t_shape s.
Proof. intros N H. destruct (detect_shape H) as (p & E & ->). rewrite to_power_id in E by auto. injection E as <-. reflexivity. Qed.
(** Complex signals: the time axis is kept whatever its length. *)
Theorem C59_complex d env s T sh sr co o rs r : t_shape s = 2 :: T :: sh -> detect d env s sr co o rs = Ok r -> t_shape r = T :: sh.
Proof.
  intros E H. destruct (detect_shape H) as (p & Ep & ->). unfold to_power in Ep. rewrite E in Ep. cbn in Ep. injection Ep as <-. reflexivity.
Qed.
Theorem C59_photo_power_partial d dk ld env s rn sr co o rs dk' ld' r : not_two (t_shape s) ->
  photodetect d dk ld env s rn sr co o rs dk' ld' = Ok r -> t_shape r = t_shape s.
Proof.
  intros N H. unfold FilterModel.photodetect in H. rewrite to_power_id in H by auto. cbn [bind] in H.
  apply C59_power_partial in H; exact H || exact N.
Qed.
(** In a photodetector also for complex signals only when there are not exactly two time steps. *)
Theorem C59_photo_complex_partial d dk ld env s T sh rn sr co o rs dk' ld' r : t_shape s = 2 :: T :: sh -> T <> 2 ->
  photodetect d dk ld env s rn sr co o rs dk' ld' = Ok r -> t_shape r = T :: sh.
Proof.
  intros E N H. unfold FilterModel.photodetect in H. unfold to_power in H at 1. rewrite E in H. cbn [Nat.eqb bind] in H.
  apply C59_power_partial in H; [exact H|exact N].
Qed.
(** Two time steps: the time axis is lost, whatever the rest. *)
Theorem C59_two d env s sh sr co o rs r : t_shape s = 2 :: sh -> detect d env s sr co o rs = Ok r -> t_shape r = sh.
Proof.
  intros E H. destruct (detect_shape H) as (p & Ep & ->). unfold to_power in Ep. rewrite E in Ep. cbn in Ep. injection Ep as <-. reflexivity.
Qed.
Theorem C59_photo_two d dk ld env s sh rn sr co o rs dk' ld' r : t_shape s = 2 :: 2 :: sh ->
  photodetect d dk ld env s rn sr co o rs dk' ld' = Ok r -> t_shape r = sh.
Proof.
  intros E H. unfold FilterModel.photodetect in H. unfold to_power in H at 1. rewrite E in H. cbn [Nat.eqb bind] in H.
  apply C59_two with (sh := sh) in H; [exact H|reflexivity].
Qed.

(** The values: every column of the output solves the difference equation of the filter that
    [butter] designs, driven by responsivity times power. *)
Theorem C59_filtered d env s p T sh sr co o rs b a :
  let rate' := rate sr env (d_samplerate d) in
  let cut' := match co with Some c => c | None => d_cutoff d end in
  let n := match o with Some o => rint o | None => d_order d end in
  let resp := match rs with Some r => r | None => d_resp d end in
  ~ rate' == 0 -> (2 * cut' / rate' < 1)%Q ->
  butter n (2 * cut' / rate') = Ok (b, a) -> length a = length b -> rev b = b -> 1 <= length b <= T -> nth 0 a 0%R <> 0%R ->
  to_power s = Ok p -> t_shape p = T :: sh ->
  exists r, detect d env s sr co o rs = Ok r /\ t_shape r = T :: sh /\
    forall i, solves 0%R Rplus Rmult Rminus b a (map (fun t => resp * t_at p (t :: i))%R (seq 0 T)) (map (fun t => t_at r (t :: i)) (seq 0 T)).
Proof.
  cbv zeta. intros NR LT EB Lab SB Lb H0 EP ET. unfold FilterModel.detect. cbv zeta. rewrite EP. cbn [bind].
  set (w := (2 * _ / _)%Q) in *. unfold too_fast. fold w.
  destruct (Qeq_bool (rate sr env (d_samplerate d)) 0) eqn:E0; [apply Qeq_bool_eq in E0; contradiction|]. cbn [bind].
  destruct (Qeq_bool w 1) eqn:E1. { apply Qeq_bool_eq in E1. rewrite E1 in LT. discriminate LT. }
  assert (LE : Qle_bool w 1 = true) by (apply Qle_bool_iff, Qlt_le_weak, LT). rewrite LE. cbn [negb]. rewrite EB. cbn [bind fst snd].
  destruct R_field as (KR & D & D').
  assert (H0' : Ris0 (nth 0 a 0%R) = false) by (unfold Ris0; destruct (Req_EM_T (nth 0 a 0%R) 0); congruence).
  unfold lfilter_tensor. cbn [scale t_shape]. rewrite ET.
  destruct (lfilter_ok KR D D' Lab (x := repeat 0%R T) ltac:(rewrite repeat_length; lia) H0') as (z & Ez & _).
  unfold filt at 1. rewrite Ez. eexists. split; [reflexivity|]. split; [reflexivity|]. intros i. cbn [t_at].
  unfold column. cbn [scale t_at].
  match goal with |- solves _ _ _ _ _ _ ?x _ => set (X := x) end.
  assert (LX : length X = T) by (unfold X; rewrite map_length, seq_length; reflexivity).
  destruct (lfilter_ok KR D D' Lab (x := X) ltac:(lia) H0') as (y & Ey & Sy). rewrite SB in Sy.
  unfold filt. rewrite Ey. replace (map (fun t => nth t y 0%R) (seq 0 T)) with y; [exact Sy|].
  destruct Sy as [Ly _]. rewrite LX in Ly. rewrite <- Ly. clear.
  induction y as [|v y IH]; [reflexivity|]. cbn [length seq map nth]. f_equal. rewrite <- seq_shift, map_map. exact IH.
Qed.
(** Signals shorter than the filter are refused. *)
Theorem C59_short d env s p T sh sr co o rs b a :
  let rate' := rate sr env (d_samplerate d) in
  let cut' := match co with Some c => c | None => d_cutoff d end in
  let n := match o with Some o => rint o | None => d_order d end in
  ~ rate' == 0 -> (2 * cut' / rate' < 1)%Q ->
  butter n (2 * cut' / rate') = Ok (b, a) -> length a = length b -> 1 <= T < length b -> nth 0 a 0%R <> 0%R ->
  to_power s = Ok p -> t_shape p = T :: sh -> detect d env s sr co o rs = Err IndexError.
Proof.
  cbv zeta. intros NR LT EB Lab Lb H0 EP ET. unfold FilterModel.detect. cbv zeta. rewrite EP. cbn [bind].
  set (w := (2 * _ / _)%Q) in *. unfold too_fast. fold w.
  destruct (Qeq_bool (rate sr env (d_samplerate d)) 0) eqn:E0; [apply Qeq_bool_eq in E0; contradiction|]. cbn [bind].
  destruct (Qeq_bool w 1) eqn:E1. { apply Qeq_bool_eq in E1. rewrite E1 in LT. discriminate LT. }
  assert (LE : Qle_bool w 1 = true) by (apply Qle_bool_iff, Qlt_le_weak, LT). rewrite LE. cbn [negb]. rewrite EB. cbn [bind fst snd].
  destruct R_field as (KR & D & D').
  assert (H0' : Ris0 (nth 0 a 0%R) = false) by (unfold Ris0; destruct (Req_EM_T (nth 0 a 0%R) 0); congruence).
  unfold lfilter_tensor. cbn [scale t_shape]. rewrite ET. unfold filt.
  rewrite (lfilter_short Rdiv KR) by (auto; rewrite repeat_length; lia). reflexivity.
Qed.

(** * C76 *)
(** Without noise a photodetector is a low-pass detector, unless the power has two time steps. *)
Theorem C76_no_noise_partial d dk ld env s sr co o rs dk' ld' p :
  to_power s = Ok p -> not_two (t_shape p) ->
  match photodetect d dk ld env s (fun _ => 0%R) sr co o rs dk' ld', detect d env s sr co o rs with
  | Ok r, Ok r' => t_shape r = t_shape r' /\ forall i, t_at r i = t_at r' i
  | Err e, Err e' => e = e'
  | _, _ => False
  end.
Proof.
  intros EP N. unfold FilterModel.photodetect. rewrite EP. cbn [bind].
  set (resp := match rs with Some r => r | None => d_resp d end).
  set (ns := noisy _ _ _ _ _).
  assert (EN : forall i, t_at ns i = (resp * t_at p i)%R).
  { intros i. unfold ns, noisy, scale. cbn [t_at]. rewrite Rmult_0_r, Rplus_0_r. reflexivity. }
  assert (TN : to_power ns = Ok ns) by (apply to_power_id; exact N).
  unfold FilterModel.detect. cbv zeta. rewrite TN, EP. cbn [bind]. fold resp.
  assert (E1 : forall i, t_at (scale 1 ns) i = t_at (scale resp p) i).
  { intros i. cbn [scale t_at]. rewrite EN. ring. }
  assert (S1 : t_shape (scale 1 ns) = t_shape (scale resp p)) by reflexivity.
  set (u := scale 1 ns) in *. set (v := scale resp p) in *. clearbody u v.
  destruct (too_fast _ _) as [bad|]; [|reflexivity]. cbn [bind].
  destruct (Qeq_bool _ 1); [auto|]. destruct bad; [reflexivity|]. destruct (butter _ _) as [[b a]|]; [|reflexivity].
  cbn [bind fst snd]. unfold lfilter_tensor. rewrite S1. destruct (t_shape v) as [|T sh]; [reflexivity|].
  destruct (filt b a (repeat 0%R T)); [|reflexivity]. split; [reflexivity|]. intros [|t i]; [reflexivity|]. cbn [t_at].
  replace (column T u i) with (column T v i); [reflexivity|]. unfold column. apply map_ext. intros k. symmetry. apply E1.
Qed.

(** With noise it detects the current plus thermal and shot noise: random numbers times the square root of
    (4 k T / R + 2 q (I + dark)) B, where B is the cutoff frequency. *)
Theorem C76_noise_partial d dk ld env s sr co o rs dk' ld' p randn : let pick {A} (x : option A) y := match x with Some v => v | None => y end in
  to_power s = Ok p -> not_two (t_shape p) ->
  let current i := (pick rs (d_resp d) * t_at p i)%R in
  let variance i := ((4 * (13806488 / 10 ^ 30) * 300 / pick ld' ld + 2 * (1602176563 / 10 ^ 28) * (current i + pick dk' dk)) * Q2R (pick co (d_cutoff d)))%R in
  exists n sigma, photodetect d dk ld env s randn sr co o rs dk' ld' = detect d env n sr co o (Some 1%R)
    /\ t_shape n = t_shape p /\ (forall i, t_at n i = (current i + sigma i * randn i)%R)
    /\ forall i, (0 <= sigma i)%R /\ ((0 <= variance i)%R -> (sigma i * sigma i)%R = variance i).
Proof.
  intros pick EP N current variance.
  exists (noisy (Q2R (pick _ co (d_cutoff d))) (pick _ dk' dk) (pick _ ld' ld) randn (scale (pick _ rs (d_resp d)) p)), (fun i => sqrt (variance i)).
  split; [|split; [reflexivity|split]].
  - unfold FilterModel.photodetect. rewrite EP. cbn [bind]. unfold FilterModel.detect. reflexivity.
  - intros i. unfold noisy, scale. cbn [t_at]. fold (current i). f_equal. f_equal. f_equal. unfold variance, Rdiv. ring.
  - intros i. split; [apply sqrt_pos|]. intros H. now apply sqrt_sqrt.
Qed.
Theorem C76_noise_unfiltered d dk ld env s co rs p randn :
  to_power s = Ok p -> not_two (t_shape p) -> (0 < rate None env (d_samplerate d))%Q -> (2 * co == rate None env (d_samplerate d))%Q ->
  exists r, photodetect d dk ld env s randn None (Some co) None (Some rs) None None = Ok r
    /\ forall i, let I := (rs * t_at p i)%R in
       (0 <= (4 * (13806488 / 10 ^ 30) * 300 / ld + 2 * (1602176563 / 10 ^ 28) * (I + dk)) * Q2R co)%R ->
       ((t_at r i - I) * (t_at r i - I) = (4 * (13806488 / 10 ^ 30) * 300 / ld + 2 * (1602176563 / 10 ^ 28) * (I + dk)) * Q2R co * (randn i * randn i))%R.
Proof.
  intros EP N P L. destruct (@C76_noise_partial d dk ld env s None (Some co) None (Some rs) None None p randn EP N) as (n & sigma & E & S & HT & HS).
  cbv beta iota zeta in *. rewrite E. unfold FilterModel.detect. cbv zeta. assert (TN : to_power n = Ok n) by (apply to_power_id; rewrite S; exact N). rewrite TN. cbn [bind].
  set (sr' := rate None env (d_samplerate d)) in *. unfold too_fast. destruct (Qeq_bool sr' 0) eqn:E0. { apply Qeq_bool_eq in E0. rewrite E0 in P. discriminate P. }
  cbn [bind]. replace (Qeq_bool (2 * co / sr') 1) with true. 2:{ symmetry. apply Qeq_bool_iff. rewrite L. field. apply Qeq_bool_neq. exact E0. }
  eexists. split; [reflexivity|]. intros i H. cbn [scale t_at]. destruct (HS i) as [_ HV]. specialize (HV H). rewrite HT, <- HV. ring.
Qed.

(** * C77 *)
(** Nothing is filtered with a cutoff frequency above half of the sample rate; at half of it the
    signal passes unfiltered. *)
Theorem C77_nyquist_refused d env s sr co o rs :
  let rate' := rate sr env (d_samplerate d) in
  let cut' := match co with Some c => c | None => d_cutoff d end in
  (0 < rate')%Q -> (rate' < 2 * cut')%Q -> t_shape s <> [] -> detect d env s sr co o rs = Err ValueError.
Proof.
  cbv zeta. intros P L NS. unfold FilterModel.detect. cbv zeta.
  assert (EP : exists p, to_power s = Ok p).
  { unfold to_power. destruct (t_shape s); [congruence|]. destruct (_ =? 2); eauto. }
  destruct EP as (p & ->). cbn [bind]. set (sr' := rate sr env (d_samplerate d)) in *.
  set (c := match co with Some c => c | None => d_cutoff d end) in *. clearbody sr' c.
  assert (W : (1 < 2 * c / sr')%Q). { apply Qlt_shift_div_l; auto. rewrite Qmult_1_l. exact L. }
  unfold too_fast. destruct (Qeq_bool sr' 0) eqn:E0. { apply Qeq_bool_eq in E0. rewrite E0 in P. discriminate P. }
  cbn [bind]. destruct (Qeq_bool (2 * c / sr') 1) eqn:E1. { apply Qeq_bool_eq in E1. rewrite E1 in W. discriminate W. }
  destruct (Qle_bool (2 * c / sr') 1) eqn:E2; [|reflexivity].
  apply Qle_bool_iff in E2. exfalso. exact (Qlt_not_le _ _ W E2).
Qed.
Theorem C77_nyquist_equal d env s sr co o rs p :
  let rate' := rate sr env (d_samplerate d) in
  let cut' := match co with Some c => c | None => d_cutoff d end in
  (0 < rate')%Q -> (2 * cut' == rate')%Q -> to_power s = Ok p ->
  detect d env s sr co o rs = Ok (scale (match rs with Some r => r | None => d_resp d end) p).
Proof.
  cbv zeta. intros P L EP. unfold FilterModel.detect. cbv zeta. rewrite EP. cbn [bind].
  set (sr' := rate sr env (d_samplerate d)) in *.
  set (c := match co with Some c => c | None => d_cutoff d end) in *. clearbody sr' c.
  unfold too_fast. destruct (Qeq_bool sr' 0) eqn:E0. { apply Qeq_bool_eq in E0. rewrite E0 in P. discriminate P. }
  cbn [bind]. replace (Qeq_bool (2 * c / sr') 1) with true; [reflexivity|].
  symmetry. apply Qeq_bool_iff. rewrite L. field. apply Qeq_bool_neq. exact E0.
Qed.
Theorem C77_construction sr co o rs : (0 < sr)%Q ->
  ((exists d, new_detector sr co o rs = Ok d) <-> (2 * co <= sr)%Q) /\ (forall e, new_detector sr co o rs = Err e <-> e = ValueError /\ ~ (2 * co <= sr)%Q).
Proof.
  intros P. unfold new_detector, too_fast. destruct (Qeq_bool sr 0) eqn:E0. { apply Qeq_bool_eq in E0. rewrite E0 in P. discriminate P. }
  cbn [bind]. assert (I : (2 * co / sr <= 1 <-> 2 * co <= sr)%Q).
  { split; intros H.
    - apply (Qmult_le_compat_r _ _ sr) in H; [|apply Qlt_le_weak, P]. rewrite Qmult_1_l in H.
      setoid_replace (2 * co / sr * sr)%Q with (2 * co)%Q in H; [exact H|]. field. apply Qeq_bool_neq. exact E0.
    - apply Qle_shift_div_r; [exact P|]. rewrite Qmult_1_l. exact H. }
  rewrite <- Qle_bool_iff in I. destruct (Qle_bool (2 * co / sr) 1); cbn [negb]; (split; [split|intros e; split]); intros H; eauto; try discriminate.
  - apply I. reflexivity.
  - destruct H as [_ H]. exfalso. apply H, I. reflexivity.
  - destruct H as [d H]. discriminate H.
  - apply I in H. discriminate H.
  - injection H as <-. split; [reflexivity|]. intros H. apply I in H. discriminate H.
  - destruct H as [-> _]. reflexivity.
Qed.
End Detector.

(** A filter design for the examples: the exact first-order low-pass at a quarter of the sample rate. *)
Definition butter1 (n : Z) (w : Q) : res (list R * list R) := Ok ([1; 1], [2; 0])%R.
Definition det1 : detector := {| d_samplerate := 8; d_cutoff := 2; d_order := 1; d_resp := 1 |}.
Definition ramp (T : nat) : tensor := {| t_shape := [T]; t_at := fun i => INR (hd 0 i) |}.
Example C59_filtered_ex : exists r, detect butter1 det1 None (ramp 3) None None None None = Ok r /\ t_shape r = [3] /\
  solves 0%R Rplus Rmult Rminus [1; 1]%R [2; 0]%R (map (fun t => 1 * t_at (ramp 3) (t :: []))%R (seq 0 3)) (map (fun t => t_at r (t :: [])) (seq 0 3)).
Proof.
  destruct (@C59_filtered butter1 det1 None (ramp 3) (ramp 3) 3 [] None None None None [1; 1]%R [2; 0]%R) as (r & E & S & H);
    try reflexivity; try (cbn; lia).
  - discriminate.
  - cbn. lra.
  - exists r. split; [exact E|]. split; [exact S|]. exact (H []).
Qed.
Theorem C59_power_refuted : exists butter d s r, t_shape s = [2] /\ detect butter d None s None None None None = Ok r /\ t_shape r = [].
Proof.
  exists butter1, {| d_samplerate := 8; d_cutoff := 4; d_order := 1; d_resp := 1 |}, (ramp 2). eexists.
  split; [reflexivity|]. split; [reflexivity|]. reflexivity.
Qed.
(** A complex signal of two time steps in a photodetector: squared twice. *)
Definition pair2 : tensor := {| t_shape := [2; 2]; t_at := fun i => match i with [0; _] => 2%R | _ => 0%R end |}.
Theorem C59_photo_complex_refuted : exists butter d s r, t_shape s = [2; 2] /\
  photodetect butter d 0 1 None s (fun _ => 0%R) None None None None None None = Ok r /\ t_shape r = [] /\ t_at r [] = 32%R.
Proof.
  exists butter1, {| d_samplerate := 8; d_cutoff := 4; d_order := 1; d_resp := 1 |}, pair2. eexists.
  split; [reflexivity|]. split; [reflexivity|]. split; [reflexivity|].
  cbn. rewrite ?Rmult_0_r. lra.
Qed.
Theorem C76_no_noise_refuted : exists butter d s r r',
  photodetect butter d 0 1 None s (fun _ => 0%R) None None None None None None = Ok r /\
  detect butter d None s None None None None = Ok r' /\ t_shape r <> t_shape r'.
Proof.
  exists butter1, {| d_samplerate := 8; d_cutoff := 4; d_order := 1; d_resp := 1 |}, pair2. eexists. eexists.
  split; [reflexivity|]. split; [reflexivity|]. discriminate.
Qed.
Example C76_ex : to_power (ramp 3) = Ok (ramp 3) /\ not_two (t_shape (ramp 3)).
Proof. split; [reflexivity|discriminate]. Qed.
Example C77_ex : detect butter1 det1 (Some 3%Q) (ramp 3) None None None None = Err ValueError /\
  detect butter1 det1 (Some 4%Q) (ramp 3) None None None None = Ok (scale 1 (ramp 3)).
Proof.
  split.
  - apply (@C77_nyquist_refused butter1 det1 (Some 3%Q) (ramp 3) None None None None); [reflexivity|reflexivity|discriminate].
  - apply (@C77_nyquist_equal butter1 det1 (Some 4%Q) (ramp 3) None None None None (ramp 3)); reflexivity.
Qed.
Print Assumptions C59_power_partial.
Print Assumptions C59_complex.
Print Assumptions C59_photo_power_partial.
Print Assumptions C59_photo_complex_partial.
Print Assumptions C59_two.
Print Assumptions C59_photo_two.
Print Assumptions C59_filtered.
Print Assumptions C59_short.
Print Assumptions C59_power_refuted.
Print Assumptions C59_photo_complex_refuted.
Print Assumptions C76_no_noise_partial.
Print Assumptions C76_no_noise_refuted.
Print Assumptions C76_noise_partial.
Print Assumptions C76_noise_unfiltered.
Print Assumptions C77_nyquist_refused.
Print Assumptions C77_nyquist_equal.
Print Assumptions C77_construction.
