(** Facts about created and copied environments. *)
From Coq Require Import QArith Qabs Qfield.
From Verif Require Import Base SimModel EnvModel EnvSpec EnvProofs.
Set Implicit Arguments.
Unset Strict Implicit.
Local Open Scope nat_scope.

(** ** Time *)
(** The step asked for: 1/samplerate, dt, or the default. *)
Definition asked_dt (d : dflt) (k : kw) : Q :=
  match k_samplerate k with Some s => (1 / s)%Q | None => get (k_dt k) (d_dt d) end.
Definition asked_t0 (d : dflt) (k : kw) : Q := get (k_t0 k) (d_t0 d).
Definition asked_t1 (d : dflt) (k : kw) : Q := get (k_t1 k) (d_t1 d).

(** The reported numbers describe the grid. *)
Definition reported (e : environment) (t0 dt : Q) (n : nat) : Prop :=
  equidistant (n_t e) t0 dt n /\ n_num_t e = n /\ (n_t0 e == t0)%Q /\
  (2 <= n -> exists x y s, n_dt e = Some x /\ (x == dt)%Q /\
     n_t1 e = Some y /\ (y == t0 + inject_Z (Z.of_nat n) * dt)%Q /\
     n_samplerate e = Some s /\ (s == 1 / dt)%Q) /\
  (n = 1 -> n_dt e = None /\ n_t1 e = None /\ n_samplerate e = None).

Lemma step_of_some : forall l, 2 <= length l -> exists x, step_of l = Some x.
Proof. intros [|a [|b l]] H; cbn in *; try lia. eexists; reflexivity. Qed.
Lemma end_first_some : forall l, 2 <= length l -> exists x, end_first l = Some x.
Proof. intros [|a [|b l]] H; cbn in *; try lia. eexists; reflexivity. Qed.
Lemma step_of_one : forall l, length l = 1 -> step_of l = None.
Proof. intros [|a [|b l]] H; cbn in *; try lia; reflexivity. Qed.
Lemma end_first_one : forall l, length l = 1 -> end_first l = None.
Proof. intros [|a [|b l]] H; cbn in *; try lia; reflexivity. Qed.
Lemma end_last_one : forall l, length l = 1 -> end_last l = None.
Proof. intros [|a [|b l]] H; cbn in *; try lia; reflexivity. Qed.
Lemma end_last_some : forall l, 2 <= length l -> exists x, end_last l = Some x.
Proof.
  intros l H. unfold end_last. destruct (rev l) as [|z [|y r]] eqn:E.
  - apply (f_equal (@length Q)) in E. rewrite rev_length in E. cbn in E. lia.
  - apply (f_equal (@length Q)) in E. rewrite rev_length in E. cbn in E. lia.
  - eexists; reflexivity.
Qed.

Lemma reported_of : forall d k e t0 dt n, construct d k = Ok e ->
  equidistant (n_t e) t0 dt n -> reported e t0 dt n.
Proof.
  intros d k e t0 dt n H E. made H. pose proof E as [L _].
  repeat split; try apply E.
  - rewrite Mnt. exact L.
  - exact (equidistant_head E Mt0).
  - intros G. destruct (@step_of_some (n_t e)) as [x Hx]; [lia|].
    destruct (@end_first_some (n_t e)) as [y Hy]; [lia|].
    exists x, y, (1 / x)%Q. rewrite Mdt, Mt1, Msr, Mdt, Hx, Hy.
    destruct (equidistant_step E Hx) as [X _]. destruct (equidistant_end E Hy) as [Y _].
    repeat split; auto. rewrite X. reflexivity.
  - rewrite Mdt. apply step_of_one. lia.
  - rewrite Mt1. apply end_first_one. lia.
  - rewrite Msr, Mdt, step_of_one by lia. reflexivity.
Qed.

Lemma made_num_t : forall d k e n, construct d k = Ok e -> n_freqdomain e = false ->
  k_num_t k = Some n -> (0 < n)%Z /\ reported e (asked_t0 d k) (asked_dt d k) (Z.to_nat n).
Proof.
  intros d k e n H F N. made H. destruct (time_num_t MC N MT) as (dt & D & L).
  rewrite F in Mt. assert (P : (0 < n)%Z).
  { destruct (Z_lt_le_dec 0 n) as [P|P]; [exact P|exfalso].
    unfold linspace in L. destruct (n <? 0)%Z eqn:E; [discriminate|]. apply Z.ltb_ge in E.
    replace n with 0%Z in L by lia. injection L as <-. rewrite Mt in Mt0. discriminate. }
  split; [exact P|]. apply (reported_of H). rewrite Mt.
  apply linspace_equidistant; [exact P|].
  replace (asked_dt d k) with dt; [exact L|].
  unfold asked_dt. destruct (k_samplerate k); [destruct D; auto|exact D].
Qed.

Lemma made_t1 : forall d k e, construct d k = Ok e -> n_freqdomain e = false ->
  k_t k = None -> k_num_t k = None ->
  (k_dt k <> None \/ k_samplerate k <> None \/ k_t0 k <> None \/ k_t1 k <> None) ->
  (0 < asked_dt d k)%Q ->
  exists n, reported e (asked_t0 d k) (asked_dt d k) (Nat.max 1 n) /\
    (asked_t0 d k + inject_Z (Z.of_nat n) * asked_dt d k <= asked_t1 d k)%Q /\
    (asked_t1 d k < asked_t0 d k + inject_Z (Z.of_nat (S n)) * asked_dt d k)%Q.
Proof.
  intros d k e H F T N G P. made H. destruct (time_t1 T N G MT) as (dt & D & L).
  rewrite F in Mt.
  assert (E : dt = asked_dt d k).
  { unfold asked_dt. destruct (k_samplerate k); [destruct D; auto|exact D]. }
  subst dt.
  assert (LE : (asked_t0 d k <= asked_t1 d k)%Q).
  { apply checks_Ok in MC. destruct MC as [_ B]. apply Qnot_lt_le. intros X. apply B.
    right. exact X. }
  destruct (arange_up P LE L) as (n & E & B1 & B2).
  exists n. split; [|split; assumption]. apply (reported_of H). rewrite Mt. exact E.
Qed.

Lemma made_t : forall d k e a, construct d k = Ok e -> n_freqdomain e = false ->
  k_t k = Some a -> flat a = Ok (n_t e).
Proof.
  intros d k e a H F T. made H. rewrite F in Mt. rewrite Mt.
  unfold time_grid in MT. rewrite T in MT. exact MT.
Qed.

Lemma made_default_t : forall d k e, construct d k = Ok e -> n_freqdomain e = false ->
  no_time k -> flat (d_t d) = Ok (n_t e).
Proof.
  intros d k e H F (T & A & B & C & D & E). made H. rewrite F in Mt. rewrite Mt.
  unfold time_grid in MT. rewrite T, A, B, C, D, E in MT. exact MT.
Qed.

(** ** Frequency domain *)
Lemma made_freqdomain : forall d k e, construct d k = Ok e -> n_freqdomain e = true ->
  n_num_t e = 1 /\ n_t e = [n_t0 e] /\ n_dt e = None /\ n_t1 e = None /\ n_samplerate e = None /\
  n_bitrate e = None /\ n_bitlength e = None.
Proof.
  intros d k e H F. made H. rewrite F in *.
  destruct t' as [|a t']; cbn in Mt; rewrite Mt in *; cbn in Mt0; [discriminate|].
  injection Mt0 as Mt0. subst a. cbn in *. rewrite Mbr in Mbl. rewrite Mdt in Msr. cbn in *.
  auto 10.
Qed.

(** ** Wavelengths *)
Definition asked_wl0 (d : dflt) (k : kw) : Q :=
  match k_f0 k with Some f => (light d k / f)%Q | None => get (k_wl0 k) (d_wl0 d) end.
Definition asked_wl1 (d : dflt) (k : kw) : Q :=
  match k_f1 k with Some f => (light d k / f)%Q | None => get (k_wl1 k) (d_wl1 d) end.

Lemma wave_exclusive : forall d k, checks d k = Ok tt ->
  (k_num_wl k <> None -> k_wl k = None /\ k_f k = None /\ k_num_f k = None /\ k_df k = None) /\
  (k_num_f k <> None -> k_wl k = None /\ k_f k = None /\ k_df k = None /\ k_dwl k = None) /\
  (k_df k <> None -> k_wl k = None /\ k_f k = None /\ k_num_f k = None) /\
  (k_dwl k <> None -> k_wl k = None /\ k_f k = None /\ k_num_f k = None /\ k_df k = None /\
     k_num_wl k = None).
Proof.
  intros d k C. apply checks_Ok in C. destruct C as [C _].
  assert (P : forall a b, In a [Adwl; Adf; Anum_wl; Anum_f; Awl; Af] ->
                In b [Adwl; Adf; Anum_wl; Anum_f; Awl; Af] -> a <> b ->
                is_given k a -> ~ is_given k b).
  { intros a b Ia Ib N Ga Gb. apply C.
    apply (@conflict_pair k [Adwl; Adf; Anum_wl; Anum_f; Awl; Af] a b); auto. cbn; auto 10. }
  assert (Q : forall A (o : option A), ~ (o <> None) -> o = None).
  { intros A [a|] H; [exfalso; apply H; discriminate|reflexivity]. }
  repeat split; apply Q;
  match goal with
  | G : ?x <> None |- ~ ?y <> None =>
      let na := match x with k_num_wl _ => Anum_wl | k_num_f _ => Anum_f | k_df _ => Adf
                | k_dwl _ => Adwl end in
      let nb := match y with k_num_wl _ => Anum_wl | k_num_f _ => Anum_f | k_df _ => Adf
                | k_dwl _ => Adwl | k_wl _ => Awl | k_f _ => Af end in
      apply (P na nb); [cbn; auto 10|cbn; auto 10|discriminate|exact G]
  end.
Qed.

Lemma many_wave : forall k, k_num_wl k <> None \/ k_num_f k <> None \/ k_dwl k <> None \/
  k_df k <> None ->
  (many [given (k_num_wl k); given (k_num_f k); given (k_dwl k); given (k_df k);
         given (k_wl0 k); given (k_f0 k); given (k_wl1 k); given (k_f1 k)] =? 0) = false.
Proof.
  intros k H. destruct (k_num_wl k); [reflexivity|]. destruct (k_num_f k); [reflexivity|].
  destruct (k_dwl k); [reflexivity|]. destruct (k_df k); [reflexivity|]. intuition congruence.
Qed.

(** The wavelength range when only wavelength steps are involved. *)
Lemma wl_range : forall d k w, k_wl k = None -> k_f k = None -> k_num_f k = None ->
  k_df k = None -> (k_num_wl k <> None \/ k_dwl k <> None) -> wl_grid d k = Ok w ->
  exists dwl, match k_num_wl k with
              | Some n => pydiv (asked_wl1 d k - asked_wl0 d k) (inject_Z n) = Ok dwl
              | None => dwl = get (k_dwl k) (d_dwl d) end /\
    arange (asked_wl0 d k) (asked_wl1 d k) dwl = Ok w.
Proof.
  intros d k w A B C D G H. unfold wl_grid in H. rewrite A, B in H. cbn [given orb] in H.
  rewrite many_wave in H by tauto. rewrite C, D in H. cbn iota in H.
  ok H w0 H0. ok H w1 H1. ok H dwl HD.
  assert (E0 : w0 = asked_wl0 d k).
  { unfold asked_wl0. destruct (k_f0 k); [apply pydiv_Ok in H0; tauto|injection H0; auto]. }
  assert (E1 : w1 = asked_wl1 d k).
  { unfold asked_wl1. destruct (k_f1 k); [apply pydiv_Ok in H1; tauto|injection H1; auto]. }
  subst w0 w1. exists dwl. split; [|exact H].
  destruct (k_num_wl k); [exact HD|injection HD; auto].
Qed.

Lemma arange_zero : forall a s, arange a a s = Ok [a] \/ (s == 0)%Q.
Proof.
  intros a s. destruct (Qeq_dec s 0) as [E|E]; [right; exact E|left].
  unfold arange. rewrite (pydiv_nz (a - a)%Q E). cbn [bind].
  replace (long _) with 0%Z; [reflexivity|]. symmetry. apply long_int. field. exact E.
Qed.

Lemma made_num_wl : forall d k e n, construct d k = Ok e -> k_num_wl k = Some n ->
  (n <> 0)%Z /\ ~ (asked_wl0 d k == asked_wl1 d k)%Q /\
  n_num_wl e = Z.abs_nat n /\ n_num_f e = Z.abs_nat n /\
  equidistant (n_wl e) (asked_wl0 d k)
    ((asked_wl1 d k - asked_wl0 d k) / inject_Z (Z.abs n))%Q (Z.abs_nat n).
Proof.
  intros d k e n H N. made H.
  destruct (wave_exclusive MC) as (X & _). destruct X as (A & B & C & D); [congruence|].
  assert (G0 : k_num_wl k <> None \/ k_dwl k <> None) by (left; congruence).
  destruct (wl_range A B C D G0 MW) as (dwl & HD & HA).
  rewrite N in HD.
  assert (NZ : (n <> 0)%Z).
  { intros ->. rewrite pydiv_0 in HD by reflexivity. discriminate. }
  assert (NE : ~ (asked_wl0 d k == asked_wl1 d k)%Q).
  { intros E. apply pydiv_Ok in HD. destruct HD as [I ->]. unfold arange in HA.
    rewrite pydiv_0 in HA; [discriminate|]. rewrite E. field. exact I. }
  pose proof (arange_split NZ NE HD HA) as E. rewrite <- Mwl in E. pose proof E as [L _].
  split; [exact NZ|]. split; [exact NE|]. repeat split; try apply E.
  - rewrite Mnwl, <- Mwl. exact L.
  - rewrite Mnf, Mf, map_length, <- Mwl. exact L.
Qed.

(** Given number of wavelengths and different ends: the grid exists. *)
Lemma num_wl_grid : forall d k n, checks d k = Ok tt -> k_num_wl k = Some n -> (n <> 0)%Z ->
  (forall f, k_f0 k = Some f -> ~ (f == 0)%Q) -> (forall f, k_f1 k = Some f -> ~ (f == 0)%Q) ->
  ~ (asked_wl0 d k == asked_wl1 d k)%Q -> exists w, wl_grid d k = Ok w.
Proof.
  intros d k n MC N NZ Z0 Z1 NE.
  destruct (wave_exclusive MC) as (X & _). destruct X as (A & B & C & D); [congruence|].
  unfold wl_grid. rewrite A, B. cbn [given orb]. rewrite many_wave by (left; congruence).
  rewrite C, D, N. cbn iota.
  assert (E0 : match k_f0 k with Some f => pydiv (light d k) f
               | None => Ok (get (k_wl0 k) (d_wl0 d)) end = Ok (asked_wl0 d k)).
  { unfold asked_wl0. destruct (k_f0 k); [apply pydiv_nz; auto|reflexivity]. }
  assert (E1 : match k_f1 k with Some f => pydiv (light d k) f
               | None => Ok (get (k_wl1 k) (d_wl1 d)) end = Ok (asked_wl1 d k)).
  { unfold asked_wl1. destruct (k_f1 k); [apply pydiv_nz; auto|reflexivity]. }
  rewrite E0, E1. cbn [bind].
  destruct (arange_split_ok NZ NE) as (s & l & S & L). rewrite S. cbn [bind]. exists l. exact L.
Qed.

(** Steps of a given size. *)
Lemma long_opp : forall q, long (- q)%Q = (- long q)%Z.
Proof. intros [a b]. unfold long; cbn. apply Z.quot_opp_l. lia. Qed.
Lemma long_Qeq : forall p q, (p == q)%Q -> long p = long q.
Proof.
  intros [a b] [c e] H. unfold long, Qeq in *; cbn [Qnum Qden] in *.
  rewrite <- (Z.quot_mul_cancel_r a (Z.pos b) (Z.pos e)) by lia.
  rewrite <- (Z.quot_mul_cancel_r c (Z.pos e) (Z.pos b)) by lia.
  rewrite H. f_equal. lia.
Qed.

Lemma arange_down : forall start stop step l, (0 < step)%Q -> (stop <= start)%Q ->
  arange start stop step = Ok l ->
  exists n : nat, equidistant l start (- step) (Nat.max 1 n) /\
    (stop <= start - inject_Z (Z.of_nat n) * step)%Q /\
    (start - inject_Z (Z.of_nat (S n)) * step < stop)%Q.
Proof.
  intros start stop step l SP LE H. pose proof (arange_equidistant H) as E. cbv zeta in E.
  set (q := ((stop - start) / step)%Q) in *.
  set (p := ((start - stop) / step)%Q).
  assert (SN : ~ (step == 0)%Q).
  { intros Z. rewrite Z in SP. apply Qlt_irrefl in SP. exact SP. }
  assert (QP : long q = (- long p)%Z).
  { rewrite <- long_opp. apply long_Qeq. unfold q, p. field. exact SN. }
  assert (P0 : (0 <= p)%Q).
  { unfold p. apply Qle_shift_div_l; [exact SP|]. rewrite Qmult_0_l.
    apply Qle_minus_iff in LE. exact LE. }
  assert (PS : (p * step == start - stop)%Q) by (unfold p; field; exact SN).
  destruct (long_bounds P0) as (B0 & B1 & B2).
  exists (Z.to_nat (long p)). split; [|split].
  - rewrite QP in E. destruct (Z.eqb_spec (long p) 0) as [Z0|Z0].
    + rewrite Z0 in *. cbn in *. destruct E as [L E]. split; [exact L|]. intros i Hi.
      replace i with 0 by lia. rewrite (E 0) by lia. cbn. ring.
    + replace (- long p =? 0)%Z with false in E by (symmetry; apply Z.eqb_neq; lia).
      replace (0 <=? - long p)%Z with false in E by (symmetry; apply Z.leb_gt; lia).
      replace (Nat.max 1 (Z.to_nat (long p))) with (Z.abs_nat (- long p)) by lia. exact E.
  - rewrite Z2Nat.id by exact B0.
    apply (Qmult_le_compat_r _ _ step) in B1; [|apply Qlt_le_weak; exact SP].
    rewrite PS in B1. apply Qopp_le_compat in B1.
    apply (Qplus_le_compat start start) in B1; [|apply Qle_refl].
    setoid_replace (start + - (start - stop))%Q with stop in B1 by ring. exact B1.
  - replace (Z.of_nat (S (Z.to_nat (long p)))) with (long p + 1)%Z by lia.
    apply (Qmult_lt_compat_r _ _ step SP) in B2.
    rewrite PS in B2. apply Qlt_minus_iff in B2. apply Qlt_minus_iff.
    setoid_replace (stop + - (start - inject_Z (long p + 1) * step))%Q
      with (inject_Z (long p + 1) * step + - (start - stop))%Q by ring. exact B2.
Qed.

Lemma made_dwl : forall d k e s, construct d k = Ok e -> k_dwl k = Some s -> (0 < s)%Q ->
  exists n : nat,
    ((asked_wl0 d k <= asked_wl1 d k)%Q ->
       equidistant (n_wl e) (asked_wl0 d k) s (Nat.max 1 n) /\
       (asked_wl0 d k + inject_Z (Z.of_nat n) * s <= asked_wl1 d k)%Q /\
       (asked_wl1 d k < asked_wl0 d k + inject_Z (Z.of_nat (S n)) * s)%Q) /\
    ((asked_wl1 d k <= asked_wl0 d k)%Q ->
       equidistant (n_wl e) (asked_wl0 d k) (- s) (Nat.max 1 n) /\
       (asked_wl1 d k <= asked_wl0 d k - inject_Z (Z.of_nat n) * s)%Q /\
       (asked_wl0 d k - inject_Z (Z.of_nat (S n)) * s < asked_wl1 d k)%Q).
Proof.
  intros d k e s H N SP. made H.
  destruct (wave_exclusive MC) as (_ & _ & _ & X). destruct X as (A & B & C & D & E); [congruence|].
  assert (G0 : k_num_wl k <> None \/ k_dwl k <> None) by (right; congruence).
  destruct (wl_range A B C D G0 MW) as (dwl & HD & HA).
  rewrite E, N in HD. cbn in HD. subst dwl.
  destruct (Qlt_le_dec (asked_wl1 d k) (asked_wl0 d k)) as [L|L].
  - destruct (arange_down SP (Qlt_le_weak _ _ L) HA) as (n & R). exists n. rewrite Mwl.
    split; [|intros _; exact R]. intros G. exfalso. apply (Qlt_not_le _ _ L G).
  - destruct (arange_up SP L HA) as (n & R1 & R2 & R3). exists n. rewrite Mwl.
    split; [auto|]. intros G.
    destruct (arange_down SP G HA) as (m & S1 & S2 & S3).
    assert (Q : (asked_wl0 d k == asked_wl1 d k)%Q) by (apply Qle_antisym; assumption).
    assert (n = 0).
    { destruct n as [|n]; [reflexivity|exfalso].
      assert (0 < inject_Z (Z.of_nat (S n)) * s)%Q.
      { rewrite <- (Qmult_0_l s). apply Qmult_lt_r; [exact SP|]. unfold Qlt, inject_Z; cbn; lia. }
      apply (Qlt_not_le (asked_wl1 d k) (asked_wl0 d k + inject_Z (Z.of_nat (S n)) * s)%Q);
        [|exact R2]. rewrite <- Q. rewrite <- (Qplus_0_r (asked_wl0 d k)) at 1.
      apply Qplus_lt_r. exact H0. }
    assert (m = 0).
    { destruct m as [|m]; [reflexivity|exfalso].
      assert (0 < inject_Z (Z.of_nat (S m)) * s)%Q.
      { rewrite <- (Qmult_0_l s). apply Qmult_lt_r; [exact SP|]. unfold Qlt, inject_Z; cbn; lia. }
      apply (Qlt_not_le (asked_wl0 d k - inject_Z (Z.of_nat (S m)) * s)%Q (asked_wl1 d k));
        [|exact S2]. rewrite <- Q. apply Qlt_minus_iff.
      setoid_replace (asked_wl0 d k + - (asked_wl0 d k - inject_Z (Z.of_nat (S m)) * s))%Q
        with (inject_Z (Z.of_nat (S m)) * s)%Q by ring. exact H1. }
    subst n m. auto.
Qed.

(** Frequencies. *)
Lemma made_freq : forall d k e, construct d k = Ok e ->
  length (n_f e) = length (n_wl e) /\
  forall i, i < length (n_wl e) -> (nth i (n_f e) 0 == n_c e / nth i (n_wl e) 0)%Q.
Proof.
  intros d k e H. made H. rewrite Mf, <- Mwl. split; [apply map_length|].
  intros i Hi. rewrite (nth_indep _ 0%Q (n_c e / 0)%Q) by (rewrite map_length; exact Hi).
  rewrite (map_nth (fun q => n_c e / q)%Q). reflexivity.
Qed.

Definition asked_f1 (d : dflt) (k : kw) : Q :=
  match k_wl0 k with Some w => (light d k / w)%Q | None => get (k_f1 k) (d_f1 d) end.
Definition asked_f0 (d : dflt) (k : kw) : Q := get (k_f0 k) (d_f0 d).

Lemma div_div : forall c f, ~ (c == 0)%Q -> (c / (c / f) == f)%Q.
Proof.
  intros c f C. destruct (Qeq_dec f 0) as [E|E].
  - rewrite E. unfold Qdiv. change (/ 0)%Q with 0%Q. rewrite Qmult_0_r. change (/ 0)%Q with 0%Q. ring.
  - field. split; assumption.
Qed.

Lemma equidistant_map : forall l s d n c, ~ (c == 0)%Q -> equidistant l s d n ->
  equidistant (map (fun q => c / q)%Q (map (fun q => c / q)%Q l)) s d n.
Proof.
  intros l s d n c C [L E]. split; [rewrite !map_length; exact L|].
  intros i Hi. rewrite <- (E i Hi). rewrite map_map.
  rewrite (nth_indep _ 0%Q (c / (c / 0))%Q) by (rewrite map_length; lia).
  rewrite (map_nth (fun q => c / (c / q))%Q). apply div_div. exact C.
Qed.

Lemma made_num_f : forall d k e n, construct d k = Ok e -> k_num_f k = Some n ->
  k_wl1 k = None -> ~ (light d k == 0)%Q ->
  (n <> 0)%Z /\ n_num_f e = Z.abs_nat n /\ n_num_wl e = Z.abs_nat n /\
  equidistant (n_f e) (asked_f0 d k)
    ((asked_f1 d k - asked_f0 d k) / inject_Z (Z.abs n))%Q (Z.abs_nat n).
Proof.
  intros d k e n H N W1 LC. made H.
  destruct (wave_exclusive MC) as (_ & X & _). destruct X as (A & B & C & D); [congruence|].
  unfold wl_grid in MW. rewrite A, B in MW. cbn [given orb] in MW.
  rewrite many_wave in MW by (right; left; congruence). rewrite N in MW.
  ok MW ends HE. destruct ends as [f0 f1]. ok MW df HD. ok MW f HF.
  injection MW as MW.
  assert (E : f0 = asked_f0 d k /\ f1 = asked_f1 d k).
  { unfold freq_ends in HE. rewrite W1 in HE. ok HE x1 H1. cbn [bind] in HE.
    injection HE as <- <-. split; [reflexivity|]. unfold asked_f1.
    destruct (k_wl0 k); [apply pydiv_Ok in H1; tauto|injection H1; auto]. }
  destruct E as [-> ->].
  assert (NZ : (n <> 0)%Z).
  { intros ->. rewrite pydiv_0 in HD by reflexivity. discriminate. }
  assert (NE : ~ (asked_f0 d k == asked_f1 d k)%Q).
  { intros E. apply pydiv_Ok in HD. destruct HD as [I ->]. unfold arange in HF.
    rewrite pydiv_0 in HF; [discriminate|]. rewrite E. field. exact I. }
  pose proof (arange_split NZ NE HD HF) as E. pose proof E as [L _].
  rewrite <- MW in *. split; [exact NZ|]. split; [|split].
  - rewrite Mnf, Mf, !map_length. exact L.
  - rewrite Mnwl, map_length. exact L.
  - rewrite Mf, Mc. apply equidistant_map; assumption.
Qed.

Lemma made_df : forall d k e s, construct d k = Ok e -> k_df k = Some s -> ~ (s == 0)%Q ->
  k_wl1 k = None -> ~ (light d k == 0)%Q ->
  exists n : nat,
    equidistant (n_f e) (asked_f0 d k)
      (if Qle_bool (asked_f0 d k) (asked_f1 d k) then Qabs s else - Qabs s)%Q (Nat.max 1 n) /\
    (inject_Z (Z.of_nat n) * Qabs s <= Qabs (asked_f1 d k - asked_f0 d k))%Q /\
    (Qabs (asked_f1 d k - asked_f0 d k) < inject_Z (Z.of_nat (S n)) * Qabs s)%Q.
Proof.
  intros d k e s H N SN W1 LC. made H.
  destruct (wave_exclusive MC) as (_ & _ & X & _). destruct X as (A & B & C); [congruence|].
  unfold wl_grid in MW. rewrite A, B in MW. cbn [given orb] in MW.
  rewrite many_wave in MW by (right; right; right; congruence). rewrite N, C in MW.
  ok MW ends HE. destruct ends as [f0 f1]. ok MW f HF.
  injection MW as MW.
  assert (E : f0 = asked_f0 d k /\ f1 = asked_f1 d k).
  { unfold freq_ends in HE. rewrite W1 in HE. ok HE x1 H1. cbn [bind] in HE.
    injection HE as <- <-. split; [reflexivity|]. unfold asked_f1.
    destruct (k_wl0 k); [apply pydiv_Ok in H1; tauto|injection H1; auto]. }
  destruct E as [-> ->].
  assert (AP : (0 < Qabs s)%Q).
  { destruct (Qlt_le_dec 0 (Qabs s)) as [P|P]; [exact P|exfalso]. apply SN.
    assert (Z : (Qabs s == 0)%Q) by (apply Qle_antisym; [exact P|apply Qabs_nonneg]).
    revert Z. apply Qabs_case; intros _ Z; [exact Z|]. rewrite <- (Qopp_involutive s), Z. ring. }
  destruct (Qle_bool (asked_f0 d k) (asked_f1 d k)) eqn:LE.
  - apply Qle_bool_iff in LE. destruct (arange_up AP LE HF) as (n & E1 & E2 & E3).
    exists n. rewrite Mf, Mc, <- MW. split; [apply equidistant_map; assumption|].
    rewrite (Qabs_pos (asked_f1 d k - asked_f0 d k)) by (apply Qle_minus_iff in LE; exact LE).
    split.
    + apply Qle_minus_iff in E2. apply Qle_minus_iff.
      setoid_replace (asked_f1 d k - asked_f0 d k + - (inject_Z (Z.of_nat n) * Qabs s))%Q
        with (asked_f1 d k + - (asked_f0 d k + inject_Z (Z.of_nat n) * Qabs s))%Q by ring. exact E2.
    + apply Qlt_minus_iff in E3. apply Qlt_minus_iff.
      setoid_replace (inject_Z (Z.of_nat (S n)) * Qabs s + - (asked_f1 d k - asked_f0 d k))%Q
        with (asked_f0 d k + inject_Z (Z.of_nat (S n)) * Qabs s + - asked_f1 d k)%Q by ring. exact E3.
  - apply Qle_bool_false in LE.
    (* stepping down by a negative step: the same as counting up with the opposite sign *)
    pose proof (arange_equidistant HF) as E. cbv zeta in E.
    set (p := ((asked_f0 d k - asked_f1 d k) / Qabs s)%Q).
    assert (AN : ~ (Qabs s == 0)%Q).
    { intros Z. rewrite Z in AP. apply Qlt_irrefl in AP. exact AP. }
    assert (L : long ((asked_f1 d k - asked_f0 d k) / - Qabs s)%Q = long p).
    { apply long_Qeq. unfold p. field. exact AN. }
    rewrite L in E.
    assert (P0 : (0 <= p)%Q).
    { unfold p. apply Qle_shift_div_l; [exact AP|]. rewrite Qmult_0_l.
      apply Qlt_le_weak in LE. apply Qle_minus_iff in LE. exact LE. }
    assert (PS : (p * Qabs s == asked_f0 d k - asked_f1 d k)%Q) by (unfold p; field; exact AN).
    destruct (long_bounds P0) as (B0 & B1 & B2).
    assert (QA : (Qabs (asked_f1 d k - asked_f0 d k) == asked_f0 d k - asked_f1 d k)%Q).
    { rewrite Qabs_neg; [ring|]. apply Qle_minus_iff.
      apply Qlt_le_weak in LE. apply Qle_minus_iff in LE.
      setoid_replace (0 + - (asked_f1 d k - asked_f0 d k))%Q
        with (asked_f0 d k + - asked_f1 d k)%Q by ring. exact LE. }
    exists (Z.to_nat (long p)). rewrite Mf, Mc, <- MW. split; [|split].
    + apply equidistant_map; [assumption|].
      replace (0 <=? long p)%Z with true in E by (symmetry; apply Z.leb_le; lia).
      replace (Nat.max 1 (Z.to_nat (long p)))
        with (if (long p =? 0)%Z then 1 else Z.abs_nat (long p)); [exact E|].
      destruct (long p =? 0)%Z eqn:Z0; [apply Z.eqb_eq in Z0; rewrite Z0; reflexivity|].
      apply Z.eqb_neq in Z0. lia.
    + rewrite QA, Z2Nat.id by exact B0.
      apply (Qmult_le_compat_r _ _ (Qabs s)) in B1; [|apply Qabs_nonneg].
      rewrite PS in B1. exact B1.
    + rewrite QA. replace (Z.of_nat (S (Z.to_nat (long p)))) with (long p + 1)%Z by lia.
      apply (Qmult_lt_compat_r _ _ (Qabs s) AP) in B2. rewrite PS in B2. exact B2.
Qed.

(** num_f together with wl1: both ends of the frequency range are the same. *)
Lemma num_f_wl1 : forall d k n w1 e,
  k_num_f k = Some n -> k_wl1 k = Some w1 ->
  ((exists w0, k_wl0 k = Some w0) \/ (light d k / d_wl0 d == d_f1 d)%Q) ->
  construct d k <> Ok e.
Proof.
  intros d k n w1 e N W G H. made H.
  destruct (wave_exclusive MC) as (_ & X & _). destruct X as (A & B & C & D); [congruence|].
  assert (F1 : k_f1 k = None).
  { apply checks_Ok in MC. destruct MC as [MC _]. destruct (k_f1 k) as [f|] eqn:E; [exfalso|reflexivity].
    apply MC. apply (@conflict_pair k [Awl1; Af1; Awl; Af] Awl1 Af1); cbn; auto 10; congruence. }
  unfold wl_grid in MW. rewrite A, B in MW. cbn [given orb] in MW.
  rewrite many_wave in MW by (right; left; congruence). rewrite N in MW.
  ok MW ends HE. destruct ends as [f0 f1]. ok MW df HD. ok MW f HF.
  assert (E : (f0 == f1)%Q).
  { unfold freq_ends in HE. rewrite W in HE. ok HE x1 H1. ok HE x0 H0. injection HE as <- <-.
    apply pydiv_Ok in H0. destruct H0 as [_ ->].
    destruct (k_wl0 k) as [w0|] eqn:E0.
    - apply pydiv_Ok in H1. destruct H1 as [_ ->]. reflexivity.
    - injection H1 as <-. rewrite F1. cbn. destruct G as [[w0 G]|G]; [discriminate|exact G]. }
  apply pydiv_Ok in HD. destruct HD as [I ->]. unfold arange in HF.
  rewrite pydiv_0 in HF; [discriminate|]. rewrite E. field. exact I.
Qed.

(** ** Copies *)
Definition copies (e : environment) : Prop :=
  match n_dt e, n_t1 e with
  | Some dt, Some t1 => (0 <= dt)%Q /\ (n_t0 e <= t1)%Q
  | _, _ => (n_t0 e <= 1 # 1000000000000)%Q
  end.

Lemma no_conflict : ~ conflict no_kw.
Proof. intros H. apply conflict_iff in H. discriminate. Qed.

Lemma step_end : forall l, (step_of l = None <-> end_first l = None).
Proof. intros [|a [|b l]]; cbn; split; intros; try reflexivity; discriminate. Qed.

Lemma copy_checks : forall d k e, construct d k = Ok e ->
  (checks (as_defaults e) no_kw = Ok tt <-> copies e).
Proof.
  intros d k e H. made H. rewrite checks_Ok. unfold bad_times, copies, as_defaults; cbn.
  pose proof (step_end (n_t e)) as SE. rewrite Mdt, Mt1.
  destruct (step_of (n_t e)) as [x|], (end_first (n_t e)) as [y|]; cbn;
    try (destruct SE as [S1 S2]; first [discriminate (S1 eq_refl)|discriminate (S2 eq_refl)]).
  - split.
    + intros [_ B]. split; apply Qnot_lt_le; intros L; apply B; auto.
    + intros [A B]. split; [apply no_conflict|]. intros [L|L].
      * apply (Qlt_not_le _ _ L A).
      * apply (Qlt_not_le _ _ L B).
  - split.
    + intros [_ B]. apply Qnot_lt_le; intros L; apply B; auto.
    + intros A. split; [apply no_conflict|]. intros [L|L]; [discriminate|].
      apply (Qlt_not_le _ _ L A).
Qed.

Lemma copy_refused : forall d k e, construct d k = Ok e -> ~ copies e ->
  copy e no_kw = Err ValueError.
Proof.
  intros d k e H N. unfold copy, construct.
  destruct (checks_cases (as_defaults e) no_kw) as [C|C].
  - apply (copy_checks H) in C. contradiction.
  - rewrite C. reflexivity.
Qed.

Lemma firstn_firstn1 : forall (l : list Q), firstn 1 (firstn 1 l) = firstn 1 l.
Proof. intros [|a l]; reflexivity. Qed.

Lemma copy_same : forall d k e, construct d k = Ok e -> copies e -> copy e no_kw = Ok e.
Proof.
  intros d k e H C. apply (copy_checks H) in C. made H.
  unfold copy, construct. rewrite C. cbn [bind].
  change (bitrate_of (as_defaults e) no_kw) with (Ok (n_bitrate e)). cbn [bind].
  change (time_grid (as_defaults e) no_kw) with (Ok (n_t e)). cbn [bind].
  change (wl_grid (as_defaults e) no_kw) with (Ok (n_wl e)). cbn [bind].
  change (light (as_defaults e) no_kw) with (n_c e).
  change (get (k_freqdomain no_kw) (d_freqdomain (as_defaults e))) with (n_freqdomain e).
  assert (T : (if n_freqdomain e then firstn 1 (n_t e) else n_t e) = n_t e).
  { rewrite Mt. destruct (n_freqdomain e); [apply firstn_firstn1|reflexivity]. }
  assert (B : (if n_freqdomain e then None else n_bitrate e) = n_bitrate e).
  { rewrite Mbr. destruct (n_freqdomain e); reflexivity. }
  rewrite T, B, Mt0. cbn [bind].
  assert (S : match step_of (n_t e) with
              | Some dt => do r <- pydiv 1 dt; Ok (Some r)
              | None => Ok None end = Ok (n_samplerate e)).
  { rewrite Msr, Mdt. rewrite Mdt in Mdtnz. destruct (step_of (n_t e)) as [x|]; [|reflexivity].
    rewrite pydiv_nz by auto. reflexivity. }
  rewrite S. cbn [bind].
  assert (L : match n_bitrate e with
              | Some b => do r <- pydiv 1 b; Ok (Some r)
              | None => Ok None end = Ok (n_bitlength e)).
  { rewrite Mbl. destruct (n_bitrate e) as [x|]; [|reflexivity].
    rewrite pydiv_nz by auto. reflexivity. }
  rewrite L. cbn [bind]. rewrite Mwl, Mwl0. cbn [bind]. rewrite <- Mf, Mf0. cbn [bind].
  f_equal. rewrite <- Mt1, <- Mnt, <- Mdt, <- Mwl1, <- Mnwl, <- Mdwl, <- Mf1, <- Mnf, <- Mdf, <- Mwl.
  destruct e; reflexivity.
Qed.

Lemma head_same : forall l a b, head l = Ok a -> head l = Ok b -> a = b.
Proof. intros l a b H G. congruence. Qed.

(** An override about something else leaves the time part alone. *)
Lemma copy_time : forall d k0 e k e', construct d k0 = Ok e -> copy e k = Ok e' -> no_time k ->
  n_freqdomain e' = n_freqdomain e -> same_time e' e.
Proof.
  intros d k0 e k e' H G (T & A & B & C & D & E) F. unfold copy in G.
  made H. clear MT MW MB MC Mfd. rename Mt into Nt; rename Mt0 into Nt0; rename Mt1 into Nt1;
  rename Mnt into Nnt; rename Mdt into Ndt; rename Msr into Nsr.
  clear Mdtnz Mbr Mbl Mbrnz Mwl Mwl0 Mwl1 Mnwl Mdwl Mc Mf Mf0 Mf1 Mnf Mdf Mg Mn.
  made G.
  assert (X : n_t e' = n_t e).
  { unfold time_grid in MT. rewrite T, A, B, C, D, E in MT. cbn in MT. injection MT as <-.
    rewrite Mt, F. destruct (n_freqdomain e); [|reflexivity].
    rewrite Nt. apply firstn_firstn1. }
  rewrite X in *. unfold same_time.
  assert (n_t0 e' = n_t0 e) by congruence.
  rewrite Mt1, Mnt, Msr, Mdt, Nt1, Nnt, Nsr, Ndt, X. auto 10.
Qed.

Lemma copy_wave : forall d k0 e k e', construct d k0 = Ok e -> copy e k = Ok e' -> no_wave k ->
  same_wave e' e /\ (k_c k = None -> same_freq e' e).
Proof.
  intros d k0 e k e' H G (A & B & C & D & E & F & I & J & K & L). unfold copy in G.
  made H. clear MT MW MB MC Mfd Mt Mt0 Mt1 Mnt Mdt Msr Mdtnz Mbr Mbl Mbrnz Mg Mn.
  rename Mwl into Nwl; rename Mwl0 into Nwl0; rename Mwl1 into Nwl1; rename Mnwl into Nnwl;
  rename Mdwl into Ndwl; rename Mf into Nf; rename Mf0 into Nf0; rename Mf1 into Nf1;
  rename Mnf into Nnf; rename Mdf into Ndf. clear Mc.
  made G.
  assert (X : w0 = w).
  { unfold wl_grid in MW. rewrite A, B, C, D, E, F, I, J, K, L in MW. cbn in MW.
    injection MW as <-. exact Nwl. }
  rewrite X in *. split.
  - unfold same_wave. assert (n_wl0 e' = n_wl0 e) by congruence.
    rewrite Mwl1, Mnwl, Mdwl, Mwl, Nwl1, Nnwl, Ndwl, Nwl. auto.
  - intros Kc. assert (CE : n_c e' = n_c e).
    { rewrite Mc. unfold light. rewrite Kc. reflexivity. }
    assert (FE : n_f e' = n_f e) by (rewrite Mf, Nf, CE; reflexivity).
    unfold same_freq. rewrite Mf1, Mnf, Mdf, Nf1, Nnf, Ndf, FE.
    assert (n_f0 e' = n_f0 e) by congruence. auto.
Qed.

Lemma copy_bits : forall d k0 e k e', construct d k0 = Ok e -> copy e k = Ok e' -> no_bits k ->
  n_freqdomain e' = n_freqdomain e -> same_bits e' e.
Proof.
  intros d k0 e k e' H G (A & B) F. unfold copy in G.
  made H. clear MT MW MB MC Mfd Mt Mt0 Mt1 Mnt Mdt Msr Mdtnz Mg Mn
    Mwl Mwl0 Mwl1 Mnwl Mdwl Mf Mf0 Mf1 Mnf Mdf Mc Mbrnz.
  rename Mbr into Nbr; rename Mbl into Nbl.
  made G. unfold bitrate_of in MB. rewrite A, B in MB. cbn in MB. injection MB as MB. subst b0.
  assert (X : n_bitrate e' = n_bitrate e).
  { rewrite Mbr, F. destruct (n_freqdomain e) eqn:Fd; [|reflexivity]. rewrite Nbr. reflexivity. }
  split; [exact X|]. rewrite Mbl, Nbl, X. reflexivity.
Qed.

Lemma copy_rest : forall e k e', copy e k = Ok e' ->
  (k_name k = None -> n_name e' = n_name e) /\ (k_grad k = None -> n_grad e' = n_grad e) /\
  (k_freqdomain k = None -> n_freqdomain e' = n_freqdomain e) /\
  (k_c k = None -> n_c e' = n_c e).
Proof.
  intros e k e' G. unfold copy in G. made G.
  rewrite Mn, Mg, Mfd, Mc. unfold light. repeat split; intros ->; reflexivity.
Qed.

(** ** The arrays depend only on the arguments about them *)
Lemma depends_time : forall d j k a b, construct d j = Ok a -> construct d k = Ok b ->
  agree_time j k -> n_freqdomain a = n_freqdomain b -> same_time a b.
Proof.
  intros d j k a b H G (E1 & E2 & E3 & E4 & E5 & E6) F.
  made H. clear MW MB MC Mfd Mdtnz Mbr Mbl Mbrnz Mwl Mwl0 Mwl1 Mnwl Mdwl Mc Mf Mf0 Mf1 Mnf Mdf Mg Mn.
  rename Mt into Nt; rename Mt0 into Nt0; rename Mt1 into Nt1; rename MT into NT;
  rename Mnt into Nnt; rename Mdt into Ndt; rename Msr into Nsr.
  made G.
  assert (X : n_t a = n_t b).
  { unfold time_grid in NT, MT. rewrite E1, E2, E3, E4, E5, E6 in NT.
    assert (TE : t' = t'0) by congruence. rewrite Nt, Mt, F, TE. reflexivity. }
  assert (n_t0 a = n_t0 b) by congruence.
  unfold same_time. rewrite Nt1, Nnt, Nsr, Ndt, Mt1, Mnt, Msr, Mdt, X. auto 10.
Qed.

Lemma depends_wave : forall d j k a b, construct d j = Ok a -> construct d k = Ok b ->
  agree_wave j k -> same_wave a b /\ same_freq a b.
Proof.
  intros d j k a b H G (E1 & E2 & E3 & E4 & E5 & E6 & E7 & E8 & E9 & E10 & E11).
  made H. clear MT MB MC Mfd Mdtnz Mbr Mbl Mbrnz Mt Mt0 Mt1 Mnt Mdt Msr Mg Mn.
  rename MW into NW; rename Mc into Nc.
  rename Mwl into Nwl; rename Mwl0 into Nwl0; rename Mwl1 into Nwl1; rename Mnwl into Nnwl;
  rename Mdwl into Ndwl; rename Mf into Nf; rename Mf0 into Nf0; rename Mf1 into Nf1;
  rename Mnf into Nnf; rename Mdf into Ndf.
  made G.
  assert (LE : light d j = light d k) by (unfold light; rewrite E11; reflexivity).
  assert (X : w = w0).
  { unfold wl_grid, freq_ends in NW, MW. rewrite LE, E1, E2, E3, E4, E5, E6, E7, E8, E9, E10 in NW.
    congruence. }
  rewrite <- X in *. assert (CE : n_c a = n_c b) by congruence.
  assert (FE : n_f a = n_f b) by (rewrite Mf, Nf, CE; reflexivity).
  split.
  - unfold same_wave. assert (n_wl0 a = n_wl0 b) by congruence.
    rewrite Mwl1, Mnwl, Mdwl, Mwl, Nwl1, Nnwl, Ndwl, Nwl. auto.
  - unfold same_freq. rewrite Mf1, Mnf, Mdf, Nf1, Nnf, Ndf, FE.
    assert (n_f0 a = n_f0 b) by congruence. auto.
Qed.

(** ** Equality *)
Lemma eqb_scalars : forall a b, env_eqb a b = true ->
  (n_t0 a == n_t0 b)%Q /\ n_num_t a = n_num_t b /\ oeqb (n_dt a) (n_dt b) = true /\
  (n_wl0 a == n_wl0 b)%Q /\ n_num_wl a = n_num_wl b /\ oeqb (n_dwl a) (n_dwl b) = true.
Proof.
  intros a b H. unfold env_eqb in H. rewrite !andb_true_iff in H.
  repeat match goal with X : _ /\ _ |- _ => destruct X end.
  repeat split; first [apply Qeq_bool_iff; assumption|apply Nat.eqb_eq; assumption|assumption].
Qed.

Lemma oeqb_some : forall x y b, oeqb (Some x) b = true -> b = Some y -> (x == y)%Q.
Proof. intros x y b H ->. apply Qeq_bool_iff. exact H. Qed.

Definition uniform (l : list Q) : Prop := exists s d, equidistant l s d (length l).

Lemma eqb_uniform : forall d j k a b, construct d j = Ok a -> construct d k = Ok b ->
  env_eqb a b = true -> uniform (n_t a) -> uniform (n_t b) -> same_points (n_t a) (n_t b).
Proof.
  intros d j k a b H G E (s & x & U) (s' & x' & V).
  destruct (eqb_scalars E) as (T0 & NT & DT & _).
  made H. clear MT MW MB MC Mfd Mdtnz Mbr Mbl Mbrnz Mwl Mwl0 Mwl1 Mnwl Mdwl Mc Mf Mf0 Mf1 Mnf Mdf Mg Mn.
  rename Mt into Nt; rename Mt0 into Nt0; rename Mt1 into Nt1;
  rename Mnt into Nnt; rename Mdt into Ndt; rename Msr into Nsr.
  made G. clear MT MW MB MC Mfd Mdtnz Mbr Mbl Mbrnz Mwl Mwl0 Mwl1 Mnwl Mdwl Mc Mf Mf0 Mf1 Mnf Mdf Mg Mn.
  assert (LE : length (n_t b) = length (n_t a)) by congruence.
  rewrite LE in V. apply (@equidistant_same _ _ s s' x x' (length (n_t a))); auto.
  - rewrite <- (equidistant_head U Nt0), <- (equidistant_head V Mt0). exact T0.
  - intros L. destruct (step_of_some L) as [y Hy].
    destruct (@step_of_some (n_t b)) as [z Hz]; [lia|].
    destruct (equidistant_step U Hy) as [Y _]. destruct (equidistant_step V Hz) as [Z _].
    rewrite <- Y, <- Z. rewrite Ndt, Mdt, Hy in DT. exact (oeqb_some DT Hz).
Qed.

Lemma eqb_uniform_wl : forall d j k a b, construct d j = Ok a -> construct d k = Ok b ->
  env_eqb a b = true -> uniform (n_wl a) -> uniform (n_wl b) -> same_points (n_wl a) (n_wl b).
Proof.
  intros d j k a b H G E (s & x & U) (s' & x' & V).
  destruct (eqb_scalars E) as (_ & _ & _ & T0 & NT & DT).
  made H. clear MT MW MB MC Mfd Mdtnz Mbr Mbl Mbrnz Mt Mt0 Mt1 Mnt Mdt Msr Mc Mf Mf0 Mf1 Mnf Mdf Mg Mn.
  rename Mwl into Nwl; rename Mwl0 into Nwl0; rename Mwl1 into Nwl1; rename Mnwl into Nnwl;
  rename Mdwl into Ndwl.
  made G. clear MT MW MB MC Mfd Mdtnz Mbr Mbl Mbrnz Mt Mt0 Mt1 Mnt Mdt Msr Mc Mf Mf0 Mf1 Mnf Mdf Mg Mn.
  rewrite Nwl in *. rewrite Mwl in *.
  assert (LE : length w0 = length w) by congruence.
  rewrite LE in V. apply (@equidistant_same _ _ s s' x x' (length w)); auto.
  - rewrite <- (equidistant_head U Nwl0), <- (equidistant_head V Mwl0). exact T0.
  - intros L. destruct (step_of_some L) as [y Hy].
    destruct (@step_of_some w0) as [z Hz]; [lia|].
    destruct (equidistant_step U Hy) as [Y _]. destruct (equidistant_step V Hz) as [Z _].
    rewrite <- Y, <- Z. rewrite Ndwl, Mdwl, Hy in DT. exact (oeqb_some DT Hz).
Qed.

(** ** Locked attributes *)
Lemma locked : forall V (l : list (attempt V)) (o : object V), o_locked o = true ->
  try_all o l = (o, map (fun _ => Err AttributeError) l).
Proof.
  intros V l. induction l as [|a l IH]; intros o L; [reflexivity|]. cbn.
  assert (S : try_set o a = (o, Err AttributeError)).
  { unfold try_set. destruct a; [rewrite L|]; reflexivity. }
  rewrite S, (IH o L). reflexivity.
Qed.

(** ** Given bounds that are not used *)
Definition with_f1 (k : kw) (v : Q) : kw :=
  {| k_dt := k_dt k; k_samplerate := k_samplerate k; k_num_t := k_num_t k; k_t0 := k_t0 k;
     k_t1 := k_t1 k; k_t := k_t k; k_bitrate := k_bitrate k; k_bitlength := k_bitlength k;
     k_wl := k_wl k; k_f := k_f k; k_dwl := k_dwl k; k_df := k_df k; k_num_wl := k_num_wl k;
     k_num_f := k_num_f k; k_wl0 := k_wl0 k; k_f0 := k_f0 k; k_wl1 := k_wl1 k; k_f1 := Some v;
     k_c := k_c k; k_freqdomain := k_freqdomain k; k_grad := k_grad k; k_name := k_name k |}.

Lemma f1_ignored : forall d k n w v v', k_num_f k = Some n -> k_wl0 k = Some w ->
  construct d (with_f1 k v) = construct d (with_f1 k v').
Proof.
  intros d k n w v v' N W. unfold construct.
  change (checks d (with_f1 k v')) with (checks d (with_f1 k v)).
  change (bitrate_of d (with_f1 k v')) with (bitrate_of d (with_f1 k v)).
  change (time_grid d (with_f1 k v')) with (time_grid d (with_f1 k v)).
  change (light d (with_f1 k v')) with (light d (with_f1 k v)).
  assert (E : freq_ends d (with_f1 k v) = freq_ends d (with_f1 k v')).
  { unfold freq_ends. cbn. rewrite W. reflexivity. }
  assert (G : wl_grid d (with_f1 k v) = wl_grid d (with_f1 k v')
              \/ checks d (with_f1 k v) = Err ValueError).
  { destruct (checks_cases d (with_f1 k v)) as [C|C]; [left|right; exact C].
    destruct (wave_exclusive C) as (_ & X & _). destruct X as (A & B & _); [cbn; congruence|].
    cbn in A, B. unfold wl_grid. rewrite <- E. cbn. rewrite A, B, N. cbn. reflexivity. }
  destruct G as [->| ->]; reflexivity.
Qed.

(** ** When an environment is created *)
Definition time_fine (d : dflt) (k : kw) : Prop :=
  match k_t k with
  | Some a => exists x l, flat a = Ok (x :: l) /\ forall y, step_of (x :: l) = Some y -> ~ (y == 0)%Q
  | None => (0 < asked_dt d k)%Q /\ (forall s, k_samplerate k = Some s -> ~ (s == 0)%Q) /\
            (forall n, k_num_t k = Some n -> (0 < n)%Z)
  end.

Definition wave_fine (d : dflt) (k : kw) : Prop :=
  k_f k = None /\ k_num_f k = None /\ k_df k = None /\
  match k_wl k with
  | Some a => exists x l, flat a = Ok (x :: l)
  | None =>
      (forall f, k_f0 k = Some f -> ~ (f == 0)%Q) /\ (forall f, k_f1 k = Some f -> ~ (f == 0)%Q) /\
      match k_num_wl k with
      | Some n => (n <> 0)%Z /\ ~ (asked_wl0 d k == asked_wl1 d k)%Q
      | None => ~ (get (k_dwl k) (d_dwl d) == 0)%Q
      end
  end.

Definition bits_fine (d : dflt) (k : kw) : Prop :=
  (forall b, k_bitlength k = Some b -> ~ (b == 0)%Q) /\
  (forall b, k_bitrate k = Some b -> ~ (b == 0)%Q) /\
  (forall b, d_bitrate d = Some b -> ~ (b == 0)%Q).

Definition defaults_fine (d : dflt) : Prop :=
  (exists x l, flat (d_t d) = Ok (x :: l) /\ forall y, step_of (x :: l) = Some y -> ~ (y == 0)%Q) /\
  (exists x l, flat (d_wl d) = Ok (x :: l)).

Lemma arange_nonempty : forall a b s, ~ (s == 0)%Q -> exists x l, arange a b s = Ok (x :: l).
Proof.
  intros a b s N. unfold arange. rewrite (pydiv_nz (b - a)%Q N). cbn [bind].
  destruct (Z.eqb_spec (long ((b - a) / s)) 0) as [E|E]; [do 2 eexists; reflexivity|].
  destruct (0 <? long ((b - a) / s))%Z eqn:P.
  - apply Z.ltb_lt in P. destruct (Z.to_nat (long ((b - a) / s))) eqn:T; [lia|].
    cbn [seq map]. do 2 eexists; reflexivity.
  - apply Z.ltb_ge in P. destruct (Z.to_nat (- long ((b - a) / s))) eqn:T; [lia|].
    cbn [seq map]. do 2 eexists; reflexivity.
Qed.

Lemma opp_nz : forall q, ~ (q == 0)%Q -> ~ (- q == 0)%Q.
Proof. intros q N E. apply N. rewrite <- (Qopp_involutive q), E. reflexivity. Qed.

Lemma time_grid_fine : forall d k, defaults_fine d -> time_fine d k ->
  exists x l, time_grid d k = Ok (x :: l) /\ forall y, step_of (x :: l) = Some y -> ~ (y == 0)%Q.
Proof.
  intros d k [DF _] TF. unfold time_fine in TF. unfold time_grid.
  destruct (k_t k) as [a|] eqn:T; [exact TF|]. cbn [given orb get].
  destruct (many _ =? 0); [exact DF|]. destruct TF as (P & SN & NP).
  assert (DN : ~ (asked_dt d k == 0)%Q).
  { intros E. rewrite E in P. apply Qlt_irrefl in P. exact P. }
  assert (ED : match k_samplerate k with Some s => pydiv 1 s | None => Ok (get (k_dt k) (d_dt d)) end
               = Ok (asked_dt d k)).
  { unfold asked_dt. destruct (k_samplerate k) as [s|]; [apply pydiv_nz; auto|reflexivity]. }
  rewrite ED. cbn [bind].
  destruct (k_num_t k) as [n|] eqn:N.
  - specialize (NP n eq_refl).
    destruct (linspace (get (k_t0 k) (d_t0 d)) (get (k_t0 k) (d_t0 d) + inject_Z n * asked_dt d k) n)
      as [l|e] eqn:L.
    + pose proof (linspace_equidistant NP L) as E. destruct l as [|x l].
      { destruct E as [E _]. cbn in E. lia. }
      exists x, l. split; [reflexivity|]. intros y Y. destruct (equidistant_step E Y) as [-> _].
      exact DN.
    + apply linspace_Err in L. lia.
  - destruct (arange_nonempty (get (k_t0 k) (d_t0 d)) (get (k_t1 k) (d_t1 d)) DN) as (x & l & A).
    exists x, l. split; [exact A|]. intros y Y.
    pose proof (arange_equidistant A) as E. cbv zeta in E.
    destruct (equidistant_step E Y) as [-> _].
    destruct (0 <=? _)%Z; [exact DN|apply opp_nz; exact DN].
Qed.

Lemma wl_grid_fine : forall d k, defaults_fine d -> wave_fine d k -> exists x l, wl_grid d k = Ok (x :: l).
Proof.
  intros d k [_ DF] (F & NF & DFr & W). unfold wl_grid. rewrite F, NF, DFr.
  destruct (k_wl k) as [a|]; [exact W|]. cbn [given orb get bind].
  destruct (many _ =? 0); [exact DF|]. destruct W as (Z0 & Z1 & W).
  assert (E0 : match k_f0 k with Some f => pydiv (light d k) f
               | None => Ok (get (k_wl0 k) (d_wl0 d)) end = Ok (asked_wl0 d k)).
  { unfold asked_wl0. destruct (k_f0 k); [apply pydiv_nz; auto|reflexivity]. }
  assert (E1 : match k_f1 k with Some f => pydiv (light d k) f
               | None => Ok (get (k_wl1 k) (d_wl1 d)) end = Ok (asked_wl1 d k)).
  { unfold asked_wl1. destruct (k_f1 k); [apply pydiv_nz; auto|reflexivity]. }
  rewrite E0, E1. cbn [bind].
  destruct (k_num_wl k) as [n|].
  - destruct W as [NZ NE]. destruct (arange_split_ok NZ NE) as (s & l & S & L).
    rewrite S. cbn [bind]. pose proof (arange_split NZ NE S L) as [E _].
    destruct l as [|x l]; [cbn in E; lia|]. exists x, l. exact L.
  - cbn [bind]. apply arange_nonempty. exact W.
Qed.

Lemma created : forall d k, defaults_fine d -> ~ conflict k -> ~ bad_times d k ->
  bits_fine d k -> time_fine d k -> wave_fine d k -> exists e, construct d k = Ok e.
Proof.
  intros d k DF NC NB (B1 & B2 & B3) TF WF. unfold construct.
  assert (C : checks d k = Ok tt) by (apply checks_Ok; auto). rewrite C. cbn [bind].
  assert (BR : exists b, bitrate_of d k = Ok b /\ forall x, b = Some x -> ~ (x == 0)%Q).
  { unfold bitrate_of. destruct (k_bitlength k) as [b|].
    - exists (Some (1 / b)%Q). rewrite pydiv_nz by auto. split; [reflexivity|].
      intros x E. injection E as <-. intros Z. specialize (B1 b eq_refl). apply B1.
      assert (A : (b == b * b * (1 / b))%Q) by (field; exact B1). rewrite A, Z. ring.
    - destruct (k_bitrate k) as [b|].
      + exists (Some b). split; [reflexivity|]. intros x E; injection E as <-; auto.
      + exists (d_bitrate d). auto. }
  destruct BR as (b & BR & BN). rewrite BR. cbn [bind].
  destruct (time_grid_fine DF TF) as (x & l & T & SN). rewrite T. cbn [bind].
  destruct (wl_grid_fine DF WF) as (w & wl & W). rewrite W. cbn [bind head map].
  destruct (get (k_freqdomain k) (d_freqdomain d)).
  - cbn. eexists; reflexivity.
  - cbn [head bind].
    destruct (step_of (x :: l)) as [y|]; cbn [bind].
    + rewrite pydiv_nz by auto. cbn [bind].
      destruct b as [b|]; cbn [bind]; [rewrite pydiv_nz by auto; cbn [bind]|]; eexists; reflexivity.
    + destruct b as [b|]; cbn [bind]; [rewrite pydiv_nz by auto; cbn [bind]|]; eexists; reflexivity.
Qed.

Lemma class_defaults_fine : defaults_fine class_defaults.
Proof.
  split.
  - do 2 eexists. split; [cbn; reflexivity|]. intros y H. injection H as <-. discriminate.
  - do 2 eexists. reflexivity.
Qed.
