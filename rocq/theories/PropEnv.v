(** Properties of environments and of with-blocks: C13, C14, C45-C52, C69. *)
From Coq Require Import QArith Qabs Qfield Lqa.
From Verif Require Import Base SimModel EnvModel EnvSpec EnvProofs EnvMore StackModel.
Set Implicit Arguments.
Unset Strict Implicit.
Local Open Scope nat_scope.

(** ** C13: network with-blocks *)
(** As long as no with-block is left by an exception (caught outside of it or not caught), every
    program leaves the network being defined as it found it. *)
Theorem C13_current_network_partial : forall p st, broken p = 0 ->
  fst (nrun p st) = st /\ current_network (fst (nrun p st)) = current_network st.
Proof. intros p st H. rewrite (nrun_restores st H). auto. Qed.

(** In general one network stays on the stack for each with-block left by an exception. *)
Theorem C13_leftovers : forall p st, length (fst (nrun p st)) = length st + broken p.
Proof. intros p st. apply nrun_fails. Qed.

(** So a program with an exception in a with-block never restores the stack. *)
Theorem C13_exception_refuted : forall o p st, fails p = true ->
  fst (nrun (Try (With o p)) st) <> st.
Proof.
  intros o p st F E. pose proof (C13_leftovers (Try (With o p)) st) as L. rewrite E in L.
  cbn in L. rewrite F in L. lia.
Qed.

Example C13_example : broken (With 1 (Seq (With 2 Skip) (Try Fail))) = 0. Proof. reflexivity. Qed.
Theorem C13_refuted : exists p, current_network (fst (nrun p [])) <> current_network [].
Proof. exists (Try (With 7 Fail)). discriminate. Qed.
(** A leftover inner network is what the outer block deletes: the outer one stays current. *)
Theorem C13_outer_stays : fst (nrun (With 1 (Try (With 2 Fail))) []) = [1]. Proof. reflexivity. Qed.

(** ** C14: environment with-blocks *)
Theorem C14_current_environment : forall mode p s, pure_blocks p ->
  s_stack (fst (erun mode p s)) = s_stack s /\
  current_environment (fst (erun mode p s)) = current_environment s.
Proof.
  intros mode p s H. destruct (erun_stack mode s H) as [A _]. unfold current_environment.
  rewrite A. auto.
Qed.

(** An exception in a block is passed on, exactly when the program raises one. *)
Theorem C14_exceptions_propagate : forall mode p s, pure_blocks p ->
  snd (erun mode p s) = fails p.
Proof. intros mode p s H. apply (erun_stack mode s H). Qed.

Theorem C14_gradient_mode : forall mode p s, pure_blocks p -> not_reentered p ->
  s_grad (fst (erun mode p s)) = s_grad s.
Proof. exact erun_grad. Qed.

Theorem C14_inside : forall mode o s,
  current_environment (env_enter mode o s) = Ok o /\ s_grad (env_enter mode o s) = mode o.
Proof. exact enter_current. Qed.

Theorem C14_none : forall s, s_stack s = [] -> current_environment s = Err RuntimeError.
Proof. intros s H. unfold current_environment. rewrite H. reflexivity. Qed.

Definition C14_start := {| s_stack := [9]; s_grad := true; s_prev := fun _ => false |}.
Example C14_example :
  let p := With 1 (Seq (Try (With 2 Fail)) (With 3 Fail)) in
  pure_blocks p /\ not_reentered p /\ fails p = true /\
  fst (erun (fun _ => false) p C14_start) <> C14_start.
Proof.
  cbn. repeat split; try tauto; try (intuition congruence).
  intros H. apply (f_equal (fun s => s_prev s 1)) in H. discriminate.
Qed.

(** Entering the same environment twice: the gradient mode is not restored. *)
Theorem C14_reentered_refuted : exists mode o s,
  s_grad (fst (erun mode (With o (With o Skip)) s)) <> s_grad s.
Proof. exists (fun _ => false), 1, C14_start. discriminate. Qed.

(** set_environment() inside a block: the block's exit pops neither environment. *)
Theorem C14_set_environment_refuted : forall mode o o' s, o <> o' ->
  s_stack (fst (erun mode (With o (SetEnv o')) s)) = o' :: o :: s_stack s.
Proof.
  intros mode o o' s N. cbn. destruct (Nat.eqb_spec o' o); [congruence|]. reflexivity.
Qed.

(** ** C45: which arguments are accepted *)
Theorem C45_refused : forall k,
  conflict k \/ (get (k_dt k) (1 # 100000000000000) < 0)%Q \/
  (get (k_t1 k) (1 # 1000000000000) < get (k_t0 k) 0)%Q ->
  Environment k = Err ValueError.
Proof. intros k H. apply construct_refuses. unfold bad_times. exact H. Qed.

(** The only other reasons for a ValueError: an array of more than one dimension, or a negative
    number of time steps. *)
Theorem C45_only_then : forall k, Environment k = Err ValueError ->
  conflict k \/ (get (k_dt k) (1 # 100000000000000) < 0)%Q \/
  (get (k_t1 k) (1 # 1000000000000) < get (k_t0 k) 0)%Q \/
  k_t k = Some HighDim \/ (exists n, k_num_t k = Some n /\ (n < 0)%Z) \/
  k_wl k = Some HighDim \/ k_f k = Some HighDim.
Proof.
  intros k H. apply construct_ValueError in H. unfold bad_times, odd_args in H. cbn in H.
  destruct H as [H|[[H|H]|[H|[H|[H|H]]]]]; auto 10.
  - destruct (k_t k) as [a|]; [cbn in H; subst a; auto 10|discriminate].
  - destruct (k_wl k) as [a|]; [cbn in H; subst a; auto 10|discriminate].
Qed.

(** With sensible numbers an environment is created (time and wavelength steps not zero, at least
    one time step, different ends for num_wl; num_f and df are looked at in C48). *)
Theorem C45_created : forall k, ~ conflict k ->
  (0 <= get (k_dt k) (1 # 100000000000000))%Q ->
  (get (k_t0 k) 0 <= get (k_t1 k) (1 # 1000000000000))%Q ->
  (forall b, k_bitlength k = Some b -> ~ (b == 0)%Q) ->
  (forall b, k_bitrate k = Some b -> ~ (b == 0)%Q) ->
  time_fine class_defaults k -> wave_fine class_defaults k ->
  exists e, Environment k = Ok e.
Proof.
  intros k C D T B1 B2 TF WF. apply created; auto.
  - exact class_defaults_fine.
  - intros [L|L]; cbn in L; [apply (Qlt_not_le _ _ L D)|apply (Qlt_not_le _ _ L T)].
  - repeat split; auto. discriminate.
Qed.

(** The defaults fit together: a picosecond in steps of 10 fs, and the frequencies of the ends of the wavelength range. *)
Theorem C45_defaults : let d := class_defaults in
  (d_f0 d * d_wl1 d == d_c d /\ d_f1 d * d_wl0 d == d_c d /\ 0 < d_wl0 d /\ d_wl0 d < d_wl1 d)%Q
  /\ (exists ts, flat (d_t d) = Ok ts /\ (inject_Z (Z.of_nat (length ts)) * d_dt d == d_t1 d - d_t0 d)%Q
       /\ forall i t, nth_error ts i = Some t -> (t == d_t0 d + inject_Z (Z.of_nat i) * d_dt d)%Q)
  /\ (exists w, flat (d_wl d) = Ok [w] /\ (d_wl0 d < w)%Q /\ (w < d_wl1 d)%Q).
Proof.
  cbv zeta. split; [repeat split; reflexivity|]. split.
  - eexists. split; [reflexivity|]. split; [reflexivity|]. intros i t H.
    rewrite nth_error_map in H. destruct (nth_error (seq 0 100) i) as [j|] eqn:E; [|discriminate]. cbn in H. injection H as <-.
    assert (L : (i < 100)%nat) by (rewrite <- (seq_length 100 0); apply nth_error_Some; congruence).
    assert (J : j = i). { apply (nth_error_nth _ _ 0%nat) in E. rewrite seq_nth in E by exact L. cbn in E. congruence. }
    subst j. cbn [d_t0 d_dt class_defaults]. ring.
  - eexists. split; [reflexivity|]. split; reflexivity.
Qed.

(** The time arrays depend only on the arguments about time (and on freqdomain); the wavelength
    arrays only on the arguments about wavelengths and c. *)
Theorem C45_determined : forall j k a b, Environment j = Ok a -> Environment k = Ok b ->
  (agree_time j k -> n_freqdomain a = n_freqdomain b -> same_time a b) /\
  (agree_wave j k -> same_wave a b /\ same_freq a b).
Proof.
  intros j k a b A B. split.
  - intros G F. exact (depends_time A B G F).
  - intros G. exact (depends_wave A B G).
Qed.

(** Although t1 is not given, a start after 1 ps is refused when num_t is given. *)
Theorem C45_late_start_refuted : forall k n t0, k_num_t k = Some n -> k_t1 k = None ->
  k_t0 k = Some t0 -> (1 # 1000000000000 < t0)%Q -> Environment k = Err ValueError.
Proof.
  intros k n t0 _ T1 T0 L. apply C45_refused. right; right. rewrite T1, T0. exact L.
Qed.

(** Example arguments: num_t=10, t0=0, dt=2; num_wl=4 between 1 and 3; bitrate 5. *)
Definition ex_kw : kw :=
  {| k_dt := Some 2%Q; k_samplerate := None; k_num_t := Some 10%Z; k_t0 := Some 0%Q; k_t1 := None;
     k_t := None; k_bitrate := Some 5%Q; k_bitlength := None; k_wl := None; k_f := None;
     k_dwl := None; k_df := None; k_num_wl := Some 4%Z; k_num_f := None; k_wl0 := Some 1%Q;
     k_f0 := None; k_wl1 := Some 3%Q; k_f1 := None; k_c := Some 6%Q; k_freqdomain := None;
     k_grad := None; k_name := None |}.
Definition set_conflict (k : kw) : kw :=
  {| k_dt := k_dt k; k_samplerate := Some 1%Q; k_num_t := k_num_t k; k_t0 := k_t0 k;
     k_t1 := k_t1 k; k_t := k_t k; k_bitrate := k_bitrate k; k_bitlength := k_bitlength k;
     k_wl := k_wl k; k_f := k_f k; k_dwl := k_dwl k; k_df := k_df k; k_num_wl := k_num_wl k;
     k_num_f := k_num_f k; k_wl0 := k_wl0 k; k_f0 := k_f0 k; k_wl1 := k_wl1 k; k_f1 := k_f1 k;
     k_c := k_c k; k_freqdomain := k_freqdomain k; k_grad := k_grad k; k_name := k_name k |}.

Definition ok_env (r : res environment) : environment :=
  match r with
  | Ok e => e
  | Err _ => {| n_name := ""; n_t := []; n_t0 := 0; n_t1 := None; n_num_t := 0; n_dt := None;
                n_samplerate := None; n_bitrate := None; n_bitlength := None; n_wl := [];
                n_wl0 := 0; n_wl1 := None; n_num_wl := 0; n_dwl := None; n_f := []; n_f0 := 0;
                n_f1 := None; n_num_f := 0; n_df := None; n_c := 0; n_freqdomain := false;
                n_grad := false |}
  end.
Definition ex_env : environment := ok_env (Environment ex_kw).
Lemma ex_made : Environment ex_kw = Ok ex_env. Proof. vm_compute. reflexivity. Qed.

Example C45_example_conflict : conflict (set_conflict ex_kw).
Proof.
  exists [Adt; Asamplerate; At], Adt, Asamplerate. cbn.
  repeat split; try tauto; try discriminate.
Qed.
Example C45_example_created : ~ conflict ex_kw /\ time_fine class_defaults ex_kw /\
  wave_fine class_defaults ex_kw.
Proof.
  split; [|split].
  - intros C. assert (E : Environment ex_kw = Err ValueError) by (apply C45_refused; auto).
    rewrite ex_made in E. discriminate.
  - cbn. repeat split; try discriminate. intros n E; injection E as <-; lia.
  - cbn. repeat split; try discriminate; try lia; try (intros f E; discriminate).
Qed.

(** ** C46: the time grid *)
(** num_t given: exactly that many points, t0, t0 + dt, ...; t0, dt, t1, num_t and samplerate
    describe the grid ([reported] in EnvMore.v). *)
Theorem C46_num_t : forall k e n, Environment k = Ok e -> n_freqdomain e = false ->
  k_num_t k = Some n ->
  (0 < n)%Z /\ reported e (asked_t0 class_defaults k) (asked_dt class_defaults k) (Z.to_nat n).
Proof. intros k e n. apply made_num_t. Qed.

(** Otherwise the grid from t0 with step dt covers the range up to t1 except for less than a step. *)
Theorem C46_t1 : forall k e, Environment k = Ok e -> n_freqdomain e = false ->
  k_t k = None -> k_num_t k = None ->
  (k_dt k <> None \/ k_samplerate k <> None \/ k_t0 k <> None \/ k_t1 k <> None) ->
  (0 < asked_dt class_defaults k)%Q ->
  exists n, reported e (asked_t0 class_defaults k) (asked_dt class_defaults k) (Nat.max 1 n) /\
    (asked_t0 class_defaults k + inject_Z (Z.of_nat n) * asked_dt class_defaults k
       <= asked_t1 class_defaults k)%Q /\
    (asked_t1 class_defaults k <
       asked_t0 class_defaults k + inject_Z (Z.of_nat (S n)) * asked_dt class_defaults k)%Q.
Proof. intros k e. apply made_t1. Qed.

(** A given time array is used as it is; without any argument about time the default is used. *)
Theorem C46_array : forall k e, Environment k = Ok e -> n_freqdomain e = false ->
  (forall l, k_t k = Some (Vec l) -> n_t e = l) /\
  (forall q, k_t k = Some (Scalar q) -> n_t e = [q]) /\
  (no_time k -> equidistant (n_t e) 0 (1 # 100000000000000) 100).
Proof.
  intros k e H F. split; [|split].
  - intros l T. pose proof (made_t H F T) as E. injection E; auto.
  - intros l T. pose proof (made_t H F T) as E. injection E; auto.
  - intros N. pose proof (made_default_t H F N) as E. injection E as <-.
    split; [reflexivity|]. intros i Hi.
    change (nth i (map (fun i => 0 + (1 # 100000000000000) * inject_Z (Z.of_nat i))%Q (seq 0 100)) 0%Q
            == 0 + inject_Z (Z.of_nat i) * (1 # 100000000000000))%Q.
    rewrite nth_map_seq by exact Hi. ring.
Qed.

Example C46_example : reported ex_env 0 2 10.
Proof. exact (proj2 (C46_num_t ex_made eq_refl eq_refl)). Qed.

(** ** C47: the wavelength grid *)
Theorem C47_num_wl : forall k e n, Environment k = Ok e -> k_num_wl k = Some n ->
  (n <> 0)%Z /\ ~ (asked_wl0 class_defaults k == asked_wl1 class_defaults k)%Q /\
  n_num_wl e = Z.abs_nat n /\ n_num_f e = Z.abs_nat n /\
  equidistant (n_wl e) (asked_wl0 class_defaults k)
    ((asked_wl1 class_defaults k - asked_wl0 class_defaults k) / inject_Z (Z.abs n))%Q (Z.abs_nat n).
Proof. intros k e n. apply made_num_wl. Qed.

Theorem C47_dwl : forall k e s, Environment k = Ok e -> k_dwl k = Some s -> (0 < s)%Q ->
  let wl0 := asked_wl0 class_defaults k in let wl1 := asked_wl1 class_defaults k in
  exists n : nat,
    ((wl0 <= wl1)%Q -> equidistant (n_wl e) wl0 s (Nat.max 1 n) /\
       (wl0 + inject_Z (Z.of_nat n) * s <= wl1)%Q /\
       (wl1 < wl0 + inject_Z (Z.of_nat (S n)) * s)%Q) /\
    ((wl1 <= wl0)%Q -> equidistant (n_wl e) wl0 (- s) (Nat.max 1 n) /\
       (wl1 <= wl0 - inject_Z (Z.of_nat n) * s)%Q /\
       (wl0 - inject_Z (Z.of_nat (S n)) * s < wl1)%Q).
Proof. intros k e s. apply made_dwl. Qed.

Theorem C47_frequencies : forall k e, Environment k = Ok e ->
  length (n_f e) = length (n_wl e) /\
  forall i, i < length (n_wl e) -> (nth i (n_f e) 0 == n_c e / nth i (n_wl e) 0)%Q.
Proof. intros k e. apply made_freq. Qed.

Example C47_example : equidistant (n_wl ex_env) 1 (2 / 4) 4.
Proof. exact (proj2 (proj2 (proj2 (proj2 (C47_num_wl ex_made eq_refl))))). Qed.

(** ** C48: the frequency grid *)
Theorem C48_num_f : forall k e n, Environment k = Ok e -> k_num_f k = Some n ->
  k_wl1 k = None -> ~ (light class_defaults k == 0)%Q ->
  (n <> 0)%Z /\ n_num_f e = Z.abs_nat n /\ n_num_wl e = Z.abs_nat n /\
  equidistant (n_f e) (asked_f0 class_defaults k)
    ((asked_f1 class_defaults k - asked_f0 class_defaults k) / inject_Z (Z.abs n))%Q (Z.abs_nat n).
Proof. intros k e n. apply made_num_f. Qed.

Theorem C48_df : forall k e s, Environment k = Ok e -> k_df k = Some s -> ~ (s == 0)%Q ->
  k_wl1 k = None -> ~ (light class_defaults k == 0)%Q ->
  let f0 := asked_f0 class_defaults k in let f1 := asked_f1 class_defaults k in
  exists n : nat,
    equidistant (n_f e) f0 (if Qle_bool f0 f1 then Qabs s else - Qabs s)%Q (Nat.max 1 n) /\
    (inject_Z (Z.of_nat n) * Qabs s <= Qabs (f1 - f0))%Q /\
    (Qabs (f1 - f0) < inject_Z (Z.of_nat (S n)) * Qabs s)%Q.
Proof. intros k e s. apply made_df. Qed.

(** Together with wl1 the range is empty: no environment can be created with num_f and wl1, if wl0
    is given too or the speed of light is the default one. *)
Theorem C48_wl1_refuted : forall k n w1, k_num_f k = Some n -> k_wl1 k = Some w1 ->
  (k_wl0 k <> None \/ k_c k = None) -> forall e, Environment k <> Ok e.
Proof.
  intros k n w1 N W G e. apply (@num_f_wl1 class_defaults k n w1 e N W).
  destruct (k_wl0 k) as [w0|]; [left; eauto|right]. destruct G as [G|G]; [congruence|].
  unfold light. rewrite G. reflexivity.
Qed.

Definition ex_num_f (n : option Z) (df : option Q) (wl0 f0 wl1 f1 : option Q) : kw :=
  {| k_dt := None; k_samplerate := None; k_num_t := None; k_t0 := None; k_t1 := None;
     k_t := None; k_bitrate := None; k_bitlength := None; k_wl := None; k_f := None;
     k_dwl := None; k_df := df; k_num_wl := None; k_num_f := n; k_wl0 := wl0;
     k_f0 := f0; k_wl1 := wl1; k_f1 := f1; k_c := Some 6%Q; k_freqdomain := None;
     k_grad := None; k_name := None |}.
Example C48_example :
  (exists e, Environment (ex_num_f (Some 4%Z) None None (Some 1) None (Some 3))%Q = Ok e /\ n_num_f e = 4) /\
  (exists e, Environment (ex_num_f None (Some (-1)) None (Some 5) None (Some 1))%Q = Ok e /\ n_num_f e = 4).
Proof. split; eexists; split; vm_compute; reflexivity. Qed.
Example C48_refuted_case :
  Environment (ex_num_f (Some 4%Z) None (Some 2) None (Some 3) None)%Q = Err ZeroDivisionError.
Proof. vm_compute. reflexivity. Qed.

(** ** C49: copies *)
(** A copy without overrides succeeds, with the same attributes, exactly for these environments. *)
Theorem C49_copy : forall k e, Environment k = Ok e -> copies e -> copy e no_kw = Ok e.
Proof. intros k e. apply copy_same. Qed.

Theorem C49_not_copied : forall k e, Environment k = Ok e -> ~ copies e ->
  copy e no_kw = Err ValueError.
Proof. intros k e. apply copy_refused. Qed.

(** The same for copies of copies. *)
Theorem C49_copy_again : forall e k e', copy e k = Ok e' -> copies e' -> copy e' no_kw = Ok e'.
Proof. intros e k e'. apply copy_same. Qed.

(** An override changes only what depends on it. *)
Theorem C49_override : forall k0 e k e', Environment k0 = Ok e -> copy e k = Ok e' ->
  (no_time k -> n_freqdomain e' = n_freqdomain e -> same_time e' e) /\
  (no_wave k -> same_wave e' e /\ (k_c k = None -> same_freq e' e)) /\
  (no_bits k -> n_freqdomain e' = n_freqdomain e -> same_bits e' e) /\
  (k_name k = None -> n_name e' = n_name e) /\ (k_grad k = None -> n_grad e' = n_grad e) /\
  (k_freqdomain k = None -> n_freqdomain e' = n_freqdomain e) /\
  (k_c k = None -> n_c e' = n_c e).
Proof.
  intros k0 e k e' H G. destruct (copy_rest G) as (R1 & R2 & R3 & R4).
  repeat split; auto; intros.
  all: try (apply (copy_time H G); assumption).
  all: try (apply (copy_wave H G); assumption).
  all: try (apply (copy_bits H G); assumption).
Qed.

Definition single (t : Q) : kw :=
  {| k_dt := None; k_samplerate := None; k_num_t := None; k_t0 := None; k_t1 := None;
     k_t := Some (Scalar t); k_bitrate := None; k_bitlength := None; k_wl := None; k_f := None;
     k_dwl := None; k_df := None; k_num_wl := None; k_num_f := None; k_wl0 := None;
     k_f0 := None; k_wl1 := None; k_f1 := None; k_c := None; k_freqdomain := None;
     k_grad := None; k_name := None |}.
Definition times (l : list Q) : kw :=
  {| k_dt := None; k_samplerate := None; k_num_t := None; k_t0 := None; k_t1 := None;
     k_t := Some (Vec l); k_bitrate := None; k_bitlength := None; k_wl := None; k_f := None;
     k_dwl := None; k_df := None; k_num_wl := None; k_num_f := None; k_wl0 := None;
     k_f0 := None; k_wl1 := None; k_f1 := None; k_c := None; k_freqdomain := None;
     k_grad := None; k_name := None |}.

Example C49_example : copies ex_env /\ copy ex_env no_kw = Ok ex_env.
Proof.
  assert (C : copies ex_env) by (split; vm_compute; discriminate).
  split; [exact C|]. exact (C49_copy ex_made C).
Qed.

(** A single time step after 1 ps, and a decreasing time array, cannot be copied. *)
Theorem C49_refuted : exists k e, Environment k = Ok e /\ copy e no_kw = Err ValueError.
Proof. exists (single 1). eexists. split; [vm_compute; reflexivity|]. vm_compute. reflexivity. Qed.
Theorem C49_decreasing_refuted : exists k e, Environment k = Ok e /\ n_num_t e = 3 /\
  copy e no_kw = Err ValueError.
Proof.
  exists (times [3; 2; 1]%Q). eexists. split; [vm_compute; reflexivity|]. split; vm_compute; reflexivity.
Qed.

(** ** C50: attributes are locked *)
Theorem C50_locked : forall V (o : object V) (l : list (attempt V)), o_locked o = true ->
  try_all o l = (o, map (fun _ => Err AttributeError) l).
Proof. intros V o l. apply locked. Qed.

Example C50_example :
  let o := {| o_dict := [("dt"%string, 1)]; o_locked := true |} in
  try_all o [SetAttr "dt" 2; SetItem "t0" 3] = (o, [Err AttributeError; Err AttributeError]) /\
  fst (try_all {| o_dict := o_dict o; o_locked := false |} [SetAttr "dt" 2])
    = {| o_dict := [("dt"%string, 2)]; o_locked := false |}.
Proof. split; reflexivity. Qed.

(** ** C51: equality *)
Theorem C51_equivalence :
  (forall a, env_eqb a a = true) /\ (forall a b, env_eqb a b = env_eqb b a) /\
  (forall a b c, env_eqb a b = true -> env_eqb b c = true -> env_eqb a c = true).
Proof. repeat split; [exact env_eqb_refl|exact env_eqb_sym|exact env_eqb_trans]. Qed.

Theorem C51_uniform_partial : forall j k a b, Environment j = Ok a -> Environment k = Ok b ->
  env_eqb a b = true ->
  (uniform (n_t a) -> uniform (n_t b) -> same_points (n_t a) (n_t b)) /\
  (uniform (n_wl a) -> uniform (n_wl b) -> same_points (n_wl a) (n_wl b)).
Proof.
  intros j k a b A B E. split; [exact (eqb_uniform A B E)|exact (eqb_uniform_wl A B E)].
Qed.

Example C51_example : env_eqb ex_env ex_env = true /\ uniform (n_t ex_env).
Proof.
  split; [vm_compute; reflexivity|]. exists 0%Q, 2%Q. exact (proj1 C46_example).
Qed.

(** Grids with up to three points are always compared. *)
Theorem C51_short : forall j k a b, Environment j = Ok a -> Environment k = Ok b ->
  env_eqb a b = true ->
  (n_num_t a <= 3 -> same_points (n_t a) (n_t b)) /\
  (n_num_wl a <= 3 -> same_points (n_wl a) (n_wl b)).
Proof.
  intros j k a b A B E. unfold env_eqb in E. rewrite !andb_true_iff in E.
  destruct E as [[[[[[[[[[[[[[[[[[_ T0] T1] NT] DT] _] _] _] W0] W1] NW] DW] _] _] _] _] _] _] _].
  apply Qeq_bool_iff in T0, W0. apply Nat.eqb_eq in NT, NW. apply oeqb_iff in T1, DT, W1, DW.
  pose proof (construct_Ok A) as (t' & w & c & _ & _ & _ & _ & _ & _ & At0 & At1 & Ant & Adt & _ & _ & _ & _
    & _ & Aw & Aw0 & Aw1 & Anw & Adw & _).
  pose proof (construct_Ok B) as (t'' & w' & c' & _ & _ & _ & _ & _ & _ & Bt0 & Bt1 & Bnt & Bdt & _ & _ & _ & _
    & _ & Bw & Bw0 & Bw1 & Bnw & Bdw & _).
  rewrite At1, Bt1 in T1. rewrite Ant, Bnt in NT. rewrite Adt, Bdt in DT. rewrite Ant.
  rewrite Aw, Bw. rewrite Aw1, Bw1 in W1. rewrite Anw, Bnw in NW. rewrite Adw, Bdw in DW. rewrite Anw.
  clear - T0 T1 NT DT W0 W1 NW DW At0 Bt0 Aw0 Bw0. split; intros L.
  - destruct (n_t a) as [|x [|y [|z [|? ?]]]], (n_t b) as [|x' [|y' [|z' [|? ?]]]];
      cbn in L, NT, At0, Bt0, DT, T1; try lia; try discriminate;
      injection At0 as At0; injection Bt0 as Bt0; rewrite <- At0, <- Bt0 in T0.
    + repeat constructor; assumption.
    + repeat constructor; [assumption|]. setoid_replace y with ((y - x) + x)%Q by ring.
      rewrite DT, T0. ring.
    + repeat constructor; [assumption| |].
      * setoid_replace y with ((y - x) + x)%Q by ring. rewrite DT, T0. ring.
      * setoid_replace z with ((z + (y - x)) - (y - x))%Q by ring. rewrite T1, DT. ring.
  - destruct w as [|x [|y [|z [|? ?]]]], w' as [|x' [|y' [|z' [|? ?]]]];
      cbn in L, NW, Aw0, Bw0, DW, W1; try lia; try discriminate;
      injection Aw0 as Aw0; injection Bw0 as Bw0; rewrite <- Aw0, <- Bw0 in W0.
    + repeat constructor; assumption.
    + repeat constructor; [assumption|]. setoid_replace y with ((y - x) + x)%Q by ring.
      rewrite DW, W0. ring.
    + assert (Y : (y == y')%Q).
      { setoid_replace y with ((y - x) + x)%Q by ring. rewrite DW, W0. ring. }
      repeat constructor; [assumption|exact Y|].
      setoid_replace z with (((z + (z - y)) + y) * (1 # 2))%Q by ring. rewrite W1, Y. ring.
Qed.

Example C51_short_example : env_eqb ex_env ex_env = true /\ n_num_wl ex_env = 4 /\
  exists e, Environment (times [0; 1; 3]%Q) = Ok e /\ n_num_t e = 3 /\ ~ uniform (n_t e).
Proof.
  split; [vm_compute; reflexivity|]. split; [reflexivity|]. eexists. split; [vm_compute; reflexivity|].
  split; [reflexivity|]. intros (s & d & _ & H). cbn [n_t] in H.
  pose proof (H 0 ltac:(cbn; lia)) as H0. pose proof (H 1 ltac:(cbn; lia)) as H1.
  pose proof (H 2 ltac:(cbn; lia)) as H2. cbn [nth] in H0, H1, H2.
  change (inject_Z (Z.of_nat 0)) with 0%Q in H0. change (inject_Z (Z.of_nat 1)) with 1%Q in H1.
  change (inject_Z (Z.of_nat 2)) with 2%Q in H2. lra.
Qed.

(** Longer ones are not: every time array with four or more points is taken to be equal to another
    one. *)
Theorem C51_longer_refuted : forall a b x r, r <> [] -> ~ (b - a == 0)%Q ->
  exists e e' y, Environment (times (a :: b :: x :: r)) = Ok e /\
    Environment (times (a :: b :: y :: r)) = Ok e' /\ env_eqb e e' = true /\
    ~ same_points (n_t e) (n_t e').
Proof.
  intros a b x r R N.
  set (wl := [(155 # 100000000)%Q]).
  set (mk := fun z => let t := a :: b :: z :: r in
    {| n_name := "env"%string; n_t := t; n_t0 := a; n_t1 := end_first t; n_num_t := length t;
       n_dt := step_of t; n_samplerate := Some (1 / (b - a))%Q; n_bitrate := None; n_bitlength := None;
       n_wl := wl; n_wl0 := 155 # 100000000; n_wl1 := None; n_num_wl := 1; n_dwl := None;
       n_f := map (fun q => 299792458 / q)%Q wl; n_f0 := 299792458 / (155 # 100000000); n_f1 := None;
       n_num_f := 1; n_df := None; n_c := 299792458; n_freqdomain := false; n_grad := false |}).
  assert (M : forall z, Environment (times (a :: b :: z :: r)) = Ok (mk z)).
  { intros z. unfold Environment, construct.
    change (checks class_defaults (times (a :: b :: z :: r))) with (Ok tt).
    change (bitrate_of class_defaults (times (a :: b :: z :: r))) with (Ok (@None Q)).
    change (time_grid class_defaults (times (a :: b :: z :: r))) with (Ok (a :: b :: z :: r)).
    change (wl_grid class_defaults (times (a :: b :: z :: r))) with (Ok wl).
    cbn [bind]. change (get (k_freqdomain (times (a :: b :: z :: r))) (d_freqdomain class_defaults)) with false.
    cbn iota. change (step_of (a :: b :: z :: r)) with (Some (b - a)%Q). cbn [head bind].
    rewrite (@pydiv_nz 1 _ N). reflexivity. }
  exists (mk x), (mk (x + 1)%Q), (x + 1)%Q. split; [apply M|]. split; [apply M|]. split.
  - unfold env_eqb. destruct r as [|z r]; [congruence|].
    assert (E : end_first (a :: b :: x :: z :: r) = end_first (a :: b :: (x + 1)%Q :: z :: r)) by reflexivity.
    cbn [mk n_name n_t0 n_t1 n_num_t n_dt n_samplerate n_bitrate n_bitlength n_wl0 n_wl1 n_num_wl n_dwl
         n_f0 n_f1 n_num_f n_df n_c n_freqdomain n_grad].
    rewrite E, !oeqb_refl, !Qeq_bool_refl, !Nat.eqb_refl. reflexivity.
  - cbn [mk n_t]. intros H. inversion H; subst. inversion H5; subst. inversion H7; subst. lra.
Qed.

Theorem C51_refuted : exists j k a b, Environment j = Ok a /\ Environment k = Ok b /\
  env_eqb a b = true /\ ~ same_points (n_t a) (n_t b).
Proof.
  exists (times [0; 1; 2; 3]%Q), (times [0; 1; 5 # 2; 3]%Q). do 2 eexists.
  split; [vm_compute; reflexivity|]. split; [vm_compute; reflexivity|].
  split; [vm_compute; reflexivity|]. intros H. cbn in H.
  inversion H; subst. inversion H5; subst. inversion H7; subst. discriminate.
Qed.

(** ** C52: frequency domain *)
Theorem C52_freqdomain : forall k e, Environment k = Ok e ->
  (n_freqdomain e = true <-> k_freqdomain k = Some true) /\
  (k_freqdomain k = Some true ->
     n_num_t e = 1 /\ n_t e = [n_t0 e] /\ n_dt e = None /\ n_t1 e = None /\
     n_samplerate e = None /\ n_bitrate e = None /\ n_bitlength e = None).
Proof.
  intros k e H. assert (I : n_freqdomain e = true <-> k_freqdomain k = Some true).
  { pose proof (construct_Ok H) as (t' & w & b & _ & _ & _ & _ & F & _). rewrite F.
    destruct (k_freqdomain k) as [[]|]; cbn; intuition congruence. }
  split; [exact I|]. intros F. apply I in F. exact (made_freqdomain H F).
Qed.

(** What the simulation is told: at least one time step, and no time step length exactly when
    there is a single step. *)
Theorem C52_simulation : forall k e, Environment k = Ok e ->
  1 <= e_num_t (sim_env e) /\ 1 <= e_num_wl (sim_env e) /\
  (e_dt (sim_env e) = None <-> e_num_t (sim_env e) = 1) /\
  (e_freq (sim_env e) = true -> e_num_t (sim_env e) = 1).
Proof.
  intros k e H. pose proof (construct_Ok H) as
    (t' & w & b & _ & _ & _ & _ & _ & _ & T0 & _ & NT & DT & _ & _ & _ & _ & _ & WL & W0 & _ & NW & _).
  cbn. rewrite NT, DT, NW. repeat split.
  - destruct (n_t e); [discriminate|cbn; lia].
  - destruct w; [discriminate|cbn; lia].
  - destruct (n_t e) as [|x [|y l]]; cbn; [discriminate|reflexivity|discriminate].
  - destruct (n_t e) as [|x [|y l]]; cbn; [discriminate|reflexivity|discriminate].
  - intros F. rewrite <- NT. exact (proj1 (made_freqdomain H F)).
Qed.

Definition ex_freq : kw :=
  {| k_dt := None; k_samplerate := None; k_num_t := Some 50%Z; k_t0 := None; k_t1 := None;
     k_t := None; k_bitrate := Some 5%Q; k_bitlength := None; k_wl := None; k_f := None;
     k_dwl := None; k_df := None; k_num_wl := None; k_num_f := None; k_wl0 := None;
     k_f0 := None; k_wl1 := None; k_f1 := None; k_c := None; k_freqdomain := Some true;
     k_grad := None; k_name := None |}.
Example C52_example : exists e, Environment ex_freq = Ok e /\ n_num_t e = 1 /\ n_bitrate e = None.
Proof. eexists. split; [vm_compute; reflexivity|]. split; reflexivity. Qed.

(** ** C69: given bounds are used *)
Lemma ends_determined : forall l l' a b a' b' m n, (2 <= Z.abs n)%Z ->
  equidistant l a ((b - a) / inject_Z (Z.abs m)) (Z.abs_nat m) ->
  equidistant l' a' ((b' - a') / inject_Z (Z.abs n)) (Z.abs_nat n) ->
  same_points l l' -> (a == a')%Q /\ (b == b')%Q.
Proof.
  intros l l' a b a' b' m n L [U1 U2] [V1 V2] H.
  assert (LL : length l = length l') by (clear - H; induction H; cbn; congruence).
  assert (MN : Z.abs m = Z.abs n) by lia. rewrite MN in U2.
  replace (Z.abs_nat m) with (Z.abs_nat n) in * by lia.
  assert (P : forall i, (nth i l 0 == nth i l' 0)%Q).
  { clear - H. induction H; intros [|i]; cbn; try reflexivity; auto. }
  pose proof (P 0) as P0. pose proof (P 1) as P1. clear P.
  rewrite U2, V2 in P0 by lia. rewrite U2, V2 in P1 by lia.
  assert (NZ : ~ (inject_Z (Z.abs n) == 0)%Q) by (unfold Qeq, inject_Z; cbn; lia).
  set (q := inject_Z (Z.abs n)) in *.
  assert (A : (a == a')%Q).
  { change (inject_Z (Z.of_nat 0)) with 0%Q in P0. rewrite !Qmult_0_l, !Qplus_0_r in P0. exact P0. }
  split; [exact A|]. change (inject_Z (Z.of_nat 1)) with 1%Q in P1.
  rewrite !Qmult_1_l in P1. rewrite A in P1.
  assert (D : ((b - a') / q == (b' - a') / q)%Q).
  { setoid_replace ((b - a') / q)%Q with ((a' + (b - a') / q) - a')%Q by ring. rewrite P1. ring. }
  assert (D' : (b - a' == b' - a')%Q).
  { setoid_replace (b - a')%Q with (((b - a') / q) * q)%Q by (field; exact NZ).
    rewrite D. field; exact NZ. }
  setoid_replace b with ((b - a') + a')%Q by ring. rewrite D'. ring.
Qed.

(** wl0 and f1 are two names for the same end when num_f is given.  Both together are accepted and
    the value of f1 makes no difference. *)
Theorem C69_ignored_refuted : forall k n w v v', k_num_f k = Some n -> k_wl0 k = Some w ->
  Environment (with_f1 k v) = Environment (with_f1 k v').
Proof. intros k n w v v'. apply f1_ignored. Qed.

Example C69_example : exists e,
  Environment (ex_num_f (Some 4%Z) None (Some 2) None None (Some 100))%Q = Ok e /\ n_num_f e = 4.
Proof. eexists. split; vm_compute; reflexivity. Qed.

(** Otherwise the bounds can be read off from the grid, so a different bound gives a different grid:
    with num_wl both ends, with num_f both ends unless wl1 is given. *)
Theorem C69_num_wl : forall j k a b m n, Environment j = Ok a -> Environment k = Ok b ->
  k_num_wl j = Some m -> k_num_wl k = Some n -> (2 <= Z.abs n)%Z ->
  same_points (n_wl a) (n_wl b) ->
  (asked_wl0 class_defaults j == asked_wl0 class_defaults k)%Q /\
  (asked_wl1 class_defaults j == asked_wl1 class_defaults k)%Q.
Proof.
  intros j k a b m n A B M N L H.
  destruct (C47_num_wl A M) as (_ & _ & _ & _ & U). destruct (C47_num_wl B N) as (_ & _ & _ & _ & V).
  exact (ends_determined L U V H).
Qed.

Theorem C69_num_f : forall j k a b m n, Environment j = Ok a -> Environment k = Ok b ->
  k_num_f j = Some m -> k_num_f k = Some n -> (2 <= Z.abs n)%Z -> k_wl1 j = None -> k_wl1 k = None ->
  ~ (light class_defaults j == 0)%Q -> ~ (light class_defaults k == 0)%Q ->
  same_points (n_f a) (n_f b) ->
  (asked_f0 class_defaults j == asked_f0 class_defaults k)%Q /\
  (asked_f1 class_defaults j == asked_f1 class_defaults k)%Q.
Proof.
  intros j k a b m n A B M N L W W' C C' H.
  destruct (C48_num_f A M W C) as (_ & _ & _ & U). destruct (C48_num_f B N W' C') as (_ & _ & _ & V).
  exact (ends_determined L U V H).
Qed.

(** The ends that are asked for: each given bound, unless there is a wl0 beside f1 for frequencies. *)
Theorem C69_asked : forall d k v,
  (k_f0 k = None -> k_wl0 k = Some v -> asked_wl0 d k = v) /\
  (k_f0 k = Some v -> asked_wl0 d k = (light d k / v)%Q) /\
  (k_f1 k = None -> k_wl1 k = Some v -> asked_wl1 d k = v) /\
  (k_f1 k = Some v -> asked_wl1 d k = (light d k / v)%Q) /\
  (k_f0 k = Some v -> asked_f0 d k = v) /\
  (k_wl0 k = Some v -> asked_f1 d k = (light d k / v)%Q) /\
  (k_wl0 k = None -> k_f1 k = Some v -> asked_f1 d k = v).
Proof.
  intros d k v. unfold asked_wl0, asked_wl1, asked_f0, asked_f1.
  repeat split; intros; repeat match goal with X : _ = _ |- _ => rewrite X; clear X end; reflexivity.
Qed.

Example C69_used_example : exists a b,
  Environment (ex_num_f (Some 4%Z) None None (Some 1) None (Some 3))%Q = Ok a /\
  Environment (ex_num_f (Some 4%Z) None None (Some 1) None (Some 5))%Q = Ok b /\
  ~ same_points (n_f a) (n_f b).
Proof.
  do 2 eexists. split; [vm_compute; reflexivity|]. split; [vm_compute; reflexivity|].
  intros H. cbn in H. inversion H; subst. inversion H5; subst. discriminate.
Qed.

Print Assumptions C13_current_network_partial.
Print Assumptions C13_leftovers.
Print Assumptions C13_exception_refuted.
Print Assumptions C14_current_environment.
Print Assumptions C14_exceptions_propagate.
Print Assumptions C14_gradient_mode.
Print Assumptions C14_inside.
Print Assumptions C14_none.
Print Assumptions C14_reentered_refuted.
Print Assumptions C14_set_environment_refuted.
Print Assumptions C45_refused.
Print Assumptions C45_only_then.
Print Assumptions C45_created.
Print Assumptions C45_determined.
Print Assumptions C45_late_start_refuted.
Print Assumptions C46_num_t.
Print Assumptions C46_t1.
Print Assumptions C46_array.
Print Assumptions C47_num_wl.
Print Assumptions C47_dwl.
Print Assumptions C47_frequencies.
Print Assumptions C48_num_f.
Print Assumptions C48_df.
Print Assumptions C48_wl1_refuted.
Print Assumptions C49_copy.
Print Assumptions C49_not_copied.
Print Assumptions C49_copy_again.
Print Assumptions C49_override.
Print Assumptions C49_refuted.
Print Assumptions C49_decreasing_refuted.
Print Assumptions C50_locked.
Print Assumptions C51_equivalence.
Print Assumptions C51_uniform_partial.
Print Assumptions C51_short.
Print Assumptions C51_longer_refuted.
Print Assumptions C51_refuted.
Print Assumptions C52_freqdomain.
Print Assumptions C52_simulation.
Print Assumptions C69_ignored_refuted.
Print Assumptions C69_num_wl.
Print Assumptions C69_num_f.
Print Assumptions C69_asked.
