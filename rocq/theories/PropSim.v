(** Properties C15-C24 and C28-C31: simulating circuits.
    [K] is any commutative ring, complex numbers are pairs over it ([SimAlg]); [solve] stands for
    torch.linalg.solve; [act] for the actions of the active components. *)
From Coq Require Import QArith Qabs Qcanon Ring Permutation Reals.
From Verif Require Import Base PyStr NetModel NetSpec SimModel SimAlg SimSpec SimNodes SimProofs SimMore SimDelay
  SimRegular Gauss CacheModel CacheProofs CircuitProofs RingExample.
Set Implicit Arguments.
Unset Strict Implicit.
Local Open Scope nat_scope.

Section Props.
Variables (K : Type) (k0 k1 : K) (kadd kmul ksub : K -> K -> K) (kopp : K -> K).
Variable solve : nat -> nat -> mat K -> mat K -> option (mat K).
Variables (A : Type) (act : A -> nat -> field K -> A * field K).
Notation "0" := (c0 k0).
Notation "x + y" := (cadd kadd x y).
Notation "x * y" := (cmul kadd kmul ksub x y).
Notation forward := (forward k0 k1 kadd kmul ksub kopp solve act).
Notation waves := (waves k0 kadd kmul ksub).
Notation no_resonance := (no_resonance k0 kadd kmul ksub).
Notation "l !! t" := (nth t l (zero_field k0)) (at level 20).

(** * C15 *)
Theorem C15_nodes (e : env) (b : net K) : flags_ok b ->
  Permutation (mc_nodes e b) (filter (fun i => negb (lag e b i =? 0)) (seq 0 (b_np b))) /\
  NoDup (mc_nodes e b) /\
  (forall i, i < b_np b -> b_src b i = true -> nth_error (mc_nodes e b) (rank (b_src b) i) = Some i) /\
  (forall k, k < num_src b -> exists i, i < b_np b /\ b_src b i = true /\ rank (b_src b) i = k) /\
  (forall p, p < b_np b -> b_det b p = true ->
     nth_error (mc_nodes e b) (det_start (length (mc_nodes e b)) (num_det b) + rank (b_det b) p)%nat = Some p) /\
  (forall k, k < num_det b -> exists p, p < b_np b /\ b_det b p = true /\ rank (b_det b) p = k).
Proof. exact (fun H => nodes_order e (proj1 (flags_separate b) H)). Qed.

Section Ring.
Hypothesis KR : ring_theory k0 k1 kadd kmul ksub kopp (@eq K).

(** * C16 *)
Theorem C16_solves_wave_equations (e : env) (b : net K) s0 source outs w c :
  solver_sound k0 kadd kmul solve -> flags_ok b -> num_act b = O -> w < e_num_wl e -> unmixed k0 e b w ->
  forward e b s0 source = Ok outs ->
  exists a o, waves e b w (e_num_t e) (injected k0 b source w c) a o /\ reads k0 b outs w c (e_num_t e) a.
Proof.
  exact (fun SS F NA Lw U H => forward_sound KR SS c (proj1 (flags_separate b) F) NA Lw U H).
Qed.

Theorem C16_unique (e : env) (b : net K) w T src a o a' o' : no_resonance e b w ->
  waves e b w T src a o -> waves e b w T src a' o' ->
  forall t i, t < T -> i < b_np b -> a t i = a' t i /\ o t i = o' t i.
Proof. exact (@waves_unique K k0 k1 kadd kmul ksub kopp KR b e w T src a o a' o'). Qed.

(** A solver that refuses singular systems makes the result unique. *)
Theorem C16_unique_result (e : env) (b : net K) s0 source outs w c :
  solver_sound k0 kadd kmul solve -> solver_regular k0 kadd kmul solve ->
  flags_ok b -> num_act b = O -> w < e_num_wl e -> unmixed k0 e b w ->
  forward e b s0 source = Ok outs ->
  forall a o, waves e b w (e_num_t e) (injected k0 b source w c) a o -> reads k0 b outs w c (e_num_t e) a.
Proof.
  exact (fun SS SR F NA Lw U H a o W => forward_unique KR SS SR (proj1 (flags_separate b) F) NA Lw U H W).
Qed.

(** * C17 *)
Theorem C17_delay (e : env) (b : net K) m s0 source w c n t k bf out : flags_ok b ->
  initialize k0 k1 kadd kmul ksub kopp solve e b = Ok (Some m) ->
  k < length (mc_nodes e b) ->
  let steps := run k0 kadd kmul ksub act b m (node_source k0 (num_src b) source) n O s0 (repeat (zero_field k0) (i_depth m)) in
  nth_error steps t = Some (bf, out) ->
  at_ (read_buffer k0 kadd kmul m bf) w k c =
  past k0 (fun t k => at_ (snd (nth t steps (bf, zero_field k0))) w k c) (lag e b (nth k (mc_nodes e b) O)) t k.
Proof. exact (fun F => @run_delay K k0 k1 kadd kmul ksub kopp KR solve A act e b m s0 source w c n t k bf out (proj1 (flags_separate b) F)). Qed.

(** * C18 *)
Theorem C18_linear (e : env) (b : net K) s0 s1 s2 source source1 source2 outs outs1 outs2 (x y : K * K) w c :
  flags_ok b -> num_act b = O -> w < e_num_wl e ->
  (forall t k, t < e_num_t e -> k < num_src b ->
     at_ (source t) w k c = x * at_ (source1 t) w k c + y * at_ (source2 t) w k c) ->
  forward e b s1 source1 = Ok outs1 -> forward e b s2 source2 = Ok outs2 -> forward e b s0 source = Ok outs ->
  forall t k, t < e_num_t e -> k < num_det b ->
  at_ (outs !! t) w k c = x * at_ (outs1 !! t) w k c + y * at_ (outs2 !! t) w k c.
Proof.
  exact (fun F NA Lw E H1 H2 H => @forward_linear K k0 k1 kadd kmul ksub kopp KR solve A act e b
    (proj1 (flags_separate b) F) NA s0 s1 s2 source1 source2 source outs1 outs2 outs x y w c Lw E H1 H2 H).
Qed.

Theorem C18_zero (e : env) (b : net K) s0 source outs w c :
  flags_ok b -> num_act b = O -> w < e_num_wl e ->
  (forall t k, t < e_num_t e -> k < num_src b -> at_ (source t) w k c = 0) ->
  forward e b s0 source = Ok outs ->
  forall t k, t < e_num_t e -> k < num_det b -> at_ (outs !! t) w k c = 0.
Proof.
  exact (fun F NA Lw E H => forward_zero KR (proj1 (flags_separate b) F) NA Lw E H).
Qed.

(** * C19 *)
Theorem C19_causal (RA : A -> A -> Prop) (e e' : env) (b : net K) s0 s0' source source' outs outs' T :
  (forall s s' t x y, RA s s' -> feq x y ->
     RA (fst (act s t x)) (fst (act s' t y)) /\ feq (snd (act s t x)) (snd (act s' t y))) ->
  RA s0 s0' ->
  e_freq e = e_freq e' -> e_dt e = e_dt e' -> e_num_wl e = e_num_wl e' ->
  (forall t w c k, t <= T -> k < num_src b -> at_ (source t) w k c = at_ (source' t) w k c) ->
  forward e b s0 source = Ok outs -> forward e' b s0' source' = Ok outs' ->
  T < e_num_t e -> T < e_num_t e' ->
  forall t, t <= T -> feq (outs !! t) (outs' !! t).
Proof. exact (@forward_causal K k0 k1 kadd kmul ksub kopp KR solve A act RA e e' b s0 s0' source source' outs outs' T). Qed.

(** * C20 *)
Theorem C20_time_invariant (e : env) (b : net K) s0 s1 source source1 outs outs1 d w c :
  flags_ok b -> num_act b = O -> w < e_num_wl e ->
  (forall t k, t < e_num_t e -> k < num_src b ->
     at_ (source1 t) w k c = past k0 (fun t k => at_ (source t) w k c) d t k) ->
  forward e b s0 source = Ok outs -> forward e b s1 source1 = Ok outs1 ->
  forall t k, t < e_num_t e -> k < num_det b ->
  at_ (outs1 !! t) w k c = past k0 (fun t k => at_ (outs !! t) w k c) d t k.
Proof.
  exact (fun F NA => @forward_shift K k0 k1 kadd kmul ksub kopp KR solve A act e b
    (proj1 (flags_separate b) F) NA s0 s1 source source1 outs outs1 d w c).
Qed.

(** * C21 *)
Theorem C21_batches_independent (RA : A -> A -> Prop) (e : env) (b : net K) s0 s0' source source' outs outs' c c' :
  (forall s s' t x y, RA s s' -> (forall w i, at_ x w i c = at_ y w i c') ->
     RA (fst (act s t x)) (fst (act s' t y)) /\
     (forall w i, at_ (snd (act s t x)) w i c = at_ (snd (act s' t y)) w i c')) ->
  RA s0 s0' ->
  (forall t w k, t < e_num_t e -> k < num_src b -> at_ (source t) w k c = at_ (source' t) w k c') ->
  forward e b s0 source = Ok outs -> forward e b s0' source' = Ok outs' ->
  forall t w k, t < e_num_t e -> at_ (outs !! t) w k c = at_ (outs' !! t) w k c'.
Proof. exact (@forward_batch K k0 k1 kadd kmul ksub kopp KR solve A act RA e b s0 s0' source source' outs outs' c c'). Qed.

(** * C22 *)
Theorem C22_wavelengths_independent (A' : Type) (act' : A' -> nat -> field K -> A' * field K)
  (RA : A -> A' -> Prop) (e : env) (b : net K) s0 s0' source source' outs w :
  (forall s s' t x y, RA s s' -> (forall i c, at_ x w i c = at_ y O i c) ->
     RA (fst (act s t x)) (fst (act' s' t y)) /\
     (forall i c, at_ (snd (act s t x)) w i c = at_ (snd (act' s' t y)) O i c)) ->
  RA s0 s0' -> w < e_num_wl e ->
  (forall t c k, t < e_num_t e -> k < num_src b -> at_ (source t) w k c = at_ (source' t) O k c) ->
  forward e b s0 source = Ok outs ->
  exists outs', SimModel.forward k0 k1 kadd kmul ksub kopp solve act' (one_wl e) (at_wl b w) s0' source' = Ok outs' /\
  forall t k c, t < e_num_t e -> at_ (outs !! t) w k c = at_ (outs' !! t) O k c.
Proof. exact (@forward_wl K k0 k1 kadd kmul ksub kopp KR solve A A' act act' RA e b s0 s0' source source' outs w). Qed.

(** * C23 *)
Theorem C23_power (e : env) (b : net K) s0 source :
  (forall outs, forward e b s0 source = Ok outs ->
     exists ps, forward_power k0 k1 kadd kmul ksub kopp solve act e b s0 source = Ok ps /\
     length ps = length outs /\
     forall t w k c, t < length outs -> nth t ps (fun _ _ _ => k0) w k c = norm2 kadd kmul (at_ (outs !! t) w k c)) /\
  (forall x, forward e b s0 source = Err x -> forward_power k0 k1 kadd kmul ksub kopp solve act e b s0 source = Err x).
Proof. exact (@power_norm K k0 k1 kadd kmul ksub kopp solve A act e b s0 source). Qed.

Theorem C23_phase (e : env) (b : net K) s0 s1 source source1 ps ps1 (u : K * K) w c :
  flags_ok b -> num_act b = O -> w < e_num_wl e -> norm2 kadd kmul u = k1 ->
  (forall t k, t < e_num_t e -> k < num_src b -> at_ (source1 t) w k c = u * at_ (source t) w k c) ->
  forward_power k0 k1 kadd kmul ksub kopp solve act e b s0 source = Ok ps ->
  forward_power k0 k1 kadd kmul ksub kopp solve act e b s1 source1 = Ok ps1 ->
  forall t k, t < e_num_t e -> k < num_det b ->
  nth t ps1 (fun _ _ _ => k0) w k c = nth t ps (fun _ _ _ => k0) w k c.
Proof.
  exact (fun F => @power_phase K k0 k1 kadd kmul ksub kopp KR solve A act e b s0 s1 source source1 ps ps1 u w c
    (proj1 (flags_separate b) F)).
Qed.

(** * C24 *)
Theorem C24_steady_state (e : env) (b : net K) s1 source source' outs outs' w c t a o :
  solver_sound k0 kadd kmul solve -> solver_regular k0 kadd kmul solve ->
  flags_ok b -> num_act b = O -> w < e_num_wl e ->
  unmixed k0 (freq_env e) b w -> absorbing k0 b w ->
  waves e b w (e_num_t e) (injected k0 b source w c) a o -> reads k0 b outs w c (e_num_t e) a ->
  t < e_num_t e ->
  (forall j, j < b_np b -> lag e b j <= t /\ a (t - lag e b j) j = a t j) ->
  (forall k, k < num_src b -> at_ (source' O) w k c = at_ (source t) w k c) ->
  forward (freq_env e) b s1 source' = Ok outs' ->
  forall k, k < num_det b -> at_ (outs' !! O) w k c = at_ (outs !! t) w k c.
Proof.
  exact (fun SS SR F => @forward_steady K k0 k1 kadd kmul ksub kopp KR solve A act SS SR
    e b s1 source source' outs outs' w c t a o (proj1 (flags_separate b) F)).
Qed.

(** * C30 *)
Theorem C30_succeeds_partial (e : env) (b : net K) s0 source :
  solver_complete k0 kadd kmul solve ->
  timed e -> flags_ok b -> terminated b = true -> num_det b <> O ->
  (forall w, w < e_num_wl e -> unmixed k0 e b w /\ no_resonance e b w) ->
  exists outs, forward e b s0 source = Ok outs /\ length outs = e_num_t e.
Proof.
  exact (fun SC T F => @forward_succeeds K k0 k1 kadd kmul ksub kopp KR solve A act e b s0 source SC T (proj1 (flags_separate b) F)).
Qed.
End Ring.

(** * C28 *)
Theorem C28_nearest (e : env) dt d : e_dt e = Some dt -> (0 < dt)%Q -> e_freq e = false -> (0 <= d)%Q ->
  (Qabs (inject_Z (Z.of_nat (steps e d)) * dt - d) <= dt / 2)%Q.
Proof. exact (fun E H => @steps_nearest e dt E H d). Qed.

Theorem C28_monotone (e : env) dt d d' : e_dt e = Some dt -> (0 < dt)%Q -> (d <= d')%Q -> steps e d <= steps e d'.
Proof. exact (fun E H => @steps_mono e dt E H d d'). Qed.

Theorem C28_frequency_domain (e : env) d : e_freq e = true -> steps e d = O.
Proof. exact (@steps_freq e d). Qed.

Theorem C28_buffer_length (e : env) (b : net K) m : timed e -> flags_ok b ->
  initialize k0 k1 kadd kmul ksub kopp solve e b = Ok (Some m) -> buffer_depth e m = Ok (i_depth m).
Proof. exact (fun T F => @depth_eq K k0 k1 kadd kmul ksub kopp solve e b m T (proj1 (flags_separate b) F)). Qed.

(** * C29: the two halves of the circuit never exchange light. *)
Theorem C29_partial (mods : list (string * net K)) conns b (e : env) w :
  @build (nat -> K * K) Q (fun _ => 0) 0%Q mods conns = Ok b ->
  (forall n c, In (n, c) mods -> unmixed k0 e c w) -> unmixed k0 e b w.
Proof. exact (@build_unmixed K k0 e w mods conns b). Qed.

(** * C30, failures *)
Theorem C30_no_detectors (e : env) (b : net K) s0 source : num_det b = O -> e_num_t e <> O -> flags_ok b ->
  length (mc_nodes e b) <> 1 -> exists x, forward e b s0 source = Err x.
Proof. exact (fun ND NT F => @forward_no_detectors K k0 k1 kadd kmul ksub kopp solve A act e b s0 source ND NT (proj1 (flags_separate b) F)). Qed.

Theorem C30_single_step (e : env) (b : net K) s0 source : e_freq e = false -> e_dt e = None ->
  exists x, forward e b s0 source = Err x.
Proof. exact (@forward_no_dt K k0 k1 kadd kmul ksub kopp solve A act e b s0 source). Qed.

Theorem C30_unterminated (e : env) (b : net K) s0 source : terminated b = false ->
  forward e b s0 source = Err AttributeError.
Proof. exact (@forward_unterminated K k0 k1 kadd kmul ksub kopp solve A act e b s0 source). Qed.

End Props.

Print Assumptions C15_nodes.
Print Assumptions C16_solves_wave_equations.
Print Assumptions C16_unique.
Print Assumptions C16_unique_result.
Print Assumptions C17_delay.
Print Assumptions C18_linear.
Print Assumptions C18_zero.
Print Assumptions C19_causal.
Print Assumptions C20_time_invariant.
Print Assumptions C21_batches_independent.
Print Assumptions C22_wavelengths_independent.
Print Assumptions C23_power.
Print Assumptions C23_phase.
Print Assumptions C24_steady_state.
Print Assumptions C28_nearest.
Print Assumptions C28_monotone.
Print Assumptions C28_frequency_domain.
Print Assumptions C28_buffer_length.
Print Assumptions C29_partial.
Print Assumptions C30_succeeds_partial.
Print Assumptions C30_no_detectors.
Print Assumptions C30_single_step.
Print Assumptions C30_unterminated.

(** * Examples *)

(** The ring of [RingExample] meets the hypotheses of all theorems above, for every source. *)
Example qring_sim n src : flags_ok qring /\ terminated qring = true /\ num_act qring = 0 /\ num_src qring = 1 /\ num_det qring = 1
  /\ (forall w, w < 2 -> unmixed qc0 (tenv n) qring w /\ no_resonance qc0 Qcplus Qcmult Qcminus (tenv n) qring w)
  /\ timed (tenv n)
  /\ exists outs, qforward (tenv n) qring src = Ok outs /\ length outs = n.
Proof.
  split; [apply qring_flags|]. do 4 (split; [reflexivity|]).
  assert (W : forall w, w < 2 -> unmixed qc0 (tenv n) qring w /\ no_resonance qc0 Qcplus Qcmult Qcminus (tenv n) qring w)
    by (intros w L; split; [apply qring_unmixed|apply qring_regular]; auto).
  assert (T : timed (tenv n)) by (right; exists 1%Q; split; reflexivity).
  split; [exact W|]. split; [exact T|].
  exact (@C30_succeeds_partial Qc qc0 qc1 Qcplus Qcmult Qcminus Qcopp qsolve unit noact qc_ring (tenv n) qring tt src
    qsolve_complete T qring_flags eq_refl (fun H => ltac:(discriminate H)) W).
Qed.

Lemma q_waves e b src outs w c : flags_ok b -> num_act b = 0 -> w < e_num_wl e -> unmixed qc0 e b w ->
  qforward e b src = Ok outs ->
  exists a o, waves qc0 Qcplus Qcmult Qcminus e b w (e_num_t e) (injected qc0 b src w c) a o.
Proof.
  intros F NA L U HO. destruct (C16_solves_wave_equations qc_ring c qsolve_sound F NA L U HO) as (a & o & HW & _). eauto.
Qed.
(** The wave equations of the ring have non-trivial solutions: after the pulse, 3/5 and -16/25 arrive. *)
Example C16_ex : exists outs a o, qforward (tenv 2) qring pulse = Ok outs
  /\ waves qc0 Qcplus Qcmult Qcminus (tenv 2) qring 1 2 (injected qc0 qring pulse 1 0) a o
  /\ show 1 0 (qforward (tenv 2) qring pulse) = [((3 # 5), 0); (-16 # 25, 0)]%Q.
Proof.
  destruct (qring_sim 2 pulse) as (F & _ & NA & _ & _ & W & _ & outs & HO & _).
  destruct (q_waves (e := tenv 2) (w := 1) 0 F NA (le_n 2) (proj1 (W 1 (le_n 2))) HO) as (a & o & HW).
  exists outs, a, o. split; [exact HO|]. split; [exact HW|]. apply ring_run.
Qed.

Example C15_ex : flags_ok qring /\ mc_nodes (tenv 2) qring = [0; 5; 6; 7].
Proof. split; [apply qring_flags|vm_compute; reflexivity]. Qed.

Example C17_ex : exists m, initialize qc0 qc1 Qcplus Qcmult Qcminus Qcopp qsolve (tenv 2) qring = Ok (Some m)
  /\ map (lag (tenv 2) qring) (mc_nodes (tenv 2) qring) = [1; 1; 1; 1]
  /\ (forall s0 b0, length (run qc0 Qcplus Qcmult Qcminus noact qring m (node_source qc0 1 pulse) 2 0 s0 b0) = 2).
Proof.
  destruct (initialize qc0 qc1 Qcplus Qcmult Qcminus Qcopp qsolve (tenv 2) qring) as [[m|]|x] eqn:E.
  - exists m. split; [reflexivity|]. split; [vm_compute; reflexivity|].
    assert (H : forall b e src n t s bf, length (run qc0 Qcplus Qcmult Qcminus noact b e src n t s bf) = n).
    { intros b e src n. induction n as [|n IH]; intros t s bf; [reflexivity|].
      cbn [run]. destruct (step _ _ _ _ _ _ _ _ _ _ _) as [[s' o'] bf']. cbn [length]. rewrite IH. reflexivity. }
    intros. apply H.
  - assert (H : qforward (tenv 2) qring pulse = Err AttributeError) by (unfold qforward, forward; rewrite E; reflexivity).
    destruct (qring_sim 2 pulse) as (_ & _ & _ & _ & _ & _ & _ & outs & HO & _). congruence.
  - assert (H : qforward (tenv 2) qring pulse = Err x) by (unfold qforward, forward; rewrite E; reflexivity).
    destruct (qring_sim 2 pulse) as (_ & _ & _ & _ & _ & _ & _ & outs & HO & _). congruence.
Qed.

(** An action for C19, C21, C22: doubles the field. *)
Definition dbl (s : unit) (t : nat) (x : field Qc) : unit * field Qc :=
  (s, (fun w i c => Qcplus (fst x w i c) (fst x w i c), fun w i c => Qcplus (snd x w i c) (snd x w i c))).
Example C19_C21_C22_ex :
  (forall s s' t x y, True -> feq x y -> True /\ feq (snd (dbl s t x)) (snd (dbl s' t y)))
  /\ (forall c c' s s' t x y, True -> (forall w i, at_ x w i c = at_ y w i c') ->
       True /\ forall w i, at_ (snd (dbl s t x)) w i c = at_ (snd (dbl s' t y)) w i c').
Proof.
  unfold feq, at_, dbl. cbn [fst snd]. split.
  - intros s s' t x y _ H. split; [exact I|]. intros w i c. specialize (H w i c). injection H as -> ->. reflexivity.
  - intros c c' s s' t x y _ H. split; [exact I|]. intros w i. specialize (H w i). injection H as -> ->. reflexivity.
Qed.

Example C23_ex : norm2 Qcplus Qcmult (q2 3 5, q2 4 5) = qc1.
Proof. apply Qc_is_canon. vm_compute. reflexivity. Qed.

(** C24: a constant signal through a waveguide. *)
Definition qline : net Qc :=
  {| b_np := 4; b_C := fun i j => qpair i j 0 1 || qpair i j 2 3;
     b_src := fun i => i =? 0; b_det := fun i => i =? 3; b_act := no; b_order := seq 0 4;
     b_S := fun i j => if qpair i j 1 2 then cst (q2 3 5) (q2 4 5) else zs;
     b_del := fun i => if (1 <=? i) && (i <=? 2) then 1%Q else 0%Q |}.
Definition line_a (t i : nat) : Qc * Qc :=
  match i with 1 => (qc1, qc0) | 3 => if t <? 1 then (qc0, qc0) else (q2 3 5, q2 4 5) | _ => (qc0, qc0) end.
Definition line_o (t i : nat) : Qc * Qc :=
  match i with 0 => (qc1, qc0) | 2 => if t <? 1 then (qc0, qc0) else (q2 3 5, q2 4 5) | _ => (qc0, qc0) end.
Lemma cx_canon (x y : Qc * Qc) : (this (fst x) == this (fst y))%Q -> (this (snd x) == this (snd y))%Q -> x = y.
Proof. destruct x, y; cbn. intros H1 H2. f_equal; apply Qc_is_canon; auto. Qed.
Example C24_ex : flags_ok qline /\ num_act qline = 0 /\ unmixed qc0 (freq_env (tenv 3)) qline 0 /\ absorbing qc0 qline 0
  /\ waves qc0 Qcplus Qcmult Qcminus (tenv 3) qline 0 3 (injected qc0 qline always 0 0) line_a line_o
  /\ (forall j, j < 4 -> lag (tenv 3) qline j <= 2 /\ line_a (2 - lag (tenv 3) qline j) j = line_a 2 j)
  /\ (exists outs, qforward (freq_env (tenv 3)) qline always = Ok outs)
  /\ show 0 0 (qforward (freq_env (tenv 3)) qline always) = [(3 # 5, 4 # 5)]%Q.
Proof.
  split; [apply flagsb_ok; vm_compute; reflexivity|]. split; [reflexivity|].
  split; [apply unmixedb_ok; vm_compute; reflexivity|]. split; [|split; [|split; [|split]]].
  - intros i j Li Lj H. cbn in Li, Lj. destruct i as [|[|[|[|]]]]; try lia; destruct j as [|[|[|[|]]]]; try lia; cbn in H;
      try (destruct H; discriminate); reflexivity.
  - intros t i Lt Li. cbn in Li. destruct t as [|[|[|]]]; try lia; destruct i as [|[|[|[|]]]]; try lia;
      split; apply cx_canon; vm_compute; reflexivity.
  - intros j Lj. destruct j as [|[|[|[|]]]]; try lia; split; (reflexivity || (vm_compute; auto)).
  - apply is_ok_ex. vm_compute. reflexivity.
  - vm_compute. reflexivity.
Qed.

Example C28_ex : steps (tenv 1) (13 # 10)%Q = 1 /\ steps (tenv 1) (7 # 4)%Q = 2 /\ steps fenv (7 # 4)%Q = 0.
Proof. vm_compute. auto. Qed.

Example C29_ex : forall n c, In (n, c) ring_parts -> unmixed qc0 (tenv 2) c 0.
Proof.
  intros n c H. apply unmixedb_ok. repeat (destruct H as [H|H]; [injection H as _ <-; vm_compute; reflexivity|]). destruct H.
Qed.

(** C29 in general: a component whose port 0 has no delay and whose port 1 has one.  The signal
    from the source reaches the detector at once according to the wave equations; the simulator
    loses it. *)
Definition qmixed : net Qc :=
  {| b_np := 4; b_C := fun i j => qpair i j 0 1 || qpair i j 2 3;
     b_src := fun i => i =? 0; b_det := fun i => i =? 3; b_act := no; b_order := seq 0 4;
     b_S := fun i j => if (i =? 2) && (j =? 1) then cst qc1 qc0 else zs;
     b_del := fun i => if i =? 2 then 1%Q else 0%Q |}.
Theorem C29_mixed_refuted : exists e (b : net Qc) source outs,
  flags_ok b /\ terminated b = true /\ num_act b = 0 /\ qforward e b source = Ok outs
  /\ ~ exists a o, waves qc0 Qcplus Qcmult Qcminus e b 0 (e_num_t e) (injected qc0 b source 0 0) a o
                   /\ reads qc0 b outs 0 0 (e_num_t e) a.
Proof.
  exists (tenv 1), qmixed, always.
  destruct (qforward (tenv 1) qmixed always) as [outs|x] eqn:E.
  2:{ assert (H : is_ok (qforward (tenv 1) qmixed always) = true) by (vm_compute; reflexivity). rewrite E in H. discriminate. }
  exists outs. split; [apply flagsb_ok; vm_compute; reflexivity|]. do 2 (split; [reflexivity|]). split; [reflexivity|].
  intros (a & o & HW & [_ HR]).
  pose proof (cx_ring qc_ring) as CR.
  assert (C : forall i j, i < 4 -> j < 4 -> b_C qmixed i j = true -> (forall k, k < 4 -> b_C qmixed i k = true -> k = j) -> a 0 i = o 0 j).
  { intros i j Li Lj Hij U. destruct (HW 0 i ltac:(cbn; lia) Li) as [-> _]. exact (csum_pick qc_ring (o 0) Lj Hij U). }
  assert (A3 : a 0 3 = o 0 2).
  { apply C; try lia; [reflexivity|]. intros k Lk H. destruct k as [|[|[|[|]]]]; try lia; discriminate H. }
  assert (A1 : a 0 1 = o 0 0).
  { apply C; try lia; [reflexivity|]. intros k Lk H. destruct k as [|[|[|[|]]]]; try lia; discriminate H. }
  assert (S0 : forall i j, i < 4 -> j < 4 -> (i, j) <> (2, 1) -> b_S qmixed i j 0 = c0 qc0).
  { intros i j Li Lj N. cbn. destruct (Nat.eqb_spec i 2), (Nat.eqb_spec j 1); cbn; try reflexivity. congruence. }
  Add Ring Cqc : (cx_ring qc_ring).
  assert (O0 : o 0 0 = (qc1, qc0)).
  { destruct (HW 0 0 ltac:(cbn; lia) ltac:(cbn; lia)) as [_ ->].
    rewrite (lsum_0 CR); [apply cx_canon; vm_compute; reflexivity|]. intros j Ij. apply in_seq in Ij. cbn in Ij.
    rewrite S0 by (auto; try lia; congruence). ring. }
  assert (O2 : o 0 2 = (qc1, qc0)).
  { destruct (HW 0 2 ltac:(cbn; lia) ltac:(cbn; lia)) as [_ ->].
    change (seq 0 (b_np qmixed)) with [0; 1; 2; 3]. rewrite !lsum_cons, lsum_nil.
    rewrite (S0 2 0), (S0 2 2), (S0 2 3) by (try lia; congruence).
    replace (past qc0 a (lag (tenv 1) qmixed 1) 0 1) with (a 0 1) by reflexivity. rewrite A1, O0.
    replace (b_S qmixed 2 1 0) with (c1 qc0 qc1) by reflexivity.
    replace (injected qc0 qmixed always 0 0 0 2) with (c0 qc0) by reflexivity.
    change (qc1, qc0) with (c1 qc0 qc1). ring. }
  specialize (HR 0 3 ltac:(cbn; lia) ltac:(cbn; lia) eq_refl). rewrite A3, O2 in HR.
  assert (Z : show 0 0 (qforward (tenv 1) qmixed always) = [(0, 0)]%Q) by (vm_compute; reflexivity).
  rewrite E in Z. destruct outs as [|x l]; [discriminate|]. cbn [show map] in Z. injection Z as Z _ _.
  change (rank (b_det qmixed) 3) with 0 in HR. unfold at_ in HR. cbn [nth] in HR. injection HR as HR _.
  assert (Y : this qc1 = 0%Q) by (etransitivity; [symmetry; exact (f_equal this HR)|exact Z]). discriminate Y.
Qed.
Print Assumptions C29_mixed_refuted.

(** C30 in general: two networks that cannot be simulated. *)
Definition two_sources : net Qc :=
  {| b_np := 2; b_C := fun i j => qpair i j 0 1; b_src := yes; b_det := no; b_act := no; b_order := seq 0 2;
     b_S := fun _ _ => zs; b_del := fun _ => 0%Q |}.
Theorem C30_refuted :
  (exists e (b : net Qc), flags_ok b /\ terminated b = true /\ timed e /\
     (forall w, w < e_num_wl e -> unmixed qc0 e b w /\ no_resonance qc0 Qcplus Qcmult Qcminus e b w) /\
     forall source, qforward e b source = Err RuntimeError) /\
  (exists e (b : net Qc), flags_ok b /\ terminated b = true /\ num_det b <> 0 /\
     (forall w, w < e_num_wl e -> unmixed qc0 e b w /\ no_resonance qc0 Qcplus Qcmult Qcminus e b w) /\
     forall source, exists x, qforward e b source = Err x).
Proof.
  split.
  - exists (tenv 1), two_sources. split; [apply flagsb_ok; vm_compute; reflexivity|]. split; [reflexivity|].
    split; [right; exists 1%Q; split; reflexivity|]. split.
    + intros w L. split.
      * apply unmixedb_ok. destruct w as [|[|]]; [vm_compute; reflexivity..|cbn in L; lia].
      * intros x _ i Li Hi. destruct i as [|[|]]; [discriminate Hi..|cbn in Li; lia].
    + intros source. reflexivity.
  - exists {| e_freq := false; e_dt := None; e_num_t := 1; e_num_wl := 2 |}, qring.
    split; [apply qring_flags|]. split; [reflexivity|]. split; [discriminate|]. split.
    + intros w L. split; [exact (qring_unmixed_f L)|exact (qring_regular_f L)].
    + intros source. apply C30_single_step; reflexivity.
Qed.
Print Assumptions C30_refuted.

(** * C31 *)
(** Parameters are taken at the moment of the last initialization; without gradients that can be long ago. *)
Theorem C31_current_parameters_partial (P M X Y : Type) (init : P -> nat -> M) (simulate : M -> nat -> X -> Y) p ops env grad x :
  grad = true \/ ~ changed_in env ops ->
  snd (cforward init simulate (crun init simulate p ops) env grad x) = Some (simulate (init (params p ops) env) env x).
Proof. exact (@forward_fresh P M X Y init simulate p ops env grad x). Qed.
Print Assumptions C31_current_parameters_partial.

Example C31_ex : exists ops : list (cop nat unit), ops <> [] /\ ~ changed_in 1 ops /\ params 0 ops = 5.
Proof.
  exists [CSet unit (fun _ => 5); CInit nat unit 1]. split; [discriminate|]. split; [|reflexivity].
  intros (l1 & f & l2 & E & H). destruct l1 as [|o [|o' [|o'' l1]]]; cbn in E; try discriminate.
  injection E as _ <-. inversion H as [|? ? H1 _]. exact H1.
Qed.

Theorem C31_stale_refuted : exists (ops : list (cop nat unit)) env grad,
  snd (cforward (fun p _ => p) (fun m _ _ => m) (crun (fun p _ => p) (fun m _ _ => m) 0 ops) env grad tt) <> Some (params 0 ops).
Proof.
  exists [CForward nat 0 false tt; CSet unit (fun _ => 5)], 0, false. vm_compute. discriminate.
Qed.
Print Assumptions C31_stale_refuted.
