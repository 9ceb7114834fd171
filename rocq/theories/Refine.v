(** Smaller time steps: a simulation with [n] steps in place of each one. *)
From Coq Require Import QArith Lqa Ring.
From Verif Require Import Base NetModel NetSpec SimModel SimAlg SimSpec SimNodes SimProofs SimDelay SimRegular CircuitSpec CircuitProofs FeedForward.
Set Implicit Arguments.
Unset Strict Implicit.
Local Open Scope list_scope.
Local Open Scope nat_scope.

(** [e'] simulates in the time domain with [n] steps for each step of [e]. *)
Definition refines (n : nat) (e e' : env) : Prop :=
  0 < n /\ e_freq e = false /\ e_freq e' = false /\ e_num_wl e' = e_num_wl e /\
  exists dt dt', e_dt e = Some dt /\ e_dt e' = Some dt' /\ (0 < dt')%Q /\ (inject_Z (Z.of_nat n) * dt' == dt)%Q.

(** The delays of all ports that are no source, detector or active port are whole numbers of steps of [e]. *)
Definition on_grid K (e : env) (b : net K) : Prop := exists dt, e_dt e = Some dt /\
  forall i, i < b_np b -> b_src b i || b_det b i || b_act b i = false ->
  exists k : nat, (b_del b i == inject_Z (Z.of_nat k) * dt)%Q.

(** Each sample of [source] is held for [n] steps. *)
Definition held K (n : nat) (source source' : nat -> field K) (w c ns : nat) : Prop :=
  forall s k, k < ns -> at_ (source' s) w k c = at_ (source (s / n)) w k c.

Lemma steps_whole e dt d (k : nat) : e_freq e = false -> e_dt e = Some dt -> (0 < dt)%Q ->
  (d == inject_Z (Z.of_nat k) * dt)%Q -> steps e d = k.
Proof.
  intros Ef Ed Hdt Hd. unfold steps. rewrite Ef, Ed.
  assert (Eq : (d / dt + (1 # 2) == inject_Z (Z.of_nat k) + (1 # 2))%Q).
  { rewrite Hd. field. lra. }
  assert (Hk : (0 <= inject_Z (Z.of_nat k))%Q) by (change 0%Q with (inject_Z 0); rewrite <- Zle_Qle; lia).
  rewrite long_floor by (rewrite Eq; lra). rewrite Eq.
  assert (F : Qround.Qfloor (inject_Z (Z.of_nat k) + (1 # 2)) = Z.of_nat k).
  { set (q := (inject_Z (Z.of_nat k) + (1 # 2))%Q).
    pose proof (Qround.Qfloor_le q) as A. pose proof (Qround.Qlt_floor q) as B.
    assert (H1 : (inject_Z (Qround.Qfloor q) < inject_Z (Z.of_nat k + 1))%Q).
    { rewrite inject_Z_plus. change (inject_Z 1) with 1%Q. unfold q in *. lra. }
    assert (H2 : (inject_Z (Z.of_nat k) < inject_Z (Qround.Qfloor q + 1))%Q) by (unfold q in *; lra).
    rewrite <- Zlt_Qlt in *. lia. }
  rewrite F. apply Nat2Z.id.
Qed.

Section Any.
Variables (K : Type) (k0 k1 : K) (kadd kmul ksub : K -> K -> K) (kopp : K -> K).
Hypothesis KR : ring_theory k0 k1 kadd kmul ksub kopp (@eq K).
Notation net := (net K).
Notation c0 := (c0 k0).
Notation cadd := (cadd kadd).
Notation cmul := (cmul kadd kmul ksub).
Notation csum := (lsum c0 cadd).
Notation waves := (waves k0 kadd kmul ksub).
Notation no_resonance := (no_resonance k0 kadd kmul ksub).
Let CR := CR KR.
Add Ring CringRf : CR.

Definition special (b : net) i := b_src b i || b_det b i || b_act b i.

Lemma lag_refines n e e' (b : net) i : refines n e e' -> on_grid e b -> i < b_np b -> special b i = false -> lag e' b i = n * lag e b i.
Proof.
  intros (Hn & F & F' & _ & dt & dt' & E & E' & P & Q) (dt0 & E0 & H) Li Sp. rewrite E in E0. injection E0 as <-.
  destruct (H i Li Sp) as (k & Hk). unfold special in Sp. unfold lag. rewrite Sp.
  assert (Hp : (0 < dt)%Q).
  { rewrite <- Q. apply Qmult_lt_0_compat; [|exact P]. change 0%Q with (inject_Z 0). rewrite <- Zlt_Qlt. lia. }
  rewrite (@steps_whole e dt _ k F E Hp Hk).
  apply (@steps_whole e' dt' _ (n * k) F' E' P). rewrite Hk, <- Q, Nat2Z.inj_mul, inject_Z_mult. ring.
Qed.

Lemma lag_special (e : env) (b : net) i : special b i = true -> lag e b i <> 0.
Proof. unfold special, lag. intros ->. lia. Qed.

Lemma lag_zero n e e' (b : net) i : refines n e e' -> on_grid e b -> i < b_np b -> (lag e' b i =? 0) = (lag e b i =? 0).
Proof.
  intros R G Li. destruct (special b i) eqn:Sp.
  - pose proof (@lag_special e b i Sp). pose proof (@lag_special e' b i Sp). destruct (Nat.eqb_spec (lag e' b i) 0), (Nat.eqb_spec (lag e b i) 0); tauto.
  - rewrite (lag_refines R G Li Sp). destruct R as (Hn & _).
    destruct (Nat.eqb_spec (lag e b i) 0) as [->|N]; [rewrite Nat.mul_0_r; reflexivity|].
    apply Nat.eqb_neq. intros Z. apply Nat.eq_mul_0 in Z. lia.
Qed.

Lemma refines_unmixed n e e' (b : net) w : refines n e e' -> on_grid e b -> unmixed k0 e b w -> unmixed k0 e' b w.
Proof. intros R G U i j Li Lj N. apply U; auto. now rewrite <- (lag_zero R G Li), <- (lag_zero R G Lj). Qed.

Lemma refines_quiet n e e' (b : net) w : refines n e e' -> on_grid e b -> no_resonance e b w -> no_resonance e' b w.
Proof.
  intros R G NR x Hx i Li Zi. assert (LZ : forall i, i < b_np b -> (lag e' b i =? 0) = (lag e b i =? 0)) by (intros; eapply lag_zero; eassumption).
  apply NR; auto.
  - intros j Lj Zj. rewrite (Hx j Lj).
    + apply lsum_ext. intros p Ip. destruct (b_C b j p); [|reflexivity]. apply lsum_ext. intros q Iq. apply in_seq in Iq. rewrite LZ by lia. reflexivity.
    + apply Nat.eqb_eq. rewrite LZ by exact Lj. now apply Nat.eqb_eq.
  - apply Nat.eqb_eq. rewrite <- LZ by exact Li. now apply Nat.eqb_eq.
Qed.

(** The waves of the coarse simulation, held, are waves of the fine one. *)
Lemma refines_waves n e e' (b : net) w T T' src src' a o : refines n e e' -> on_grid e b -> ends_dark k0 b w ->
  (forall s i, s < T' -> i < b_np b -> src' s i = src (s / n) i) -> T' <= n * T ->
  waves e b w T src a o -> waves e' b w T' src' (fun s => a (s / n)) (fun s => o (s / n)).
Proof.
  intros R G DK Hs LT W s i Ls Li. assert (Hn : n <> 0) by (destruct R; lia).
  assert (L : s / n < T) by (apply Nat.div_lt_upper_bound; lia).
  destruct (W (s / n) i L Li) as [Ha Ho]. split; [exact Ha|].
  rewrite Hs by assumption. rewrite Ho. f_equal. apply lsum_ext. intros j Ij. apply in_seq in Ij.
  destruct (special b j) eqn:Sp; [rewrite DK by (lia || exact Sp); ring|]. f_equal.
  rewrite (@lag_refines n e e' b j R G ltac:(lia) Sp). set (d := lag e b j). unfold past.
  destruct (Nat.ltb_spec (s / n) d) as [L1|L1], (Nat.ltb_spec s (n * d)) as [L2|L2]; try reflexivity.
  - pose proof (Nat.div_le_mono (n * d) s n Hn L2) as Q. rewrite Nat.mul_comm, Nat.div_mul in Q by exact Hn. lia.
  - pose proof (Nat.mul_div_le s n Hn). assert (n * d <= n * (s / n)) by (apply Nat.mul_le_mono_l; exact L1). lia.
  - assert (E : (s - n * d + d * n) / n = (s - n * d) / n + d) by (apply Nat.div_add; exact Hn).
    replace (s - n * d + d * n) with s in E by (rewrite (Nat.mul_comm d); lia). rewrite E. f_equal. lia.
Qed.

Variable solve : nat -> nat -> mat K -> mat K -> option (mat K).
Variables (A : Type) (act : A -> nat -> field K -> A * field K).
Hypothesis SS : solver_sound k0 kadd kmul solve.
Hypothesis SR : solver_regular k0 kadd kmul solve.
Notation forward := (forward k0 k1 kadd kmul ksub kopp solve act).
Notation "l !! t" := (nth t l (zero_field k0)) (at level 20).

Theorem refine n e e' (b : net) s0 s1 source source' outs w c :
  refines n e e' -> on_grid e b -> ends_dark k0 b w -> separate b -> num_act b = 0 -> w < e_num_wl e -> unmixed k0 e b w ->
  e_num_t e' <= n * e_num_t e -> held n source source' w c (num_src b) ->
  forward e b s0 source = Ok outs ->
  forall outs', forward e' b s1 source' = Ok outs' ->
  forall s k, s < e_num_t e' -> k < num_det b -> at_ (outs' !! s) w k c = at_ (outs !! (s / n)) w k c.
Proof.
  intros R G DK Sep NA Lw U LT HH HF outs' HF' s k Ls Lk.
  assert (Hn : n <> 0) by (destruct R; lia).
  destruct (@forward_sound _ _ _ _ _ _ _ KR _ SS b _ act e s0 source outs w c Sep NA Lw U HF) as (a & o & HW & _ & HR).
  assert (W' : waves e' b w (e_num_t e') (injected k0 b source' w c) (fun s => a (s / n)) (fun s => o (s / n))).
  { eapply refines_waves; try eassumption. intros t i Lt Li. unfold injected. destruct (b_src b i) eqn:F; [|reflexivity]. apply HH. apply rank_lt; auto. }
  assert (Lw' : w < e_num_wl e') by (destruct R as (_ & _ & _ & -> & _); exact Lw).
  destruct (forward_unique KR SS SR Sep NA Lw' (refines_unmixed R G U) HF' W') as [_ HR'].
  destruct (nth_rank 0 Lk) as (p & Lp & Dp & <- & _).
  rewrite HR' by assumption. rewrite HR; [reflexivity| |exact Lp|exact Dp]. apply Nat.div_lt_upper_bound; lia.
Qed.

Theorem refine_runs n e e' (b : net) s0 s1 source source' outs :
  solver_complete k0 kadd kmul solve ->
  refines n e e' -> on_grid e b -> separate b -> num_det b <> 0 -> (forall w, w < e_num_wl e -> unmixed k0 e b w) ->
  forward e b s0 source = Ok outs ->
  exists outs', forward e' b s1 source' = Ok outs' /\ length outs' = e_num_t e'.
Proof.
  intros SC R G Sep ND U HF. apply forward_succeeds; auto.
  - destruct R as (_ & _ & _ & _ & dt & dt' & _ & E & P & _). right. exists dt'. auto.
  - destruct (terminated b) eqn:E; [reflexivity|]. rewrite forward_unterminated in HF by exact E. discriminate.
  - assert (Ew : e_num_wl e' = e_num_wl e) by (destruct R as (_ & _ & _ & -> & _); reflexivity). rewrite Ew.
    intros w Lw. split; [exact (refines_unmixed R G (U w Lw))|]. eapply refines_quiet; [exact R|exact G|].
    eapply forward_regular; eauto.
Qed.
End Any.
