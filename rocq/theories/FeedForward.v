(** Circuits through which light passes without ever coming back: they have no resonances, and with a
    constant input they reach their frequency-domain response exactly after finitely many steps. *)
From Coq Require Import QArith Ring Permutation.
From Verif Require Import Base PyStr NetModel NetSpec NetProofs WireProofs SimModel SimAlg SimSpec SimNodes SimProofs SimMore SimDelay
  SimRegular CircuitSpec CircuitProofs EnergyProofs EnergyNet Settle.
Set Implicit Arguments.
Unset Strict Implicit.
Local Open Scope list_scope.
Local Open Scope nat_scope.

Section Any.
Variables (K : Type) (k0 k1 : K) (kadd kmul ksub : K -> K -> K) (kopp : K -> K).
Hypothesis KR : ring_theory k0 k1 kadd kmul ksub kopp (@eq K).
Notation net := (net K).
Notation c0 := (c0 k0).
Notation cadd := (cadd kadd).
Notation cmul := (cmul kadd kmul ksub).
Notation csum := (lsum c0 cadd).
Notation waves := (waves k0 kadd kmul ksub).
Let CR := CR KR.
Add Ring CringF : CR.

(** Ports have depths up to [B]: light entering a component at port [k] only reaches, through the
    component and the connection behind it, deeper ports. *)
Definition feed_forward (b : net) (w B : nat) : Prop := exists r : nat -> nat,
  (forall i, i < b_np b -> r i <= B) /\
  forall i j k, i < b_np b -> j < b_np b -> k < b_np b -> b_C b i j = true -> b_S b j k w = c0 \/ r k < r i.

(** Light entering at a source, detector or active port is absorbed. *)
Definition ends_dark (b : net) (w : nat) : Prop := forall i j, i < b_np b -> j < b_np b ->
  b_src b j || b_det b j || b_act b j = true -> b_S b i j w = c0.

Lemma ff_no_resonance e b w B : feed_forward b w B -> no_resonance k0 kadd kmul ksub e b w.
Proof.
  intros (r & _ & H) x Hx.
  assert (HR : forall m i, r i < m -> i < b_np b -> lag e b i = 0 -> x i = c0).
  { induction m as [|m IH]; intros i Lr Li Zi; [lia|]. rewrite (Hx i Li Zi). apply (lsum_0 CR). intros j Ij. apply in_seq in Ij.
    destruct (b_C b i j) eqn:E; [|reflexivity]. apply (lsum_0 CR). intros k Ik. apply in_seq in Ik.
    destruct (Nat.eqb_spec (lag e b k) 0) as [Zk|]; [|reflexivity].
    destruct (H i j k ltac:(lia) ltac:(lia) ltac:(lia) E) as [->|L]; [ring|]. rewrite (IH k); [ring|lia|lia|exact Zk]. }
  intros i Li Zi. apply (HR (S (r i))); auto.
Qed.

Variable solve : nat -> nat -> mat K -> mat K -> option (mat K).
Variables (A : Type) (act : A -> nat -> field K -> A * field K).
Hypothesis SS : solver_sound k0 kadd kmul solve.
Notation forward := (forward k0 k1 kadd kmul ksub kopp solve act).
Notation "l !! t" := (nth t l (zero_field k0)) (at level 20).

Theorem ff_settles (b : net) e s0 s1 source source' outs outs' w c t1 B L :
  feed_forward b w B -> ends_dark b w -> separate b -> num_act b = 0 -> w < e_num_wl e -> unmixed k0 e b w -> unmixed k0 (freq_env e) b w ->
  (forall t k, t1 <= t -> k < num_src b -> at_ (source t) w k c = at_ (source' 0) w k c) ->
  (forall i, i < b_np b -> lag e b i <= L) ->
  forward (freq_env e) b s1 source' = Ok outs' -> forward e b s0 source = Ok outs ->
  forall t k, t1 + B * L <= t -> t < e_num_t e -> k < num_det b -> at_ (outs !! t) w k c = at_ (outs' !! 0) w k c.
Proof.
  intros (r & HB & Hr) DK Sep NA Lw U U' Hsrc HL HF' HF.
  destruct (@forward_sound _ _ _ _ _ _ _ KR _ SS b _ act e s0 source outs w c Sep NA Lw U HF) as (a & o & HW & HR).
  destruct (@forward_sound _ _ _ _ _ _ _ KR _ SS b _ act (freq_env e) s1 source' outs' w c Sep NA Lw U' HF') as (a' & o' & HW' & HR').
  assert (HA : forall m t i, r i <= m -> i < b_np b -> t1 + r i * L <= t -> t < e_num_t e -> a t i = a' 0 i).
  { induction m as [m IH] using (well_founded_induction lt_wf). intros t i Lr Li Lt LT.
    destruct (HW t i LT Li) as [-> _]. destruct (HW' 0 i ltac:(cbn; lia) Li) as [-> _].
    apply lsum_ext. intros j Ij. apply in_seq in Ij. destruct (b_C b i j) eqn:E; [|reflexivity].
    destruct (HW t j LT ltac:(lia)) as [_ ->]. destruct (HW' 0 j ltac:(cbn; lia) ltac:(lia)) as [_ ->]. f_equal.
    - unfold injected. destruct (b_src b j) eqn:F; [|reflexivity]. apply Hsrc; [lia|]. apply rank_lt; [lia|exact F].
    - apply lsum_ext. intros k Ik. apply in_seq in Ik.
      destruct (b_src b k || b_det b k || b_act b k) eqn:Sp; [rewrite DK by (lia || exact Sp); ring|].
      destruct (Hr i j k Li ltac:(lia) ltac:(lia) E) as [->|Lk]; [ring|]. f_equal.
      unfold past at 2. unfold lag at 2 3. rewrite Sp, steps_single by reflexivity. cbn [Nat.ltb Nat.leb Nat.sub].
      specialize (HL k ltac:(lia)). unfold past.
      assert (r k * L + L <= r i * L) by (replace (r k * L + L) with (S (r k) * L) by lia; apply Nat.mul_le_mono_r; lia).
      destruct (Nat.ltb_spec t (lag e b k)); [lia|]. apply (IH (r k)); lia. }
  intros t k Lt LT Lk. destruct HR as [_ HR], HR' as [_ HR'].
  destruct (nth_rank 0 Lk) as (p & Lp & Dp & <- & _). rewrite HR by assumption. rewrite HR' by (cbn; lia || assumption).
  apply (HA (r p)); auto. specialize (HB p Lp). assert (r p * L <= B * L) by (apply Nat.mul_le_mono_r; exact HB). lia.
Qed.
End Any.
