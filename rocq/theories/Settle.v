(** Passive circuits with a constant input settle to their frequency-domain response. *)
From Coq Require Import QArith Ring Reals Lra Permutation.
From Verif Require Import Base PyStr NetModel NetSpec NetProofs WireProofs NetBuild SimModel SimAlg SimSpec SimNodes SimProofs SimMore SimDelay
  SimRegular CircuitSpec CircuitProofs EnergyProofs EnergyNet.
Set Implicit Arguments.
Unset Strict Implicit.
Local Open Scope list_scope.
Local Open Scope nat_scope.

(** The same environment with [n] time steps. *)
Definition with_steps (e : env) (n : nat) : env :=
  {| e_freq := e_freq e; e_dt := e_dt e; e_num_t := n; e_num_wl := e_num_wl e |}.

Section Any.
Variables (K : Type) (k0 k1 : K) (kadd kmul ksub : K -> K -> K) (kopp : K -> K).
Hypothesis KR : ring_theory k0 k1 kadd kmul ksub kopp (@eq K).
Variable solve : nat -> nat -> mat K -> mat K -> option (mat K).
Variables (A : Type) (act : A -> nat -> field K -> A * field K).
Hypothesis SS : solver_sound k0 kadd kmul solve.
Notation forward := (forward k0 k1 kadd kmul ksub kopp solve act).
Notation waves := (waves k0 kadd kmul ksub).

(** One solution of the wave equations for all simulation lengths. *)
Lemma forward_all e b s0 source outs w c : separate b -> num_act b = 0 -> w < e_num_wl e -> unmixed k0 e b w ->
  forward e b s0 source = Ok outs ->
  exists a o, (forall T, waves e b w T (injected k0 b source w c) a o) /\
    forall n outs', forward (with_steps e n) b s0 source = Ok outs' -> reads k0 b outs' w c n a.
Proof.
  intros Sep NA Lw U HF. destruct (forward_inv HF) as (m & EI & _).
  destruct (run_waves KR SS act source s0 EI Sep c NA Lw U) as (a & o & HW & HO).
  exists a, o. split; [exact HW|]. intros n outs' HF'. destruct (forward_inv HF') as (m' & EI' & _ & _ & EO).
  assert (m' = m) by (change (initialize k0 k1 kadd kmul ksub kopp solve (with_steps e n) b) with (initialize k0 k1 kadd kmul ksub kopp solve e b) in EI'; congruence).
  subst m'. split; [rewrite EO, map_length, seq_length; reflexivity|].
  intros t p Lt Lp Dp. destruct (det_read EI' Sep EO w c Lt Lp Dp) as (k & Lk & <- & ->). apply HO. exact Lk.
Qed.
End Any.

Section Real.
Local Open Scope R_scope.
Notation net := (net R).
Notation c0 := (c0 0%R).
Notation cadd := (cadd Rplus).
Notation csub := (csub Rminus).
Notation cmul := (cmul Rplus Rmult Rminus).
Notation norm2 := (norm2 Rplus Rmult).
Notation sum := (lsum 0%R Rplus).
Notation csum := (lsum c0 cadd).
Notation waves := (waves 0%R Rplus Rmult Rminus).
Notation power_all := (power_all 0 Rplus Rmult).
Notation power_on := (power_on 0 Rplus Rmult).
Let CR := CR RTheory.
Add Ring Cring3 : CR.

Lemma power_pos f n x : 0 <= power_on f n x.
Proof. apply sum_pos. intros i _. destruct (f i); [apply norm2_pos|apply Rle_refl]. Qed.
Lemma power_one f n x i : (i < n)%nat -> f i = true -> norm2 (x i) <= power_on f n x.
Proof.
  intros L F. unfold CircuitSpec.power_on. rewrite <- (lsum_pick RTheory (p := fun k => (k =? i)%nat) (fun k => norm2 (x k)) L) by (auto using Nat.eqb_refl; intros k _ E; now apply Nat.eqb_eq in E).
  apply sum_le. intros k _. destruct (Nat.eqb_spec k i) as [->|]; [rewrite F; apply Rle_refl|]. destruct (f k); [apply norm2_pos|apply Rle_refl].
Qed.

(** Summable terms vanish. *)
Lemma bounded_vanish (f : nat -> R) B : (forall t, 0 <= f t) -> (forall T, sum f (seq 0 T) <= B) ->
  forall eps, 0 < eps -> exists T0, forall t, (T0 <= t)%nat -> f t < eps.
Proof.
  intros Pos HB eps He. set (U := fun T => sum f (seq 0 T)).
  assert (Step : forall T, U (S T) = U T + f T).
  { intros T. unfold U. rewrite seq_S, (lsum_app RTheory). cbn [Nat.add]. rewrite lsum_cons, lsum_nil. ring. }
  assert (HG : Un_growing U) by (intros T; rewrite Step; specialize (Pos T); lra).
  assert (HU : has_ub U) by (exists B; intros x (T & ->); apply HB).
  destruct (growing_cv U HG HU) as (l & Hl). destruct (Hl (eps / 2)) as (N & HN); [lra|].
  exists N. intros t Lt. pose proof (HN t Lt) as H1. pose proof (HN (S t) ltac:(lia)) as H2. unfold R_dist in *.
  rewrite Step in H2. apply Rabs_def2 in H1. apply Rabs_def2 in H2. lra.
Qed.

(** After the input has stopped, a passive circuit sends out a finite amount of energy. *)
Section Free.
Variables (b : net) (w : nat) (e : env) (ab : nat -> bool).
Hypothesis OP : one_partner b.
Hypothesis SY : sym_C b.
Hypothesis PA : forall x, power_all (b_np b) (scatter 0 Rplus Rmult Rminus b w x) <= power_on (fun i => negb (ab i)) (b_np b) x.

Lemma sum_split (f : nat -> R) T1 T : (T1 <= T)%nat -> sum f (seq 0 T) = sum f (seq 0 T1) + sum f (seq T1 (T - T1)).
Proof. intros L. replace T with (T1 + (T - T1))%nat at 1 by lia. rewrite seq_app, (lsum_app RTheory). reflexivity. Qed.

Lemma free_energy T1 src d o : (forall T, waves e b w T src d o) ->
  (forall t i, (T1 <= t)%nat -> (i < b_np b)%nat -> src t i = c0) ->
  forall T, sum (fun t => power_on ab (b_np b) (d (T1 + t)%nat)) (seq 0 T)
    <= sum (fun t => power_on (fun i => negb (ab i)) (b_np b) (d t)) (seq 0 T1).
Proof.
  intros HW HS T. set (nt := fun i => negb (ab i)).
  assert (Hshift : forall f : nat -> R, sum (fun t => f (T1 + t)%nat) (seq 0 T) = sum f (seq T1 T)).
  { intros f. clear. revert T1. induction T as [|T IH]; intros T1; [reflexivity|]. cbn [seq]. rewrite !lsum_cons, Nat.add_0_r. f_equal.
    rewrite <- seq_shift, (lsum_map R0 Rplus). rewrite <- IH. apply lsum_ext. intros t _. f_equal. lia. }
  rewrite (Hshift (fun t => power_on ab (b_np b) (d t))).
  pose proof (@delay_power _ _ _ _ _ _ _ RTheory b e nt (T1 + T) d) as HD.
  set (pd := fun t => power_on nt (b_np b) (fun j => past 0 d (lag e b j) t j)) in *.
  assert (H0 : 0 <= stored 0 Rplus Rmult e b nt (T1 + T) d).
  { apply sum_pos. intros i _. destruct (nt i); [|apply Rle_refl]. apply sum_pos. intros t _. destruct (_ <=? _)%nat; [apply norm2_pos|apply Rle_refl]. }
  assert (H1 : sum (fun t => power_on ab (b_np b) (d t) + power_on nt (b_np b) (d t)) (seq T1 T) <= sum pd (seq T1 T)).
  { apply sum_le. intros t It. apply in_seq in It. rewrite <- (power_split RTheory).
    rewrite (wire_power RTheory OP SY (HW (S t)) (Nat.lt_succ_diag_r t)). eapply Rle_trans; [|apply PA].
    apply Req_le. unfold CircuitSpec.power_all. apply lsum_ext. intros i Ii. apply in_seq in Ii. f_equal.
    destruct (HW (S t) t i ltac:(lia) ltac:(lia)) as [_ ->]. rewrite HS by lia. unfold scatter. ring. }
  rewrite (lsum_add RTheory) in H1.
  rewrite (sum_split (fun t => power_on nt (b_np b) (d t)) (T1 := T1)) in HD by lia. rewrite (sum_split pd (T1 := T1)) in HD by lia.
  replace (T1 + T - T1)%nat with T in HD by lia.
  assert (H2 : 0 <= sum pd (seq 0 T1)) by (apply sum_pos; intros; apply power_pos). lra.
Qed.
End Free.

Variable solve : nat -> nat -> mat R -> mat R -> option (mat R).
Variables (A : Type) (act : A -> nat -> field R -> A * field R).
Hypothesis SS : solver_sound 0 Rplus Rmult solve.
Notation forward := (forward 0 1 Rplus Rmult Rminus Ropp solve act).
Notation "l !! t" := (nth t l (zero_field 0)) (at level 20).

Theorem settles (term : string -> bool) (mods : list (string * net)) conns (b : net) e s0 s1 source source' outs0 outs' w c t1 :
  @build (nat -> R * R) Q (fun _ => c0) 0%Q mods conns = Ok b ->
  (forall n d, In (n, d) mods -> if term n then dark 0%R d w else passive d w /\ plain d) ->
  sym_C b -> one_partner b -> flags_ok b -> num_act b = 0%nat -> (w < e_num_wl e)%nat -> unmixed 0 e b w -> unmixed 0 (freq_env e) b w ->
  (forall t k, (t1 <= t)%nat -> (k < num_src b)%nat -> at_ (source t) w k c = at_ (source' 0%nat) w k c) ->
  forward (freq_env e) b s1 source' = Ok outs' -> forward e b s0 source = Ok outs0 ->
  forall eps, 0 < eps -> exists T0, forall n outs, forward (with_steps e n) b s0 source = Ok outs ->
  forall t k, (T0 <= t)%nat -> (t < n)%nat -> (k < num_det b)%nat ->
  norm2 (csub (at_ (outs !! t) w k c) (at_ (outs' !! 0) w k c)) < eps.
Proof.
  intros HB HM SY OP FL NA Lw U U' Hsrc HF' HF eps He. destruct (build_inv HB) as (cs & Hs & Hb).
  assert (Sep : separate b) by (intros i Li; specialize (FL i Li); tauto).
  assert (HC : forall n d, In (n, d) cs -> if term n then dark 0%R d w else passive d w /\ plain d).
  { intros n d I. apply HM. apply assoc_In_s. exact (sc_from Hs I). }
  assert (HP : forall i, (i < b_np b)%nat -> term_ports term cs i = false -> b_src b i = false /\ b_det b i = false /\ b_act b i = false).
  { apply (@term_plain R 0 term cs _ b Hb). intros n d I T1. specialize (HC n d I). rewrite T1 in HC. apply HC. }
  assert (HD : forall n d, In (n, d) cs -> term n = true -> dark 0%R d w) by (intros n d I T; specialize (HC n d I); now rewrite T in HC).
  assert (DK : forall i j, (i < b_np b)%nat -> (j < b_np b)%nat -> b_src b j || b_det b j || b_act b j = true -> b_S b i j w = c0).
  { intros i j Li Lj Sp. destruct (S_cases Hb w Li Lj) as [(n & d & q & q' & H1 & H2 & L1 & L2 & I & -> & _)|[-> _]]; [|reflexivity].
    destruct (term_ports term cs j) eqn:T.
    - apply (HD n d I); [|assumption..]. unfold term_ports in T. now rewrite (owner_located H2) in T.
    - destruct (HP j Lj T) as (E1 & E2 & E3). rewrite E1, E2, E3 in Sp. discriminate. }
  assert (HPA : forall x, power_all (b_np b) (scatter 0 Rplus Rmult Rminus b w x) <= power_on (fun i => negb (term_ports term cs i)) (b_np b) x).
  { apply (net_passive_terms Hb). intros n d I. specialize (HC n d I). destruct (term n); [exact HC|apply HC]. }
  destruct (forward_all RTheory SS c Sep NA Lw U HF) as (a & o & HW & HR).
  destruct (@forward_sound _ _ _ _ _ _ _ RTheory _ SS b _ act (freq_env e) s1 source' outs' w c Sep NA Lw U' HF') as (a' & o' & HW' & HR').
  assert (HL : exists L, forall j, (j < b_np b)%nat -> (lag e b j <= L)%nat).
  { generalize (b_np b). intros m. induction m as [|m (L & IH)]; [exists 0%nat; lia|].
    exists (Nat.max L (lag e b m)). intros j Lj. destruct (Nat.eq_dec j m) as [->|]; [lia|]. specialize (IH j ltac:(lia)). lia. }
  destruct HL as (L & HL). set (T1 := Nat.max t1 L).
  set (d := fun t i => csub (a t i) (a' 0%nat i)). set (od := fun t i => csub (o t i) (o' 0%nat i)).
  set (src := fun t i => csub (od t i) (csum (fun j => cmul (b_S b i j w) (past 0 d (lag e b j) t j)) (seq 0 (b_np b)))).
  assert (HWd : forall T, waves e b w T src d od).
  { intros T t i Lt Li. destruct (HW T t i Lt Li) as [H1 _], (HW' 0%nat i ltac:(cbn; lia) Li) as [H2 _]. split.
    - unfold d. rewrite H1, H2, <- (lsum_sub CR). apply lsum_ext. intros j _. unfold od. destruct (b_C b i j); ring.
    - unfold src. ring. }
  assert (HS : forall t i, (T1 <= t)%nat -> (i < b_np b)%nat -> src t i = c0).
  { intros t i Lt Li. unfold src, od. destruct (HW (S t) t i ltac:(lia) Li) as [_ ->]. destruct (HW' 0%nat i ltac:(cbn; lia) Li) as [_ ->].
    assert (E : injected 0 b source w c t i = injected 0 b source' w c 0 i).
    { unfold injected. destruct (b_src b i) eqn:F; [|reflexivity]. apply Hsrc; [lia|]. now apply rank_lt. }
    rewrite E.
    assert (E2 : csum (fun j => cmul (b_S b i j w) (past 0 d (lag e b j) t j)) (seq 0 (b_np b))
      = csub (csum (fun j => cmul (b_S b i j w) (past 0 a (lag e b j) t j)) (seq 0 (b_np b)))
             (csum (fun j => cmul (b_S b i j w) (past 0 a' (lag (freq_env e) b j) 0 j)) (seq 0 (b_np b)))).
    { rewrite <- (lsum_sub CR). apply lsum_ext. intros j Ij. apply in_seq in Ij. specialize (HL j ltac:(lia)).
      destruct (b_src b j || b_det b j || b_act b j) eqn:Sp; [rewrite DK by (lia || exact Sp); ring|].
      unfold past at 3. unfold lag at 3. rewrite Sp, steps_single by reflexivity. cbn [Nat.ltb Nat.leb Nat.sub]. unfold past.
      destruct (Nat.ltb_spec t (lag e b j)); [lia|]. unfold d. ring. }
    rewrite E2. ring. }
  pose proof (free_energy OP SY HPA HWd HS) as HE.
  destruct (bounded_vanish (f := fun t => power_on (term_ports term cs) (b_np b) (d (T1 + t)%nat)) (fun t => power_pos _ _ _) HE He) as (T0 & HT).
  exists (T1 + T0)%nat. intros n outs HFn t k Ht Ln Lk. destruct (HR n outs HFn) as [_ HRn]. destruct HR' as [_ HR'].
  destruct (nth_rank 0 Lk) as (p & Lp & Dp & <- & _). rewrite HRn by assumption. rewrite HR' by (cbn; lia || assumption).
  specialize (HT (t - T1)%nat ltac:(lia)). replace (T1 + (t - T1))%nat with t in HT by lia.
  eapply Rle_lt_trans; [|exact HT]. change (csub (a t p) (a' 0%nat p)) with (d t p). apply power_one; [exact Lp|].
  destruct (term_ports term cs p) eqn:T; [reflexivity|]. destruct (HP p Lp T) as (_ & E & _). congruence.
Qed.
End Real.
