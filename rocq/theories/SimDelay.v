(** Delays in time steps and the length of the history buffer. *)
From Coq Require Import QArith Qround Qabs Lqa Permutation.
From Verif Require Import Base NetModel SimModel SimAlg SimSpec SimNodes SimProofs.
Set Implicit Arguments.
Unset Strict Implicit.
Local Open Scope nat_scope.

Lemma long_floor q : (0 <= q)%Q -> long q = Qfloor q.
Proof.
  destruct q as [n d]. unfold long, Qle. cbn. intros H. apply Z.quot_div_nonneg; lia.
Qed.

Lemma long_neg q : long (- q) = (- long q)%Z.
Proof. destruct q as [n d]. unfold long. cbn. apply Z.quot_opp_l. lia. Qed.

Lemma long_nonneg q : (0 <= q)%Q -> (0 <= long q)%Z.
Proof. intros H. rewrite long_floor by auto. rewrite <- (Qfloor_Z 0). apply Qfloor_resp_le. exact H. Qed.

Lemma long_mono q r : (q <= r)%Q -> (long q <= long r)%Z.
Proof.
  intros H. destruct (Qlt_le_dec q 0) as [Hq|Hq].
  - destruct (Qlt_le_dec r 0) as [Hr|Hr].
    + assert (E : (- long r <= - long q)%Z).
      { rewrite <- !long_neg. rewrite !long_floor by lra. apply Qfloor_resp_le. lra. }
      lia.
    + pose proof (long_nonneg Hr). assert (0 <= long (- q))%Z by (apply long_nonneg; lra).
      rewrite long_neg in H1. lia.
  - rewrite !long_floor by lra. apply Qfloor_resp_le. exact H.
Qed.

Lemma long_small q : (0 <= q)%Q -> (q < 1)%Q -> long q = 0%Z.
Proof.
  intros H0 H1. rewrite long_floor by auto.
  pose proof (Qfloor_le q) as A. pose proof (Qlt_floor q) as B.
  assert (inject_Z (Qfloor q) < inject_Z 1)%Q by (change (inject_Z 1) with 1%Q; lra).
  assert (inject_Z (-1) < inject_Z (Qfloor q))%Q.
  { rewrite inject_Z_plus in B. change (inject_Z 1) with 1%Q in B. change (inject_Z (-1)) with (-1)%Q. lra. }
  rewrite <- Zlt_Qlt in *. lia.
Qed.

Lemma div_dt_le (dt : Q) (a c : Q) : (0 < dt)%Q -> (a <= c)%Q -> (a / dt <= c / dt)%Q.
Proof.
  intros Hd H. unfold Qdiv. apply Qmult_le_compat_r; auto. apply Qlt_le_weak, Qinv_lt_0_compat, Hd.
Qed.

Section Steps.
Variables (e : env) (dt : Q).
Hypothesis Edt : e_dt e = Some dt.
Hypothesis Hdt : (0 < dt)%Q.

(** The number of steps is the nearest integer. *)
Lemma steps_nearest d : e_freq e = false -> (0 <= d)%Q ->
  (Qabs (inject_Z (Z.of_nat (steps e d)) * dt - d) <= dt / 2)%Q.
Proof.
  intros Hf Hd. unfold steps. rewrite Hf, Edt.
  assert (H0 : (0 <= d / dt)%Q) by (apply Qle_shift_div_l; auto; lra).
  set (q := (d / dt + (1 # 2))%Q).
  assert (Hq : (0 <= q)%Q) by (unfold q; lra).
  rewrite Z2Nat.id by (apply long_nonneg; auto). rewrite long_floor by auto.
  pose proof (Qfloor_le q) as A. pose proof (Qlt_floor q) as B.
  rewrite inject_Z_plus in B. change (inject_Z 1) with 1%Q in B.
  assert (E : (d == (d / dt) * dt)%Q) by (field; lra).
  set (z := inject_Z (Qfloor q)) in *. unfold q in *.
  assert (A' : (z - d / dt <= 1 # 2)%Q) by lra. assert (B' : (- (1 # 2) <= z - d / dt)%Q) by lra.
  assert (E2 : (z * dt - d == (z - d / dt) * dt)%Q) by (field; lra).
  rewrite E2, Qabs_Qmult, (Qabs_pos dt) by lra.
  assert (C : (Qabs (z - d / dt) <= 1 # 2)%Q) by (apply Qabs_Qle_condition; lra).
  assert (D : (Qabs (z - d / dt) * dt <= (1 # 2) * dt)%Q) by (apply Qmult_le_compat_r; lra).
  setoid_replace (dt / 2)%Q with ((1 # 2) * dt)%Q by field. exact D.
Qed.

Lemma steps_mono d d' : (d <= d')%Q -> steps e d <= steps e d'.
Proof.
  intros H. unfold steps. rewrite Edt.
  assert (L : (long ((if e_freq e then 0 else d) / dt + (1 # 2)) <= long ((if e_freq e then 0 else d') / dt + (1 # 2)))%Z).
  { apply long_mono. destruct (e_freq e); [lra|]. pose proof (div_dt_le Hdt H). lra. }
  lia.
Qed.

End Steps.

Lemma steps_freq e d : e_freq e = true -> steps e d = 0.
Proof.
  intros Hf. unfold steps. rewrite Hf. destruct (e_dt e) as [dt|]; auto.
  rewrite long_small; auto; unfold Qdiv; rewrite Qmult_0_l; lra.
Qed.

Lemma steps_single e d : e_dt e = None -> steps e d = 0.
Proof. intros H. unfold steps. rewrite H. reflexivity. Qed.

Lemma Qmaxl_spec l : l <> [] -> In (Qmaxl l) l /\ forall x, In x l -> (x <= Qmaxl l)%Q.
Proof.
  destruct l as [|q r]; [congruence|]. intros _. unfold Qmaxl. revert q.
  induction r as [|c r IH]; cbn [fold_left]; intros q.
  - split; [now left|]. intros x [->|[]]. apply Qle_refl.
  - destruct (Qle_bool q c) eqn:E.
    + destruct (IH c) as [I M]. split; [right; exact I|].
      intros x [->|Hx]; [|apply M; auto]. apply Qle_bool_iff in E. eapply Qle_trans; [exact E|]. apply M. now left.
    + destruct (IH q) as [I M]. split; [destruct I as [E0|I]; [left; exact E0|right; right; exact I]|].
      intros x [->|[->|Hx]]; [apply M; now left| |apply M; now right].
      assert (x < q)%Q. { apply Qnot_le_lt. intros H. apply Qle_bool_iff in H. congruence. }
      eapply Qle_trans; [apply Qlt_le_weak; exact H|]. apply M. now left.
Qed.

Lemma maxl_bound l n : (forall x, In x l -> x <= n) -> maxl l <= n.
Proof.
  induction l as [|x l IH]; intros H; [apply Nat.le_0_l|].
  change (maxl (x :: l)) with (Nat.max x (maxl l)). apply Nat.max_lub; [apply H; now left|apply IH; intros; apply H; now right].
Qed.

(** An environment in which a time step is defined where it is needed. *)
Definition timed (e : env) : Prop := e_freq e = true \/ exists dt, e_dt e = Some dt /\ (0 < dt)%Q.

Section Depth.
Variables (K : Type) (k0 k1 : K) (kadd kmul ksub : K -> K -> K) (kopp : K -> K).
Variable solve : nat -> nat -> mat K -> mat K -> option (mat K).

Lemma depth_eq e (b : net K) m : timed e -> separate b ->
  initialize k0 k1 kadd kmul ksub kopp solve e b = Ok (Some m) -> buffer_depth e m = Ok (i_depth m).
Proof.
  intros HT Sep EI. destruct (initialize_inv EI) as (_ & Hmc & Emc & _ & _ & _ & HD).
  pose proof (initialize_delay EI) as Hdel. unfold buffer_depth. rewrite HD.
  destruct (e_freq e) eqn:Ef.
  { f_equal. f_equal. symmetry. apply Nat.le_0_r, maxl_bound. intros x Hx. apply in_map_iff in Hx as (i & <- & _).
    rewrite steps_freq; auto. }
  destruct HT as [|(dt & Edt & Hdt)]; [congruence|]. rewrite Edt. f_equal. f_equal.
  set (l := map (i_delay m) (seq 0 (length (i_mc m)))).
  assert (NE : mc_nodes e b <> []).
  { intros E. apply Hmc. apply length_zero_iff_nil. rewrite <- (mc_length e Sep), E. reflexivity. }
  assert (Hl : l <> []).
  { unfold l. rewrite Emc. destruct (mc_nodes e b); [congruence|]. cbn. discriminate. }
  destruct (Qmaxl_spec Hl) as [I M].
  assert (ES : forall d, Z.to_nat (long (d / dt + (1 # 2))) = steps e d).
  { intros d. unfold steps. rewrite Ef, Edt. reflexivity. }
  rewrite ES. apply Nat.le_antisymm.
  - unfold l in I at 2. apply in_map_iff in I as (k & <- & Ik). apply in_seq in Ik. rewrite Hdel.
    apply maxl_le. apply in_map_iff. eexists. split; [reflexivity|]. apply in_seq.
    assert (In (nth k (mc_nodes e b) 0) (mc_nodes e b)) by (apply nth_In; rewrite <- Emc; lia).
    apply in_mc in H; auto. lia.
  - apply maxl_bound. intros x Hx. apply in_map_iff in Hx as (i & <- & Ii). apply in_seq in Ii.
    destruct (Nat.eq_dec (steps e (b_del b i)) 0) as [->|N]; [lia|].
    assert (In i (mc_nodes e b)).
    { apply in_mc; auto. split; [lia|]. unfold lag. destruct (_ || _); lia. }
    apply (steps_mono Edt Hdt). apply M. unfold l. rewrite Emc.
    destruct (nth_index H) as [L E]. apply in_map_iff. exists (index i (mc_nodes e b)).
    split; [rewrite Hdel, E; reflexivity|]. apply in_seq. lia.
Qed.

End Depth.
