(** What simulations of components do that mix delayed and instantaneous ports. *)
From Coq Require Import QArith Ring Permutation.
From Verif Require Import Base NetModel SimModel SimAlg SimSpec SimNodes SimProofs.
Set Implicit Arguments.
Unset Strict Implicit.
Local Open Scope list_scope.
Local Open Scope nat_scope.

Section Cut.
Variables (K : Type) (k0 k1 : K) (kadd kmul ksub : K -> K -> K) (kopp : K -> K).
Hypothesis KR : ring_theory k0 k1 kadd kmul ksub kopp (@eq K).
Add Ring Kr : KR.
Variable solve : nat -> nat -> mat K -> mat K -> option (mat K).
Variables (A : Type) (act : A -> nat -> field K -> A * field K).
Hypothesis SS : solver_sound k0 kadd kmul solve.
Notation c0 := (c0 k0).
Notation cadd := (cadd kadd).
Notation cmul := (cmul kadd kmul ksub).
Notation csum := (lsum c0 cadd).
Let CR := cx_ring KR.
Add Ring Cr : CR.
Notation initialize := (initialize k0 k1 kadd kmul ksub kopp solve).
Notation forward := (forward k0 k1 kadd kmul ksub kopp solve act).

(** The circuit without the coefficients between delayed and instantaneous ports. *)
Definition cut (e : env) (b : net K) : net K :=
  {| b_np := b_np b; b_C := b_C b; b_src := b_src b; b_det := b_det b; b_act := b_act b; b_order := b_order b;
     b_S := fun i j w => if Bool.eqb (lag e b i =? 0) (lag e b j =? 0) then b_S b i j w else c0;
     b_del := b_del b |}.

Section Run.
Variables (e : env) (b : net K) (m : init K) (source : nat -> field K) (s0 : A).
Hypothesis EI : initialize e b = Ok (Some m).
Hypothesis Sep : separate b.
Notation mc := (mc_nodes e b).
Notation out := (out k0 kadd kmul ksub act b m (node_source k0 (num_src b) source) s0 (i_depth m)).
Notation emitted := (emitted k0 kadd kmul ksub b act e m source s0).

Lemma run_waves_cut w c : num_act b = 0 -> w < e_num_wl e ->
  exists a o, (forall T, waves k0 kadd kmul ksub e (cut e b) w T (injected k0 b source w c) a o) /\
  forall t k, k < length mc -> at_ (out t) w k c = a t (nth k mc 0).
Proof.
  intros NA Lw. destruct (initialize_inv EI) as (_ & _ & _ & _ & HC & _).
  destruct (full KR SS (all_perm e Sep) (HC w Lw)) as (F & G & H).
  exists (fun t => F (fun k => at_ (emitted t) w k c)), (fun t => G (fun k => at_ (emitted t) w k c)).
  assert (HO : forall t k, k < length mc -> at_ (out t) w k c = F (fun k => at_ (emitted t) w k c) (nth k mc 0)).
  { intros t k L. destruct (H (fun k => at_ (emitted t) w k c)) as (_ & H2 & _). rewrite H2, (out_at KR act source s0 EI); auto. }
  split; [|exact HO].
  intros T t i _ Li. cbn [b_np cut] in *. destruct (H (fun k => at_ (emitted t) w k c)) as (H1 & H2 & H3 & H4).
  split; [apply H3; auto|]. change (lag e (cut e b)) with (lag e b). cbn [cut b_S].
  rewrite <- (lsum_perm CR _ (all_perm e Sep)), (lsum_app CR).
  assert (Ii : In i (mc ++ ml_nodes e b)) by (rewrite (all_perm e Sep); apply in_seq; lia).
  apply in_app_iff in Ii as [Ii|Ii].
  - destruct (nth_index Ii) as [Lk Ek]. set (k := index i mc) in *. clearbody k. subst i.
    assert (Z : lag e b (nth k mc 0) =? 0 = false) by (apply Nat.eqb_neq; apply in_mc in Ii; auto; apply Ii). rewrite Z.
    rewrite H1 by auto. unfold SimProofs.emitted at 1. rewrite NA, Nat.eqb_refl, (scattered_at KR act source s0 EI Sep) by auto. f_equal.
    rewrite (lsum_0 CR _ (ml_nodes e b)).
    + rewrite <- (lsum_nth _ _ 0 _ mc).
      transitivity (csum (fun j => cmul (if Bool.eqb false (lag e b (nth j mc 0) =? 0) then b_S b (nth k mc 0) (nth j mc 0) w else c0)
         (past k0 (fun t0 => F (fun k => at_ (emitted t0) w k c)) (lag e b (nth j mc 0)) t (nth j mc 0))) (seq 0 (length mc))).
      2:{ ring. }
      apply lsum_ext. intros j Ij. apply in_seq in Ij.
      assert (Ij' : In (nth j mc 0) mc) by (apply nth_In; lia). apply in_mc in Ij' as [_ Nj]; auto. apply Nat.eqb_neq in Nj. rewrite Nj. cbn [Bool.eqb].
      f_equal. unfold past. destruct (t <? _); auto. apply HO. lia.
    + intros j Ij. apply in_ml in Ij as [_ ->]. cbn [Nat.eqb Bool.eqb]. ring.
  - rewrite H4 by auto. apply in_ml in Ii as [_ Ii].
    assert (NS : injected k0 b source w c t i = c0).
    { unfold injected. unfold lag in Ii. destruct (b_src b i); auto. cbn [orb] in Ii. lia. }
    rewrite NS, Ii. cbn [Nat.eqb]. rewrite (lsum_0 CR _ mc).
    + transitivity (csum (fun j => cmul (if Bool.eqb true (lag e b j =? 0) then b_S b i j w else c0)
         (past k0 (fun t0 => F (fun k => at_ (emitted t0) w k c)) (lag e b j) t j)) (ml_nodes e b)).
      2:{ ring. }
      apply lsum_ext. intros j Ij. apply in_ml in Ij as [_ ->]. cbn [Nat.eqb Bool.eqb]. f_equal. unfold past.
      cbn. rewrite Nat.sub_0_r. reflexivity.
    + intros j Ij. apply in_mc in Ij as [Lj Ij]; auto. apply Nat.eqb_neq in Ij. rewrite Ij. cbn [Bool.eqb]. ring.
Qed.
End Run.

Theorem forward_cut e (b : net K) s0 source outs w c :
  separate b -> num_act b = 0 -> w < e_num_wl e -> forward e b s0 source = Ok outs ->
  exists a o, waves k0 kadd kmul ksub e (cut e b) w (e_num_t e) (injected k0 b source w c) a o
           /\ reads k0 b outs w c (e_num_t e) a.
Proof.
  intros Sep NA Lw HF. destruct (forward_inv HF) as (m & EI & _ & _ & EO).
  destruct (run_waves_cut source s0 EI Sep c NA Lw) as (a & o & HW & HO).
  exists a, o. split; [apply HW|]. split.
  - rewrite EO, map_length, seq_length. reflexivity.
  - intros t p Lt Lp Dp. destruct (det_read EI Sep EO (t := t) w c Lt Lp Dp) as (k & Lk & Ek & ->). rewrite HO, Ek; auto.
Qed.
End Cut.
