(** Property C103: smaller time steps do not change a simulation whose delays are whole steps. *)
From Coq Require Import QArith Qcanon Ring.
From Verif Require Import Base NetModel NetSpec SimModel SimAlg SimSpec SimNodes SimProofs SimDelay SimRegular Gauss CircuitSpec CircuitProofs FeedForward Refine RingExample.
Set Implicit Arguments.
Unset Strict Implicit.
Local Open Scope list_scope.
Local Open Scope nat_scope.

Section Props.
Variables (K : Type) (k0 k1 : K) (kadd kmul ksub : K -> K -> K) (kopp : K -> K).
Hypothesis KR : ring_theory k0 k1 kadd kmul ksub kopp (@eq K).
Variable solve : nat -> nat -> mat K -> mat K -> option (mat K).
Variables (A : Type) (act : A -> nat -> field K -> A * field K).
Notation forward := (forward k0 k1 kadd kmul ksub kopp solve act).
Notation "l !! t" := (nth t l (zero_field k0)) (at level 20).

(** [n] steps in place of each one: every sample is [n] times in the result. *)
Theorem C103_refine n e e' (b : net K) s0 s1 source source' outs w c :
  solver_sound k0 kadd kmul solve -> solver_regular k0 kadd kmul solve ->
  refines n e e' -> on_grid e b -> ends_dark k0 b w -> flags_ok b -> num_act b = 0 -> w < e_num_wl e -> unmixed k0 e b w ->
  e_num_t e' <= n * e_num_t e -> held n source source' w c (num_src b) ->
  forward e b s0 source = Ok outs ->
  forall outs', forward e' b s1 source' = Ok outs' ->
  forall s k, s < e_num_t e' -> k < num_det b -> at_ (outs' !! s) w k c = at_ (outs !! (s / n)) w k c.
Proof. intros SS SR R G DK FL. apply refine with (1 := KR) (2 := SS) (3 := SR) (4 := R) (5 := G) (6 := DK). apply flags_separate, FL. Qed.

(** The finer simulation works when the coarse one does. *)
Theorem C103_runs n e e' (b : net K) s0 s1 source source' outs :
  solver_regular k0 kadd kmul solve -> solver_complete k0 kadd kmul solve ->
  refines n e e' -> on_grid e b -> flags_ok b -> num_det b <> 0 -> (forall w, w < e_num_wl e -> unmixed k0 e b w) ->
  forward e b s0 source = Ok outs ->
  exists outs', forward e' b s1 source' = Ok outs' /\ length outs' = e_num_t e'.
Proof. intros SR SC R G FL. apply refine_runs with (1 := KR) (2 := SR) (3 := SC) (4 := R) (5 := G). apply flags_separate, FL. Qed.
End Props.
Print Assumptions C103_refine.
Print Assumptions C103_runs.

(** ** A source, a waveguide and a detector, with two steps in place of each one *)
Definition half_env (n : nat) : env := {| e_freq := false; e_dt := Some (1 # 2)%Q; e_num_t := n; e_num_wl := 2 |}.
Definition pulse2 (t : nat) : field Qc := pulse (t / 2).
Definition line (del : Q) : net Qc :=
  {| b_np := 4; b_C := fun i j => qpair i j 0 1 || qpair i j 2 3;
     b_src := fun i => i =? 0; b_det := fun i => i =? 3; b_act := no; b_order := seq 0 4;
     b_S := fun i j => if qpair i j 1 2 then cst (q2 3 5) (q2 4 5) else zs;
     b_del := fun i => if (1 <=? i) && (i <=? 2) then del else 0%Q |}.
Lemma half_refines n m : refines 2 (tenv n) (half_env m).
Proof. split; [lia|]. repeat split. exists 1%Q, (1 # 2)%Q. repeat split. Qed.
Lemma line_grid n : on_grid (tenv n) (line 1%Q).
Proof.
  exists 1%Q. split; [reflexivity|]. intros i Li _. cbn [line b_np] in Li.
  do 4 (destruct i as [|i]; [(exists 0; reflexivity) || (exists 1; reflexivity)|]). lia.
Qed.
Lemma line_dark del w : ends_dark qc0 (line del) w.
Proof.
  intros i j Li Lj. cbn [line b_np] in Li, Lj.
  do 4 (destruct j as [|j]; [try discriminate; intros _; do 4 (destruct i as [|i]; [reflexivity|]); lia|]). lia.
Qed.
Lemma line_flags del : flags_ok (line del).
Proof. apply flagsb_ok. vm_compute. reflexivity. Qed.
Lemma line_runs e del source l : show 1 0 (qforward e (line del) source) = l -> l <> [] ->
  exists outs, qforward e (line del) source = Ok outs /\ show 1 0 (Ok outs) = l.
Proof. intros H N. destruct (qforward e (line del) source) as [o|x]; [eauto|]. cbn in H. congruence. Qed.

Example C103_example : refines 2 (tenv 2) (half_env 3) /\ on_grid (tenv 2) (line 1%Q) /\ ends_dark qc0 (line 1%Q) 1 /\ flags_ok (line 1%Q) /\ num_act (line 1%Q) = 0
  /\ unmixed qc0 (tenv 2) (line 1%Q) 1 /\ e_num_t (half_env 3) <= 2 * e_num_t (tenv 2) /\ held 2 pulse pulse2 1 0 (num_src (line 1%Q))
  /\ show 1 0 (qforward (tenv 2) (line 1%Q) pulse) = [(0, 0); (3 # 5, 4 # 5)]%Q
  /\ show 1 0 (qforward (half_env 3) (line 1%Q) pulse2) = [(0, 0); (0, 0); (3 # 5, 4 # 5)]%Q.
Proof.
  split; [apply half_refines|]. split; [apply line_grid|]. split; [apply line_dark|]. split; [apply line_flags|]. split; [reflexivity|].
  split; [apply unmixedb_ok; vm_compute; reflexivity|]. split; [cbn; lia|]. split; [intros s k _; reflexivity|].
  split; vm_compute; reflexivity.
Qed.

(** Delays that are no whole steps are rounded, so the results depend on the time step: a delay of half
    a step is one step, and one half step. *)
Theorem C103_grid_refuted : exists n e e' (b : net Qc) source source' w c outs outs' s k,
  refines n e e' /\ ends_dark qc0 b w /\ flags_ok b /\ num_act b = 0 /\ w < e_num_wl e /\ unmixed qc0 e b w /\
  e_num_t e' <= n * e_num_t e /\ held n source source' w c (num_src b) /\
  qforward e b source = Ok outs /\ qforward e' b source' = Ok outs' /\
  s < e_num_t e' /\ k < num_det b /\ at_ (nth s outs' (zero_field qc0)) w k c <> at_ (nth (s / n) outs (zero_field qc0)) w k c.
Proof.
  destruct (@line_runs (tenv 1) (1 # 2)%Q pulse [(0, 0)]%Q) as (outs & E & H); [vm_compute; reflexivity|discriminate|].
  destruct (@line_runs (half_env 2) (1 # 2)%Q pulse2 [(0, 0); (3 # 5, 4 # 5)]%Q) as (outs' & E' & H'); [vm_compute; reflexivity|discriminate|].
  exists 2, (tenv 1), (half_env 2), (line (1 # 2)%Q), pulse, pulse2, 1, 0, outs, outs', 1, 0.
  split; [apply half_refines|]. split; [apply line_dark|]. split; [apply line_flags|]. split; [reflexivity|]. split; [cbn; lia|].
  split; [apply unmixedb_ok; vm_compute; reflexivity|]. split; [cbn; lia|]. split; [intros s k _; reflexivity|].
  split; [exact E|]. split; [exact E'|]. split; [cbn; lia|]. split; [vm_compute; lia|].
  destruct outs as [|x0 [|]]; cbn [show map] in H; try discriminate. destruct outs' as [|y0 [|y1 [|]]]; cbn [show map] in H'; try discriminate.
  injection H as H1 _. injection H' as _ _ H3 _. cbn [nth Nat.div Nat.divmod fst at_ snd Nat.sub]. intros F. injection F as F _.
  assert (G : this (fst y1 1 0 0) = this (fst x0 1 0 0)) by (exact F || (f_equal; exact F)). pose proof (eq_trans (eq_trans (eq_sym H3) G) H1) as Z. discriminate Z.
Qed.
Print Assumptions C103_grid_refuted.
