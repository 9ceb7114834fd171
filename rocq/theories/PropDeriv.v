(** C107, C108: gradients of a simulation. *)
From Coq Require Import Reals Lra Ring QArith.
From Verif Require Import Base NetModel NetSpec NetProofs WireProofs NetBuild OrderProofs RingExample SimModel SimAlg SimSpec SimNodes SimProofs SimDelay SimRegular
  CircuitSpec CircuitProofs CompModel PropEnergy Family Deriv DerivNet.
Set Implicit Arguments.
Unset Strict Implicit.
Local Open Scope list_scope.
Local Open Scope nat_scope.

(** A scattering coefficient as a function of a parameter, and its derivative (per wavelength). *)
Definition dual : Type := (R -> nat -> C) * (nat -> C).
Definition dual0 : dual := (fun _ _ => 0c, fun _ => 0c).
(** The circuit at parameter [th]. *)
Definition ev (th : R) (x : dual) : nat -> C := fst x th.
Definition circuit_at (c : comp dual Q) (th : R) : comp (nat -> C) Q := tmap (ev th) c.

Definition true_derivative (th0 : R) (d : buf dual Q) : Prop := forall i j w, i < b_np d -> j < b_np d ->
  dlim (fun th => fst (b_S d i j) th w) th0 (snd (b_S d i j) w).

Section C107.
Variable solve : nat -> nat -> mat R -> mat R -> option (mat R).
Variables (A : Type) (act : A -> nat -> field R -> A * field R).
Definition simulate (e : env) (c : comp (nat -> C) Q) (s0 : A) (source : nat -> field R) : res (list (field R)) :=
  do b <- compile (fun _ => 0c) 0%Q c; forward 0%R 1%R Rplus Rmult Rminus Ropp solve act e b s0 source.
(** Batch column [k] of the detector at port [p]. *)
Definition reading (e : env) (c : comp dual Q) (b : buf dual Q) s0 source (w k t p : nat) (th : R) : C :=
  match simulate e (circuit_at c th) s0 source with
  | Ok outs => at_ (nth t outs (zero_field 0%R)) w (rank (b_det b) p) k
  | Err _ => 0c
  end.

Lemma compile_dual th0 c b : compile dual0 0%Q c = Ok b -> every_leaf (true_derivative th0) c -> true_derivative th0 b.
Proof.
  intros HC HL. revert HL HC. apply (@compile_ind' _ _ dual0 0%Q (true_derivative th0)).
  intros cs conns b' _ Hn H i j w Li Lj. destruct (net_buf_inv Hn) as (_ & _ & En & _ & _ & _ & Es & _).
  rewrite En in *. rewrite Es. destruct (block_cases (@b_S dual Q) dual0 Li Lj) as [(m & d & q & q' & H1 & _ & L1 & L2 & -> & _)|[-> _]].
  - apply (H m d); auto. destruct H1 as (pre & post & -> & _). apply in_elt.
  - split; apply derivable_pt_lim_const.
Qed.

Lemma compile_dual_unmixed e th w c b : compile dual0 0%Q c = Ok b -> every_leaf (fun d => unmixed 0%R e (fmap (ev th) d) w) c ->
  unmixed 0%R e (fmap (ev th) b) w.
Proof.
  intros HC HL. revert HL HC. apply (@compile_ind' _ _ dual0 0%Q (fun d => unmixed 0%R e (fmap (ev th) d) w)).
  intros cs conns b' _ Hn H. pose proof (net_buf_cmap (ev th) dual0 0%Q cs conns) as E. rewrite Hn in E. cbn [rmap] in E.
  eapply net_unmixed; [exact E|]. intros m d I. apply in_map_iff in I. destruct I as ([m' d'] & E' & I). injection E' as <- <-. apply (H m' d' I).
Qed.

(** C107: if the simulation succeeds at [th0], it does around [th0], and the detected fields have
    derivatives there: the fields [da] of the same circuit in which, in place of the source, the derivative
    of the scattering matrix applied to the fields [a] is injected. *)
Theorem C107_differentiable (e : env) (c : comp dual Q) (b : buf dual Q) (th0 : R) s0 source outs0 :
  solver_sound 0%R Rplus Rmult solve -> solver_complete 0%R Rplus Rmult solve -> solver_regular 0%R Rplus Rmult solve -> timed e ->
  compile dual0 0%Q c = Ok b -> terminated b = true -> num_det b <> 0 -> num_act b = 0 ->
  every_leaf (true_derivative th0) c ->
  (forall th w, every_leaf (fun d => unmixed 0%R e (fmap (ev th) d) w) c) ->
  simulate e (circuit_at c th0) s0 source = Ok outs0 ->
  around th0 (fun th => exists outs, simulate e (circuit_at c th) s0 source = Ok outs) /\
  forall w k, w < e_num_wl e -> exists a o da dout,
    waves e (fmap (ev th0) b) w (e_num_t e) (injected 0%R (fmap (ev th0) b) source w k) a o /\
    waves e (fmap (ev th0) b) w (e_num_t e)
      (fun t i => csum (fun j => cmul (snd (b_S b i j) w) (past a (lag e (fmap (ev th0) b) j) t j)) (seq 0 (b_np b))) da dout /\
    forall t p, t < e_num_t e -> p < b_np b -> b_det b p = true ->
      reading e c b s0 source w k t p th0 = a t p /\ dlim (reading e c b s0 source w k t p) th0 (da t p).
Proof.
  intros SS SC SR HT HC TM ND NA HL HU HS.
  assert (HE : forall th, simulate e (circuit_at c th) s0 source = forward 0%R 1%R Rplus Rmult Rminus Ropp solve act e (fmap (ev th) b) s0 source).
  { intros th. unfold simulate, circuit_at. change (fun _ : nat => 0c) with (ev th dual0). rewrite compile_tmap, HC. reflexivity. }
  rewrite HE in HS.
  assert (Sep : separate b) by (apply flags_separate; eapply compile_flags; eassumption).
  assert (U : forall th w, unmixed 0%R e (fmap (ev th) b) w) by (intros; eapply compile_dual_unmixed; eauto).
  pose proof (compile_dual HC HL) as HD.
  pose (f := fmap (fun x : dual => fst x) b : fam).
  assert (NR : forall w, w < e_num_wl e -> no_resonance e (at_par f th0) w).
  { intros w Lw. eapply (@forward_regular R 0%R 1%R Rplus Rmult Rminus Ropp RTheory solve A act e (at_par f th0)); eauto. apply U. }
  assert (HU' : around th0 (fun th => forall w, w < e_num_wl e -> unmixed 0%R e (at_par f th) w)).
  { exists 1%R. split; [lra|]. intros th _ w _. apply U. }
  split.
  - destruct (@succeeds_around solve SC A act e f th0 s0 source) as (d & Hd & H); auto.
    + intros w i j _ Li Lj. pose proof (HD i j w Li Lj) as H. apply dlim_deriv in H. apply deriv_cont in H. cbv beta in H. rewrite Rplus_0_r in H. exact H.
    + exists d. split; [exact Hd|]. intros th L. destruct (H th L) as (_ & outs & HF). exists outs. rewrite HE. exact HF.
  - intros w k Lw.
    destruct (@detected_deriv solve SS SC A act e f th0 (fun i j w => snd (b_S b i j) w) s0 source HT Sep TM ND NA) with (w := w) (c := k)
      as (a & o & da & dout & HW & HLW & HR); auto.
    { intros w' i j _ Li Lj. apply HD; auto. }
    exists a, o, da, dout. split; [exact HW|]. split.
    + intros t i Lt Li. destruct (HLW t i Lt Li) as [E1 E2]. split; [exact E1|]. rewrite E2.
      rewrite (lsum_add CRr). apply (Radd_comm CRr).
    + intros t p Lt Lp Dp. destruct (HR t p Lt Lp Dp) as [R1 R2].
      assert (ER : forall th, reading e c b s0 source w k t p th = detected solve act e f s0 source w k t p th).
      { intros th. unfold reading, detected. rewrite HE. reflexivity. }
      split; [rewrite ER; exact R1|]. destruct R2 as [Ra Rb]. split; (eapply derivable_pt_lim_ext; [|eassumption]); intros z; cbv beta; now rewrite ER.
Qed.

(** ... and so has the detected power (network.py:780-781). *)
Theorem C107_power (f : R -> C) (x : R) (l : C) : dlim f x l ->
  derivable_pt_lim (fun th => norm2 Rplus Rmult (f th)) x (2 * (fst (f x) * fst l + snd (f x) * snd l))%R.
Proof.
  intros [H1 H2]. unfold norm2.
  replace (2 * (fst (f x) * fst l + snd (f x) * snd l))%R with ((fst l * fst (f x) + fst (f x) * fst l) + (snd l * snd (f x) + snd (f x) * snd l))%R by ring.
  apply derivable_pt_lim_plus with (f1 := fun th => (fst (f th) * fst (f th))%R) (f2 := fun th => (snd (f th) * snd (f th))%R);
    [apply (derivable_pt_lim_mult _ _ _ _ _ H1 H1)|apply (derivable_pt_lim_mult _ _ _ _ _ H2 H2)].
Qed.
End C107.
Print Assumptions C107_differentiable.
Print Assumptions C107_power.

(** ** C108: the trainable parameters of the components *)
(** All scattering coefficients of [f th] have derivatives at [x]. *)
Definition smooth (f : R -> net R) (x : R) : Prop := exists D : nat -> nat -> nat -> C,
  forall i j w, dlim (fun th => b_S (f th) i j w) x (D i j w).

Section Smooth.
Local Open Scope R_scope.
Definition smoothS (S : R -> smat) (x : R) : Prop := exists D : nat -> nat -> nat -> C, forall i j w, dlim (fun th => S th i j w) x (D i j w).
Definition smoothV (v : R -> nat -> R) (x : R) : Prop := exists v' : nat -> R, forall w, derivable_pt_lim (fun th => v th w) x (v' w).

Lemma zero_smooth x : smoothS (fun _ => zero_S) x.
Proof. exists (fun _ _ _ => (0, 0)). intros. split; apply derivable_pt_lim_const. Qed.
Lemma re_smooth i j v S x : smoothV v x -> smoothS S x -> smoothS (fun th => put_re i j (v th) (S th)) x.
Proof.
  intros (v' & Hv) (D & HD). exists (fun a b w => if (a =? i)%nat && (b =? j)%nat then (v' w, snd (D a b w)) else D a b w).
  intros a b w. unfold put_re. destruct (_ && _); [|apply HD]. split; [apply Hv|apply (HD a b w)].
Qed.
Lemma im_smooth i j v S x : smoothV v x -> smoothS S x -> smoothS (fun th => put_im i j (v th) (S th)) x.
Proof.
  intros (v' & Hv) (D & HD). exists (fun a b w => if (a =? i)%nat && (b =? j)%nat then (fst (D a b w), v' w) else D a b w).
  intros a b w. unfold put_im. destruct (_ && _); [|apply HD]. split; [apply (HD a b w)|apply Hv].
Qed.
Lemma bre_smooth i j v S x : smoothV v x -> smoothS S x -> smoothS (fun th => both_re i j (v th) (S th)) x.
Proof. intros. apply (@re_smooth j i v (fun th => put_re i j (v th) (S th))); auto. apply re_smooth; auto. Qed.
Lemma bim_smooth i j v S x : smoothV v x -> smoothS S x -> smoothS (fun th => both_im i j (v th) (S th)) x.
Proof. intros. apply (@im_smooth j i v (fun th => put_im i j (v th) (S th))); auto. apply im_smooth; auto. Qed.
Lemma simple_smooth n (S : R -> smat) del x : smoothS S x -> smooth (fun th => simple n (S th) del) x.
Proof. intros (D & H). exists D. exact H. Qed.

(** Real functions. *)
Lemma v_const (f : nat -> R) x : smoothV (fun _ => f) x.
Proof. exists (fun _ => 0). intros. apply derivable_pt_lim_const. Qed.
Lemma v_id x : smoothV (fun th _ => th) x.
Proof. exists (fun _ => 1). intros. apply derivable_pt_lim_id. Qed.
Lemma v_add u v x : smoothV u x -> smoothV v x -> smoothV (fun th w => u th w + v th w) x.
Proof. intros (u' & Hu) (v' & Hv). exists (fun w => u' w + v' w). intros w. apply (derivable_pt_lim_plus _ _ _ _ _ (Hu w) (Hv w)). Qed.
Lemma v_sub u v x : smoothV u x -> smoothV v x -> smoothV (fun th w => u th w - v th w) x.
Proof. intros (u' & Hu) (v' & Hv). exists (fun w => u' w - v' w). intros w. apply (derivable_pt_lim_minus _ _ _ _ _ (Hu w) (Hv w)). Qed.
Lemma v_opp u x : smoothV u x -> smoothV (fun th w => - u th w) x.
Proof. intros (u' & Hu). exists (fun w => - u' w). intros w. apply (derivable_pt_lim_opp _ _ _ (Hu w)). Qed.
Lemma v_mul u v x : smoothV u x -> smoothV v x -> smoothV (fun th w => u th w * v th w) x.
Proof. intros (u' & Hu) (v' & Hv). eexists. intros w. apply (derivable_pt_lim_mult _ _ _ _ _ (Hu w) (Hv w)). Qed.
Lemma v_comp (f f' : R -> R) v x : (forall w, derivable_pt_lim f (v x w) (f' (v x w))) -> smoothV v x -> smoothV (fun th w => f (v th w)) x.
Proof. intros Hf (v' & Hv). eexists. intros w. apply (derivable_pt_lim_comp _ _ _ _ _ (Hv w) (Hf w)). Qed.
Lemma v_sin v x : smoothV v x -> smoothV (fun th w => sin (v th w)) x.
Proof. apply v_comp with cos. intros. apply derivable_pt_lim_sin. Qed.
Lemma v_cos v x : smoothV v x -> smoothV (fun th w => cos (v th w)) x.
Proof. apply v_comp with (fun y => - sin y). intros. apply derivable_pt_lim_cos. Qed.
Lemma v_exp v x : smoothV v x -> smoothV (fun th w => exp (v th w)) x.
Proof. apply v_comp with exp. intros. apply derivable_pt_lim_exp. Qed.
Lemma v_sqrt v x : (forall w, 0 < v x w) -> smoothV v x -> smoothV (fun th w => sqrt (v th w)) x.
Proof. intros H. apply v_comp with (fun y => / (2 * sqrt y)). intros w. apply derivable_pt_lim_sqrt, H. Qed.
Lemma v_inv v x : (forall w, v x w <> 0) -> smoothV v x -> smoothV (fun th w => / v th w) x.
Proof.
  intros H (v' & Hv). eexists. intros w.
  eapply derivable_pt_lim_ext; [|apply (derivable_pt_lim_div _ _ _ _ _ (derivable_pt_lim_const 1 x) (Hv w)); apply H].
  intros z. unfold div_fct, fct_cte, Rdiv. apply Rmult_1_l.
Qed.

(** The value of a bounded parameter. *)
Lemma v_bounded x : smoothV (fun th (_ : nat) => bounded_value 0 1 (Fin th)) x.
Proof.
  unfold bounded_value, sigmoid. apply v_add; [|apply v_const]. apply v_mul; [apply v_const|].
  apply v_inv; [|apply v_add; [apply v_const|apply v_exp, v_opp, v_id]]. intros _. pose proof (exp_pos (- x)). lra.
Qed.
Lemma bounded_inside x : 0 < bounded_value 0 1 (Fin x) < 1.
Proof.
  unfold bounded_value, sigmoid. pose proof (exp_pos (- x)) as P.
  assert (0 < / (1 + exp (- x))) by (apply Rinv_0_lt_compat; lra).
  assert (/ (1 + exp (- x)) < / 1) by (apply Rinv_lt_contravar; lra). rewrite Rinv_1 in *. lra.
Qed.
Lemma v_kappa x : smoothV (fun th (_ : nat) => sqrt (bounded_value 0 1 (Fin th))) x.
Proof. apply v_sqrt; [|apply v_bounded]. intros _. apply bounded_inside. Qed.
Lemma v_tau x : smoothV (fun th (_ : nat) => sqrt (1 - bounded_value 0 1 (Fin th))) x.
Proof. apply v_sqrt; [|apply v_sub; [apply v_const|apply v_bounded]]. intros _. pose proof (bounded_inside x). lra. Qed.

(** C108: with respect to every trainable parameter, at every finite weight, all coefficients of all components have
    derivatives: phases, couplings and reflectivities (bounded parameters), angles, amplifications, splitting weights. *)
Theorem C108_trainable (c : Q) (wl : nat -> R) (g : guide) (ph k phi theta x : R) :
  smooth (fun th => waveguide c wl g th) x /\
  smooth (fun th => directional_coupler (bounded_value 0 1 (Fin th))) x /\
  smooth (fun th => coupler_with_length c g th k) x /\
  smooth (fun th => coupler_with_length c g ph (bounded_value 0 1 (Fin th))) x /\
  smooth (fun th => mirror (bounded_value 0 1 (Fin th))) x /\
  smooth (fun th => mzi c wl g th theta) x /\
  smooth (fun th => mzi c wl g phi th) x /\
  smooth (fun th => linear_soa th) x /\
  (forall m n i j (W : nat -> nat -> R * R),
     smooth (fun th => mmi m n (fun a b => if (a =? i)%nat && (b =? j)%nat then (th, snd (W a b)) else W a b)) x /\
     smooth (fun th => mmi m n (fun a b => if (a =? i)%nat && (b =? j)%nat then (fst (W a b), th) else W a b)) x).
Proof.
  repeat apply conj.
  9:{ intros m n i j W. split.
      - exists (fun a b _ => if (a <? m)%nat && (m <=? b)%nat then (if (a =? i)%nat && (b - m =? j)%nat then 1c else 0c)
            else if (m <=? a)%nat && (b <? m)%nat then (if (b =? i)%nat && (a - m =? j)%nat then 1c else 0c) else 0c).
        intros a b w. cbn [mmi simple component b_S].
        destruct ((a <? m)%nat && (m <=? b)%nat); [|destruct ((m <=? a)%nat && (b <? m)%nat)];
        repeat match goal with |- context [if ?c then _ else _] => destruct c end; split;
          first [apply derivable_pt_lim_const|apply derivable_pt_lim_id].
      - exists (fun a b _ => if (a <? m)%nat && (m <=? b)%nat then (if (a =? i)%nat && (b - m =? j)%nat then (0, 1) else 0c)
            else if (m <=? a)%nat && (b <? m)%nat then (if (b =? i)%nat && (a - m =? j)%nat then (0, 1) else 0c) else 0c).
        intros a b w. cbn [mmi simple component b_S].
        destruct ((a <? m)%nat && (m <=? b)%nat); [|destruct ((m <=? a)%nat && (b <? m)%nat)];
        repeat match goal with |- context [if ?c then _ else _] => destruct c end; split;
          first [apply derivable_pt_lim_const|apply derivable_pt_lim_id]. }
  all: apply simple_smooth;
    repeat match goal with
    | |- smoothS (fun th => both_re _ _ _ _) _ => apply bre_smooth
    | |- smoothS (fun th => both_im _ _ _ _) _ => apply bim_smooth
    | |- smoothS (fun th => put_re _ _ _ _) _ => apply re_smooth
    | |- smoothS (fun th => put_im _ _ _ _) _ => apply im_smooth
    | |- smoothS (fun _ => zero_S) _ => apply zero_smooth
    end;
    repeat first [apply v_const|apply v_id|apply v_kappa|apply v_tau|apply v_mul|apply v_sin|apply v_cos|apply v_opp|apply v_add].
Qed.

(** The square root has no derivative at 0. *)
Lemma sqrt_steep l : ~ derivable_pt_lim sqrt 0 l.
Proof.
  intros H. destruct (H 1 ltac:(lra)) as (d & Hd).
  pose (q := Rabs l + 2). pose (h := Rmin (d / 2) (/ (q * q))).
  pose proof (Rabs_pos l) as Al. pose proof (cond_pos d) as Pd.
  assert (Pq : 0 < q) by (unfold q; lra).
  assert (Pqq : 0 < / (q * q)) by (apply Rinv_0_lt_compat, Rmult_lt_0_compat; auto).
  assert (Ph : 0 < h) by (unfold h; apply Rmin_glb_lt; lra).
  assert (Lh : Rabs h < d) by (rewrite Rabs_right by lra; unfold h; pose proof (Rmin_l (d / 2) (/ (q * q))); lra).
  specialize (Hd h ltac:(lra) Lh). rewrite Rplus_0_l, sqrt_0, Rminus_0_r in Hd.
  assert (Ps : 0 < sqrt h) by (apply sqrt_lt_R0; auto).
  assert (E : sqrt h / h = / sqrt h).
  { rewrite <- (sqrt_sqrt h) at 2 by lra. field. lra. }
  rewrite E in Hd.
  assert (Ls : sqrt h <= / q).
  { rewrite <- (sqrt_square (/ q)) by (left; apply Rinv_0_lt_compat; auto). apply sqrt_le_1_alt.
    unfold h. eapply Rle_trans; [apply Rmin_r|]. rewrite Rinv_mult. lra. }
  assert (Lq : q <= / sqrt h).
  { rewrite <- (Rinv_inv q). apply Rinv_le_contravar; auto. }
  pose proof (Rle_abs l). pose proof (Rle_abs (/ sqrt h - l)). unfold q in *. lra.
Qed.

(** ... so the limits of the range, which the constructor accepts, have none: the chain rule multiplies an infinite
    derivative of the square root by the derivative 0 of the sigmoid (nan). *)
Theorem C108_bounds_refuted : exists (k : R) (p : bounded), bounded_new [k] 0 1 = Ok p /\ bounded_read p = [k] /\
  (forall l, ~ dlim (fun k => b_S (directional_coupler k) 0%nat 2%nat 0%nat) k l) /\
  (forall l, ~ dlim (fun k => b_S (mirror k) 0%nat 0%nat 0%nat) k l).
Proof.
  exists 0. eexists. split.
  { unfold bounded_new. destruct (Rle_dec 1 0); [lra|]. cbn [existsb]. destruct (Rlt_dec 0 0); [lra|]. destruct (Rlt_dec 1 0); [lra|]. cbn [orb]. reflexivity. }
  split.
  { unfold bounded_read. cbn [bp_lo bp_hi bp_weights map]. unfold inverse_sigmoid. destruct (Req_EM_T ((0 - 0) / (1 - 0)) 0) as [|N].
    - unfold bounded_value, sigmoid. f_equal. lra.
    - exfalso. apply N. field. }
  split; intros l [H1 H2].
  - apply (sqrt_steep (l := snd l)). eapply derivable_pt_lim_ext; [|exact H2]. intros z. reflexivity.
  - apply (sqrt_steep (l := fst l)). eapply derivable_pt_lim_ext; [|exact H1]. intros z. reflexivity.
Qed.
End Smooth.
Print Assumptions C108_trainable.
Print Assumptions C108_bounds_refuted.

(** C107: source, waveguide with phase [th], detector; derivative at every [th0]. *)
Definition dleaf (n : nat) (s d : nat -> bool) (S : nat -> nat -> dual) (del : Q) : buf dual Q :=
  {| b_np := n; b_C := fun _ _ => false; b_src := s; b_det := d; b_act := no; b_order := seq 0 n; b_S := S; b_del := fun _ => del |}.
Definition d_circuit (th0 : R) : comp dual Q := Net
  [("s"%string, Leaf (dleaf 1 yes no (fun _ _ => dual0) 0%Q));
   ("wg"%string, Leaf (dleaf 2 no no (fun i j => if i =? j then dual0 else (fun th _ => (cos th, sin th), fun _ => (- sin th0, cos th0)%R)) 1%Q));
   ("d"%string, Leaf (dleaf 1 no yes (fun _ _ => dual0) 0%Q))] ["s:0:wg:0"; "wg:1:d:0"]%string.
Example C107_ex th0 source : exists b outs0,
  compile dual0 0%Q (d_circuit th0) = Ok b /\ terminated b = true /\ num_det b <> 0 /\ num_act b = 0 /\
  every_leaf (true_derivative th0) (d_circuit th0) /\
  (forall th w, every_leaf (fun d => unmixed 0%R (tenv 3) (fmap (ev th) d) w) (d_circuit th0)) /\
  simulate rsolve ract (tenv 3) (circuit_at (d_circuit th0) th0) tt source = Ok outs0.
Proof.
  assert (H : match compile dual0 0%Q (d_circuit th0) with
    | Ok b => (num_act b =? 0) && (num_det b =? 1) && terminated b
              && (length (ml_nodes (tenv 3) (fmap (ev th0) b)) =? 0) | Err _ => false end = true)
    by (vm_compute; reflexivity).
  destruct (compile dual0 0%Q (d_circuit th0)) as [b|] eqn:EB; [|discriminate].
  repeat (apply andb_true_iff in H as [H ?]). apply Nat.eqb_eq in H, H0, H2.
  assert (U : forall th w, every_leaf (fun d => unmixed 0%R (tenv 3) (fmap (ev th) d) w) (d_circuit th0)).
  { intros th w. constructor. intros n c [E|[E|[E|[]]]]; injection E as _ <-; constructor; intros i j Li Lj N; contradiction N; reflexivity. }
  assert (LG : forall i, i < b_np b -> lag (tenv 3) (fmap (ev th0) b) i <> 0).
  { intros i Li E. assert (I : In i (ml_nodes (tenv 3) (fmap (ev th0) b))).
    { apply filter_In. split; [apply in_seq; cbn [fmap b_np]; lia|]. rewrite mc_lag, E. reflexivity. }
    destruct (ml_nodes (tenv 3) (fmap (ev th0) b)); [destruct I|discriminate H0]. }
  destruct (@forward_succeeds R 0%R 1%R Rplus Rmult Rminus Ropp RTheory rsolve unit ract (tenv 3) (fmap (ev th0) b) tt source) as (outs & HO & _); auto.
  - exact (Gauss.gauss_complete Rfield reqb_eq).
  - right. exists 1%Q. split; reflexivity.
  - apply flags_separate. apply compile_flags in EB. exact EB.
  - change (num_det b <> 0). congruence.
  - intros w _. split; [eapply compile_dual_unmixed; eauto|]. intros x _ i Li Hi. contradiction (LG i Li Hi).
  - exists b, outs. repeat (split; [first [assumption|congruence|reflexivity]|]). split; [|split; [exact U|]].
    + constructor. intros n c [E|[E|[E|[]]]]; injection E as _ <-; constructor; intros i j w _ _; cbn [dleaf b_S].
      * split; apply derivable_pt_lim_const.
      * destruct (i =? j); [split; apply derivable_pt_lim_const|]. split; [apply derivable_pt_lim_cos|apply derivable_pt_lim_sin].
      * split; apply derivable_pt_lim_const.
    + unfold simulate, circuit_at. change (fun _ : nat => 0c) with (ev th0 dual0). rewrite compile_tmap, EB. exact HO.
Qed.
