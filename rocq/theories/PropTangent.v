(** C107, C108: gradients of a simulation with active components. *)
From Coq Require Import Reals Lra Lia Ring QArith.
From Verif Require Import Base PyStr NetModel NetSpec NetProofs WireProofs NetBuild OrderProofs RingExample SimModel SimAlg SimSpec SimNodes SimProofs SimDelay SimRegular
  CircuitSpec CircuitProofs CompModel ActModel ActSpec ActProofs ActSim PropEnergy Family Deriv DerivNet TangentSpec DerivAct PropDeriv.
Set Implicit Arguments.
Unset Strict Implicit.
Local Open Scope list_scope.
Local Open Scope nat_scope.

Section C107.
Variable solve : nat -> nat -> mat R -> mat R -> option (mat R).
(** The simulation at parameter [th] of the circuit [c] with the components [ds t] at time step [t]. *)
Definition simulate_active (e : env) (c : comp dual Q) (ds : nat -> list dcomp) (source : nat -> field R) (th : R) : res (list (field R)) :=
  do b <- compile (fun _ => 0c) 0%Q (circuit_at c th);
  forward 0%R 1%R Rplus Rmult Rminus Ropp solve
    (net_act 0%R (length (mc_nodes e b)) (fun t => Nested (map (at_param th) (ds t)))) e b None source.
Definition reading_active (e : env) (c : comp dual Q) (b : buf dual Q) ds source (w k t p : nat) (th : R) : C :=
  match simulate_active e c ds source th with
  | Ok outs => at_ (nth t outs (zero_field 0%R)) w (rank (b_det b) p) k
  | Err _ => 0c
  end.

(** C107 with active components: if the simulation succeeds at [th0], it does around [th0], and the detected
    fields have derivatives there: the fields [da] of the linearised circuit, in which every active component
    is replaced by its derivative. *)
Theorem C107_active (e : env) (c : comp dual Q) (b : buf dual Q) (ds : nat -> list dcomp) (th0 : R) source outs0 :
  solver_sound 0%R Rplus Rmult solve -> solver_complete 0%R Rplus Rmult solve -> solver_regular 0%R Rplus Rmult solve -> timed e ->
  compile dual0 0%Q c = Ok b -> terminated b = true -> num_det b <> 0 ->
  every_leaf (true_derivative th0) c ->
  (forall th w, every_leaf (fun d => unmixed 0%R e (fmap (ev th) d) w) c) ->
  (forall th t, same_ports (fmap (ev th) b) (Nested (map (at_param th) (ds t)))) ->
  (forall th t, aligned (Nested (map (at_param th) (ds t)))) ->
  (forall t, differentiable (e_num_wl e) th0 (DNested (ds t))) ->
  simulate_active e c ds source th0 = Ok outs0 ->
  around th0 (fun th => exists outs, simulate_active e c ds source th = Ok outs) /\
  exists y a o dy da dout,
    waves_active 0%R Rplus Rmult Rminus e (fmap (ev th0) b) (fun t => Nested (map (at_param th0) (ds t))) (e_num_t e)
      (fun t i w k => injected 0%R (fmap (ev th0) b) source w k t i) y a o /\
    tangent_waves e (fmap (ev th0) b) (fun t => DNested (ds t)) (fun i j w => snd (b_S b i j) w) (e_num_t e) y a dy da dout /\
    forall w k t p, w < e_num_wl e -> t < e_num_t e -> p < b_np b -> b_det b p = true ->
      reading_active e c b ds source w k t p th0 = a t p w k /\
      dlim (reading_active e c b ds source w k t p) th0 (da t p w k).
Proof.
  intros SS SC SR HT HC TM ND HL HU SP AL DF HS.
  pose (f := fmap (fun x : dual => fst x) b : fam).
  assert (HE : forall th, simulate_active e c ds source th = run_at solve e f ds source th).
  { intros th. unfold simulate_active, circuit_at. change (fun _ : nat => 0c) with (ev th dual0). rewrite compile_tmap, HC. reflexivity. }
  rewrite HE in HS.
  assert (Sep : separate b) by (apply flags_separate; eapply compile_flags; eassumption).
  assert (U : forall th w, unmixed 0%R e (fmap (ev th) b) w) by (intros; eapply compile_dual_unmixed; eauto).
  pose proof (compile_dual HC HL) as HD.
  assert (NR : forall w, w < e_num_wl e -> no_resonance e (at_par f th0) w).
  { intros w Lw. eapply (@forward_regular R 0%R 1%R Rplus Rmult Rminus Ropp RTheory solve _ _ e (at_par f th0)); eauto. apply U. }
  destruct (@run_deriv solve SS SC e f th0 (fun i j w => snd (b_S b i j) w) ds source HT Sep TM ND) as (H1 & y & a & o & dy & da & dout & H2 & H3 & H4); auto.
  - intros t. rewrite <- (ports_at th0). apply (SP th0 t).
  - intros w i j _ Li Lj. apply HD; auto.
  - exists 1%R. split; [lra|]. intros th _ w _. apply U.
  - split; [revert H1; apply around_mono; intros th (outs & H); exists outs; rewrite HE; exact H|].
    exists y, a, o, dy, da, dout. split; [exact H2|]. split; [exact H3|].
    intros w k t p Lw Lt Lp Dp. destruct (H4 w k t p Lw Lt Lp Dp) as [R1 R2].
    assert (ER : forall th, reading_active e c b ds source w k t p th = seen solve e f ds source w k t p th).
    { intros th. unfold reading_active, seen. rewrite HE. reflexivity. }
    split; [rewrite ER; exact R1|]. destruct R2 as [Ra Rb].
    split; (eapply derivable_pt_lim_ext; [|eassumption]); intros z; cbv beta; now rewrite ER.
Qed.
End C107.
Print Assumptions C107_active.

(** ** The amplifiers *)
Section Soa.
Local Open Scope R_scope.

(** [rate'] is the derivative of the rate equation [rate]: if gain and field change at the rates [h'], [a']. *)
Definition rate_derivative (th0 : R) (rate : R -> R * R -> R * R -> R * R) (rate' : R * R -> R * R -> R * R -> R * R -> R * R) : Prop :=
  forall (h a : R -> R * R) h' a', dlim h th0 h' -> dlim a th0 a' ->
    dlim (fun th => rate th (h th) (a th)) th0 (rate' (h th0) (a th0) h' a').

(** Derivative of [soa_action]. *)
Definition soa_J (dt : R) (rate' : R * R -> R * R -> R * R -> R * R -> R * R) (x x' : list fieldv) : list fieldv :=
  match x, x' with
  | [a; h; _], [a'; h'; _] =>
      [a';
       fun w b => let r := rate' (h w b) (a w b) (h' w b) (a' w b) in (fst (h' w b) + dt * fst r, snd (h' w b) + dt * snd r);
       fun w b => (exp (/ 2 * fst (h w b)) * (fst (a' w b) + fst (a w b) * (/ 2 * fst (h' w b))),
                   exp (/ 2 * snd (h w b)) * (snd (a' w b) + snd (a w b) * (/ 2 * snd (h' w b))))]
  | _, _ => x'
  end.
Definition dsoa (dt : R) (rate : R -> R * R -> R * R -> R * R) (rate' : R * R -> R * R -> R * R -> R * R -> R * R) : dcomp :=
  DPlain [(false, true); (false, true); (false, true)] (fun th => soa_action dt (rate th)) (soa_J dt rate').

Lemma dsoa_at th dt rate rate' : at_param th (dsoa dt rate rate') = soa dt (rate th).
Proof. reflexivity. Qed.
Lemma soa_aligned dt r : aligned (soa dt r).
Proof.
  intros _. split; [repeat constructor|]. intros x o L. destruct x as [|a [|h [|z [|]]]]; try discriminate L.
  eexists. split; reflexivity.
Qed.

Lemma dl_ext (f g : R -> R) x l : (forall th, f th = g th) -> derivable_pt_lim f x l -> derivable_pt_lim g x l.
Proof. intros H D. eapply derivable_pt_lim_ext; [|exact D]. exact H. Qed.
Lemma dl_exp_half (f : R -> R) x l : derivable_pt_lim f x l ->
  derivable_pt_lim (fun th => exp (/ 2 * f th)) x (exp (/ 2 * f x) * (/ 2 * l)).
Proof.
  intros H. apply (derivable_pt_lim_comp (fun th => / 2 * f th) exp).
  - apply (derivable_pt_lim_scal f (/ 2) x l H).
  - apply derivable_pt_lim_exp.
Qed.
Lemma amp_rate (a h : R -> R) x a' h' : derivable_pt_lim a x a' -> derivable_pt_lim h x h' ->
  derivable_pt_lim (fun th => a th * exp (/ 2 * h th)) x (exp (/ 2 * h x) * (a' + a x * (/ 2 * h'))).
Proof.
  intros Ha Hh. replace (exp (/ 2 * h x) * (a' + a x * (/ 2 * h'))) with (a' * exp (/ 2 * h x) + a x * (exp (/ 2 * h x) * (/ 2 * h'))) by ring.
  apply (derivable_pt_lim_mult a (fun th => exp (/ 2 * h th)) _ _ _ Ha (dl_exp_half Hh)).
Qed.

(** Amplifiers are differentiable if their rate equation is. *)
Theorem C107_amplifier nwl th0 dt rate rate' : rate_derivative th0 rate rate' -> differentiable nwl th0 (dsoa dt rate rate').
Proof.
  intros HR _. split.
  - intros x x' L L'. destruct x as [|a [|h [|z [|]]]]; try discriminate L. destruct x' as [|a' [|h' [|z' [|]]]]; try discriminate L'. reflexivity.
  - intros x z x' L L' Hx Hz k Lk w c Lw.
    destruct x' as [|a' [|h' [|z' [|]]]]; try discriminate L'.
    pose (a := fun th => nth 0 (x th) zfield w c). pose (h := fun th => nth 1 (x th) zfield w c).
    assert (Da : dlim a th0 (a' w c)) by (apply (Hx 0%nat); [cbn; lia|exact Lw]).
    assert (Dh : dlim h th0 (h' w c)) by (apply (Hx 1%nat); [cbn; lia|exact Lw]).
    assert (G : dlim (fun th => nth k [a th; (fst (h th) + dt * fst (rate th (h th) (a th)), snd (h th) + dt * snd (rate th (h th) (a th)));
                      (fst (a th) * exp (/ 2 * fst (h th)), snd (a th) * exp (/ 2 * snd (h th)))] (0, 0)) th0
                (nth k [a' w c; (fst (h' w c) + dt * fst (rate' (h th0) (a th0) (h' w c) (a' w c)), snd (h' w c) + dt * snd (rate' (h th0) (a th0) (h' w c) (a' w c)));
                   (exp (/ 2 * fst (h th0)) * (fst (a' w c) + fst (a th0) * (/ 2 * fst (h' w c))), exp (/ 2 * snd (h th0)) * (snd (a' w c) + snd (a th0) * (/ 2 * snd (h' w c))))] (0, 0))).
    { cbn in Lk. destruct k as [|[|[|k]]]; [| | |lia]; cbn [nth].
      - exact Da.
      - destruct (HR h a _ _ Dh Da) as [Q1 Q2]. destruct Dh as [D1 D2]. split; cbn [fst snd].
        + apply (derivable_pt_lim_plus (fun th => fst (h th)) (fun th => dt * fst (rate th (h th) (a th))) _ _ _ D1).
          apply (derivable_pt_lim_scal (fun th => fst (rate th (h th) (a th))) dt _ _ Q1).
        + apply (derivable_pt_lim_plus (fun th => snd (h th)) (fun th => dt * snd (rate th (h th) (a th))) _ _ _ D2).
          apply (derivable_pt_lim_scal (fun th => snd (rate th (h th) (a th))) dt _ _ Q2).
      - destruct Da as [A1 A2]. destruct Dh as [D1 D2]. split; cbn [fst snd].
        + apply (amp_rate A1 D1).
        + apply (amp_rate A2 D2). }
    assert (EL : forall th (l : list fieldv), soa_action dt (rate th) (x th) (repeat zfield 3) = Ok l ->
       nth k l zfield w c = nth k [a th; (fst (h th) + dt * fst (rate th (h th) (a th)), snd (h th) + dt * snd (rate th (h th) (a th)));
                      (fst (a th) * exp (/ 2 * fst (h th)), snd (a th) * exp (/ 2 * snd (h th)))] (0, 0)).
    { intros th l E. unfold a, h. pose proof (L th) as Lx. destruct (x th) as [|a0 [|h0 [|z0 [|]]]]; try discriminate Lx.
      cbn in E. injection E as <-. cbn in Lk. destruct k as [|[|[|k]]]; [reflexivity|reflexivity|reflexivity|lia]. }
    assert (EJ : nth k (soa_J dt rate' (x th0) [a'; h'; z']) zfield w c =
      nth k [a' w c; (fst (h' w c) + dt * fst (rate' (h th0) (a th0) (h' w c) (a' w c)), snd (h' w c) + dt * snd (rate' (h th0) (a th0) (h' w c) (a' w c)));
                   (exp (/ 2 * fst (h th0)) * (fst (a' w c) + fst (a th0) * (/ 2 * fst (h' w c))), exp (/ 2 * snd (h th0)) * (snd (a' w c) + snd (a th0) * (/ 2 * snd (h' w c))))] (0, 0)).
    { unfold a, h. pose proof (L th0) as Lx. destruct (x th0) as [|a0 [|h0 [|z0 [|]]]]; try discriminate Lx.
      cbn in Lk. destruct k as [|[|[|k]]]; [reflexivity|reflexivity|reflexivity|lia]. }
    rewrite EJ. apply dlim_deriv. apply dlim_deriv in G. cbv beta in G. revert G.
    destruct (around_near Hz) as [ZN Z0].
    apply deriv_near.
    + revert ZN. apply near_mono. intros s _ E. symmetry. apply (EL _ _ E).
    + symmetry. rewrite Rplus_0_r. apply (EL _ _ Z0).
Qed.

(** The rate equation of [Soa]: its amplification may be the parameter (soas.py:158-167). *)
Theorem C107_soa th0 startup (amp : R -> R) amp' t : derivable_pt_lim amp th0 amp' -> 0 < amp th0 ->
  rate_derivative th0 (fun th => soa_dhdt startup (amp th) t)
    (fun _ _ _ _ => let r := if Rlt_dec t startup then (1 / startup) * (/ amp th0 * amp') else 0 in (r, r)).
Proof.
  intros HA P h a h' a' _ _. unfold soa_dhdt. destruct (Rlt_dec t startup).
  - assert (Q : derivable_pt_lim (fun th => 1 / startup * ln (amp th)) th0 (1 / startup * (/ amp th0 * amp'))).
    { apply (derivable_pt_lim_scal (fun th => ln (amp th)) (1 / startup)).
      apply (derivable_pt_lim_comp amp ln _ _ _ HA). apply derivable_pt_lim_ln. exact P. }
    split; exact Q.
  - split; apply derivable_pt_lim_const.
Qed.

(** The rate equation of [AgrawalSoa]. *)
Theorem C107_agrawal th0 p :
  rate_derivative th0 (fun _ => agrawal_dhdt p)
    (fun h a h' a' => ((1 / ag_tc p) * (- fst h' - (2 * (fst a * fst a' + snd a * snd a') / ag_Psat p * (exp (fst h) - 1)
                                                    + (fst a ^ 2 + snd a ^ 2) / ag_Psat p * (exp (fst h) * fst h'))), 0)).
Proof.
  intros h a h' a' [H1 _] [A1 A2]. unfold agrawal_dhdt. split; cbn [fst snd]; [|apply derivable_pt_lim_const].
  apply (derivable_pt_lim_scal (fun th => ag_g0L p - fst (h th) - (fst (a th) ^ 2 + snd (a th) ^ 2) / ag_Psat p * (exp (fst (h th)) - 1)) (1 / ag_tc p)).
  apply (derivable_pt_lim_minus (fun th => ag_g0L p - fst (h th)) (fun th => (fst (a th) ^ 2 + snd (a th) ^ 2) / ag_Psat p * (exp (fst (h th)) - 1))).
  - replace (- fst h') with (0 - fst h') by ring.
    apply (derivable_pt_lim_minus (fun _ => ag_g0L p) (fun th => fst (h th)) _ _ _ (derivable_pt_lim_const _ _) H1).
  - apply (derivable_pt_lim_mult (fun th => (fst (a th) ^ 2 + snd (a th) ^ 2) / ag_Psat p) (fun th => exp (fst (h th)) - 1)).
    + apply dl_ext with (fun th => / ag_Psat p * (fst (a th) * fst (a th) + snd (a th) * snd (a th))).
      { intros th. unfold Rdiv. ring. }
      replace (2 * (fst (a th0) * fst a' + snd (a th0) * snd a') / ag_Psat p)
        with (/ ag_Psat p * ((fst a' * fst (a th0) + fst (a th0) * fst a') + (snd a' * snd (a th0) + snd (a th0) * snd a'))) by (unfold Rdiv; ring).
      apply (derivable_pt_lim_scal (fun th => fst (a th) * fst (a th) + snd (a th) * snd (a th))).
      apply (derivable_pt_lim_plus (fun th => fst (a th) * fst (a th)) (fun th => snd (a th) * snd (a th))).
      * apply (derivable_pt_lim_mult _ _ _ _ _ A1 A1).
      * apply (derivable_pt_lim_mult _ _ _ _ _ A2 A2).
    + replace (exp (fst (h th0)) * fst h') with (exp (fst (h th0)) * fst h' - 0) by ring.
      apply (derivable_pt_lim_minus (fun th => exp (fst (h th))) (fun _ => 1)); [|apply derivable_pt_lim_const].
      apply (derivable_pt_lim_comp (fun th => fst (h th)) exp _ _ _ H1). apply derivable_pt_lim_exp.
Qed.
End Soa.
Print Assumptions C107_amplifier.
Print Assumptions C107_soa.
Print Assumptions C107_agrawal.

(** Source, waveguide with phase [th], Soa with amplification [exp th], detector; derivative at every [th0]. *)
Definition one_S : dual := (fun _ _ => 1c, fun _ => 0c).
Definition t_circuit (th0 : R) : comp dual Q := Net
  [("s"%string, Leaf (dleaf 1 yes no (fun _ _ => dual0) 0%Q));
   ("wg"%string, Leaf (dleaf 2 no no (fun i j => if i =? j then dual0 else (fun th _ => (cos th, sin th), fun _ => (- sin th0, cos th0)%R)) 1%Q));
   ("amp"%string, Leaf {| b_np := 3; b_C := fun i j => (i =? 1) && (j =? 1); b_src := no; b_det := no; b_act := yes; b_order := seq 0 3;
                          b_S := fun i j => if i =? j then one_S else dual0; b_del := fun _ => 0%Q |});
   ("d"%string, Leaf (dleaf 1 no yes (fun _ _ => dual0) 0%Q))] ["s:0:wg:0"; "wg:1:amp:0"; "amp:1:d:0"]%string.
Definition idle (p : list (bool * bool)) : dcomp := DPlain p (fun _ x _ => Ok x) (fun _ x' => x').
Definition t_parts (th0 : R) (t : nat) : list dcomp :=
  [idle [(true, false)]; idle [(false, false); (false, false)];
   dsoa 1%R (fun th => soa_dhdt 2%R (exp th) (INR t))
        (fun _ _ _ _ => let r := if Rlt_dec (INR t) 2 then (1 / 2 * (/ exp th0 * exp th0))%R else 0%R in (r, r));
   idle [(false, false)]].
Example C107_active_ex th0 source : exists b outs0,
  compile dual0 0%Q (t_circuit th0) = Ok b /\ terminated b = true /\ num_det b <> 0 /\ num_act b = 3 /\
  every_leaf (true_derivative th0) (t_circuit th0) /\
  (forall th w, every_leaf (fun d => unmixed 0%R (tenv 3) (fmap (ev th) d) w) (t_circuit th0)) /\
  (forall th t, same_ports (fmap (ev th) b) (Nested (map (at_param th) (t_parts th0 t)))) /\
  (forall th t, aligned (Nested (map (at_param th) (t_parts th0 t)))) /\
  (forall t, differentiable (e_num_wl (tenv 3)) th0 (DNested (t_parts th0 t))) /\
  simulate_active rsolve (tenv 3) (t_circuit th0) (t_parts th0) source th0 = Ok outs0.
Proof.
  assert (H : match compile dual0 0%Q (t_circuit th0) with
    | Ok b => (num_act b =? 3) && (num_det b =? 1) && terminated b
              && (length (ml_nodes (tenv 3) (fmap (ev th0) b)) =? 0)
              && (b_np b =? 7) && forallb (fun i => Bool.eqb (b_src b i) (i =? 0) && Bool.eqb (b_act b i) ((3 <=? i) && (i <=? 5))) (seq 0 7)
    | Err _ => false end = true)
    by (vm_compute; reflexivity).
  destruct (compile dual0 0%Q (t_circuit th0)) as [b|] eqn:EB; [|discriminate].
  repeat (apply andb_true_iff in H as [H ?]). apply Nat.eqb_eq in H, H1, H2, H4.
  assert (U : forall th w, every_leaf (fun d => unmixed 0%R (tenv 3) (fmap (ev th) d) w) (t_circuit th0)).
  { intros th w. constructor. intros n c [E|[E|[E|[E|[]]]]]; injection E as _ <-; constructor; intros i j Li Lj N; contradiction N; reflexivity. }
  assert (LG : forall i, i < b_np b -> lag (tenv 3) (fmap (ev th0) b) i <> 0).
  { intros i Li E. assert (I : In i (ml_nodes (tenv 3) (fmap (ev th0) b))).
    { apply filter_In. split; [apply in_seq; cbn [fmap b_np]; lia|]. rewrite mc_lag, E. reflexivity. }
    destruct (ml_nodes (tenv 3) (fmap (ev th0) b)); [destruct I|discriminate]. }
  assert (SPs : forall th t, same_ports (fmap (ev th) b) (Nested (map (at_param th) (t_parts th0 t)))).
  { intros th t. unfold same_ports. cbn [fmap b_np b_src b_act]. rewrite H1. cbn. rewrite forallb_forall in H0.
    assert (B : forall i, i < 7 -> b_src b i = (i =? 0) /\ b_act b i = (3 <=? i) && (i <=? 5)).
    { intros i Li. specialize (H0 i ltac:(apply in_seq; lia)). apply andb_true_iff in H0 as [B1 B2]. apply eqb_prop in B1, B2. auto. }
    destruct (B 0 ltac:(lia)) as [-> ->], (B 1 ltac:(lia)) as [-> ->], (B 2 ltac:(lia)) as [-> ->], (B 3 ltac:(lia)) as [-> ->],
      (B 4 ltac:(lia)) as [-> ->], (B 5 ltac:(lia)) as [-> ->], (B 6 ltac:(lia)) as [-> ->]. reflexivity. }
  destruct (@forward_succeeds R 0%R 1%R Rplus Rmult Rminus Ropp RTheory rsolve _
     (net_act 0%R (length (mc_nodes (tenv 3) (fmap (ev th0) b))) (fun t => Nested (map (at_param th0) (t_parts th0 t))))
     (tenv 3) (fmap (ev th0) b) None source) as (outs & HO & _); auto.
  - exact (Gauss.gauss_complete Rfield reqb_eq).
  - right. exists 1%Q. split; reflexivity.
  - apply flags_separate. apply compile_flags in EB. exact EB.
  - change (num_det b <> 0). congruence.
  - intros w _. split; [eapply compile_dual_unmixed; eauto|]. intros x _ i Li Hi. contradiction (LG i Li Hi).
  - exists b, outs. split; [reflexivity|]. split; [assumption|]. split; [congruence|]. split; [congruence|].
    split; [|split; [exact U|split; [exact SPs|split; [|split]]]].
    + constructor. intros n c [E|[E|[E|[E|[]]]]]; injection E as _ <-; constructor; intros i j w _ _; cbn [dleaf b_S].
      * split; apply derivable_pt_lim_const.
      * destruct (i =? j); [split; apply derivable_pt_lim_const|]. split; [apply derivable_pt_lim_cos|apply derivable_pt_lim_sin].
      * destruct (i =? j); split; apply derivable_pt_lim_const.
      * split; apply derivable_pt_lim_const.
    + intros th t. rewrite aligned_nested. cbn. repeat split; auto; try discriminate; repeat constructor; auto.
      intros x o L. destruct x as [|x0 [|x1 [|x2 [|]]]]; try discriminate. eexists. split; [reflexivity|reflexivity].
    + intros t. split; [discriminate|]. split; [discriminate|]. split; [|split; [discriminate|exact I]].
      apply C107_amplifier. apply C107_soa; [apply derivable_pt_lim_exp|apply exp_pos].
    + unfold simulate_active, circuit_at. change (fun _ : nat => 0c) with (ev th0 dual0). rewrite compile_tmap, EB. exact HO.
Qed.
