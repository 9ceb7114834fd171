(** Property C121: the circuit of the introduction, a network used as a component of another one. *)
From Coq Require Import QArith Reals Qreals Lra Lia Psatz Field Bool.
From Verif Require Import Base NetModel NetSpec SimModel SimAlg SimSpec CompModel CompSpec CompProofs Deriv SimDelay Gauss PropSim PropEnergy ExampleModel PropExample.
Set Implicit Arguments.
Unset Strict Implicit.
Local Open Scope list_scope.
Local Open Scope nat_scope.

(** Both constructors of the notebook: the inner network [b], then the circuit [b'] which contains it. *)
Definition nested (wg dc : net R) (b b' : net R) : Prop :=
  (exists s, performed (intro_allpass wg dc) s /\ ns_buf s = Built b) /\ exists s, performed (intro_circuit b) s /\ ns_buf s = Built b'.
Lemma nested_once wg dc b1 b1' b2 b2' : nested wg dc b1 b1' -> nested wg dc b2 b2' -> b1 = b2 /\ b1' = b2'.
Proof.
  intros [(s & P & B) (s' & P' & B')] [(r & Q & D) (r' & Q' & D')]. assert (s = r) by (eapply performed_once; eassumption). subst r.
  rewrite B in D. injection D as <-. assert (s' = r') by (eapply performed_once; eassumption). subst r'. rewrite B' in D'. injection D' as <-. split; reflexivity.
Qed.

Section Nested.
Variables Md Mr : smat.
Variables qd qr : Q.
Lemma nested_built : exists b0 b, nested (simple 2 Mr qr) (simple 4 Md qd) b0 b /\
  map (fun i => filter (b_C b0 i) (seq 0 6)) (seq 0 6) = [[]; []; [4]; [5]; [2]; [3]] /\ b_np b0 = 6 /\ b_np b = 8 /\
  map (fun i => filter (b_C b i) (seq 0 8)) (seq 0 8) = [[1]; [0]; [7]; [5]; [6]; [3]; [4]; [2]] /\
  map (fun i => map (b_S b i) (seq 0 8)) (seq 0 8) =
   [repeat zz 8;
    repeat zz 1 ++ [Md 0 0; Md 0 1; Md 0 2; Md 0 3] ++ repeat zz 3;
    repeat zz 1 ++ [Md 1 0; Md 1 1; Md 1 2; Md 1 3] ++ repeat zz 3;
    repeat zz 1 ++ [Md 2 0; Md 2 1; Md 2 2; Md 2 3] ++ repeat zz 3;
    repeat zz 1 ++ [Md 3 0; Md 3 1; Md 3 2; Md 3 3] ++ repeat zz 3;
    repeat zz 5 ++ [Mr 0 0; Mr 0 1] ++ repeat zz 1;
    repeat zz 5 ++ [Mr 1 0; Mr 1 1] ++ repeat zz 1;
    repeat zz 8] /\
  map (fun i => (b_src b i, b_det b i, b_act b i, b_del b i)) (seq 0 8) =
   [(true, false, false, 0%Q); (false, false, false, qd); (false, false, false, qd); (false, false, false, qd); (false, false, false, qd); (false, false, false, qr); (false, false, false, qr); (false, true, false, 0%Q)] /\
  rank (b_det b) 7 = 0 /\ num_act b = 0 /\ num_det b = 1 /\ num_src b = 1 /\ terminated b = true.
Proof.
  eexists. eexists. split; [split|].
  - eexists. split; [unfold performed, intro_allpass; repeat (eapply acc_cons; [vm_compute; reflexivity|]); apply acc_nil|reflexivity].
  - eexists. split; [unfold performed, intro_circuit; repeat (eapply acc_cons; [vm_compute; reflexivity|]); apply acc_nil|reflexivity].
  - repeat split; vm_compute; reflexivity.
Qed.

Lemma nested_waves b0 b e w T src a o (zr tau kap : C) : nested (simple 2 Mr qr) (simple 4 Md qd) b0 b ->
  guides Mr w zr -> couples Md w tau kap -> steps e qd = 0 -> csub (cmul tau tau) (cmul kap kap) = 1c ->
  waves 0%R Rplus Rmult Rminus e b w T src a o -> (forall t i, i < 8 -> i <> 0 -> src t i = 0c) ->
  ring_response tau zr (steps e qr) (fun t => src t 0) (fun t => a t 7) T.
Proof.
  intros P Gr Cd Ld N W Z. destruct nested_built as (b0' & b' & P' & _ & _ & Np & FC & FS & FF & _).
  destruct (nested_once P P') as [<- <-].
  assert (A : forall t i p, t < T -> i < 8 -> nth i [[1]; [0]; [7]; [5]; [6]; [3]; [4]; [2]] [] = [p] -> a t i = o t p).
  { intros t i p Ht Hi Hp. destruct (W t i Ht ltac:(lia)) as [E _]. rewrite E, Np. apply partner. rewrite (row [] FC Hi). exact Hp. }
  assert (O : forall t i, t < T -> i < 8 -> o t i = cadd (src t i) (csum (fun p => cmul (fst p w) (later (lag e b (snd p)) (fun t => a t (snd p)) t)) (combine (map (b_S b i) (seq 0 8)) (seq 0 8)))).
  { intros t i Ht Hi. destruct (W t i Ht ltac:(lia)) as [_ E]. rewrite E, Np, sum_table. reflexivity. }
  assert (L : forall i, i < 8 -> lag e b i = let '(x, y, z, d) := nth i (map (fun i => (b_src b i, b_det b i, b_act b i, b_del b i)) (seq 0 8)) (false, false, false, 0%Q) in
    if x || y || z then Nat.max 1 (steps e d) else steps e d).
  { intros i Hi. rewrite (nth_indep _ _ (b_src b 0, b_det b 0, b_act b 0, b_del b 0)) by (rewrite map_length, seq_length; exact Hi).
    rewrite (map_nth (fun i => (b_src b i, b_det b i, b_act b i, b_del b i))), seq_nth by exact Hi. reflexivity. }
  rewrite FF in L.
  assert (Tab : forall i, i < 8 -> map (b_S b i) (seq 0 8) = nth i (map (fun i => map (b_S b i) (seq 0 8)) (seq 0 8)) []).
  { intros i Hi. apply (@row 8 _ (fun i => map (b_S b i) (seq 0 8))); [reflexivity|exact Hi]. }
  rewrite FS in Tab. clear W FC FS FF.
  pose proof (L 1 ltac:(lia)) as L1. pose proof (L 4 ltac:(lia)) as L4. pose proof (L 5 ltac:(lia)) as L5. cbn [nth orb] in L1, L4, L5. rewrite Ld in L1, L4.
  destruct Gr as (Gr1 & Gr2 & Gr3 & Gr4).
  destruct Cd as ((c1 & c2 & c3 & c4) & (c5 & c6 & c7 & c8) & (c9 & c10 & c11 & c12) & (c13 & c14 & c15 & c16)).
  assert (Out : forall t i, t < T -> i < 8 -> i <> 0 -> o t i = csum (fun p => cmul (fst p w) (later (lag e b (snd p)) (fun t => a t (snd p)) t)) (combine (nth i _ []) (seq 0 8)))
    by (intros t i Ht Hi H0; rewrite (O t i Ht Hi), (Tab i Hi), (Z t i Hi H0); ring).
  Ltac crunch Out t i Ht := rewrite (Out t i Ht ltac:(lia) ltac:(discriminate)); cbn [nth app repeat seq combine lsum fold_right fst snd]; change (0%R, 0%R) with (c0 0%R).
  assert (A1 : forall t, t < T -> a t 1 = src t 0).
  { intros t Ht. rewrite (A t 1 0 Ht ltac:(lia) eq_refl), (O t 0 Ht ltac:(lia)), (Tab 0 ltac:(lia)). cbn [nth app repeat seq combine lsum fold_right fst snd]. change (0%R, 0%R) with (c0 0%R). ring. }
  apply ring_solution with (kap := kap) (x := fun t => a t 5) (v := fun t => a t 4); [exact N| | |].
  - intros t Ht. rewrite (A t 7 2 Ht ltac:(lia) eq_refl). crunch Out t 2 Ht. rewrite c5, c6, c7, c8, L1, L4, !later_0, (A1 t Ht). ring.
  - intros t Ht. rewrite (A t 5 3 Ht ltac:(lia) eq_refl). crunch Out t 3 Ht. rewrite c9, c10, c11, c12, L1, L4, !later_0, (A1 t Ht). ring.
  - intros t Ht. rewrite (A t 4 6 Ht ltac:(lia) eq_refl). crunch Out t 6 Ht. rewrite Gr2, Gr4, L5. ring.
Qed.

Lemma nested_regular b0 b e w zr tau kap : nested (simple 2 Mr qr) (simple 4 Md qd) b0 b ->
  guides Mr w zr -> couples Md w tau kap -> flags_ok b /\ unmixed 0%R e b w.
Proof.
  intros P Gr Cd. destruct nested_built as (b0' & b' & P' & _ & _ & Np & FC & FS & FF & _).
  destruct (nested_once P P') as [<- <-].
  assert (F : forall i, i < 8 -> (b_src b i, b_det b i, b_act b i, b_del b i) = nth i (map (fun i => (b_src b i, b_det b i, b_act b i, b_del b i)) (seq 0 8)) (false, false, false, 0%Q)).
  { intros i Hi. apply (@row 8 _ (fun i => (b_src b i, b_det b i, b_act b i, b_del b i))); [reflexivity|exact Hi]. }
  rewrite FF in F.
  assert (Tab : forall i j, i < 8 -> j < 8 -> b_S b i j = nth j (nth i (map (fun i => map (b_S b i) (seq 0 8)) (seq 0 8)) []) zz).
  { intros i j Hi Hj. rewrite <- (@row 8 _ (fun i => map (b_S b i) (seq 0 8)) _ [] i eq_refl Hi). apply (@row 8 _ (b_S b i)); [reflexivity|exact Hj]. }
  rewrite FS in Tab. clear FC FS FF. split.
  - intros i Hi. rewrite Np in Hi. specialize (F i Hi). do 8 (destruct i as [|i]; [cbn [nth] in F; injection F as -> -> -> _; intuition discriminate|]). lia.
  - intros i j Hi Hj N. rewrite Np in Hi, Hj. rewrite (Tab i j Hi Hj). pose proof (F i Hi) as Fi. pose proof (F j Hj) as Fj. unfold lag in N. clear F Tab.
    do 8 (destruct i as [|i]; [cbn [nth] in Fi; injection Fi as E1 E2 E3 E4; rewrite E1, E2, E3, E4 in N; clear E1 E2 E3 E4; do 8 (destruct j as [|j]; [cbn [nth] in Fj; injection Fj as E1 E2 E3 E4; rewrite E1, E2, E3, E4 in N; solve [reflexivity|exfalso; apply N; reflexivity]|]); lia|]). lia.
Qed.

Lemma nested_quiet b0 b e w zr tau kap : nested (simple 2 Mr qr) (simple 4 Md qd) b0 b ->
  guides Mr w zr -> couples Md w tau kap -> steps e qd = 0 -> (steps e qr <> 0 \/ csub 1c (cmul tau zr) <> 0c) -> no_resonance 0%R Rplus Rmult Rminus e b w.
Proof.
  intros P Gr Cd Ld Res x Ex. destruct nested_built as (b0' & b' & P' & _ & _ & Np & FC & FS & FF & _).
  destruct (nested_once P P') as [<- <-]. rewrite Np in Ex |- *.
  set (y := fun k => if lag e b k =? 0 then x k else 0c).
  assert (Y0 : forall i, lag e b i <> 0 -> y i = 0c) by (intros i H; unfold y; destruct (Nat.eqb_spec (lag e b i) 0); [contradiction|reflexivity]).
  assert (YE : forall i p, i < 8 -> nth i [[1]; [0]; [7]; [5]; [6]; [3]; [4]; [2]] [] = [p] -> lag e b i = 0 ->
    y i = csum (fun q => cmul (fst q w) (y (snd q))) (combine (map (b_S b p) (seq 0 8)) (seq 0 8))).
  { intros i p Hi Hp L0. unfold y at 1. rewrite L0. cbn [Nat.eqb]. rewrite (Ex i Hi L0), <- sum_table.
    rewrite (@partner b 8 i p (fun j => csum (fun k => if lag e b k =? 0 then cmul (b_S b j k w) (x k) else 0c) (seq 0 8))) by (rewrite (row [] FC Hi); exact Hp).
    apply lsum_ext. intros k _. unfold y. destruct (lag e b k =? 0); [reflexivity|ring]. }
  assert (L : forall i, i < 8 -> lag e b i = let '(x, y, z, d) := nth i (map (fun i => (b_src b i, b_det b i, b_act b i, b_del b i)) (seq 0 8)) (false, false, false, 0%Q) in
    if x || y || z then Nat.max 1 (steps e d) else steps e d).
  { intros i Hi. rewrite (nth_indep _ _ (b_src b 0, b_det b 0, b_act b 0, b_del b 0)) by (rewrite map_length, seq_length; exact Hi).
    rewrite (map_nth (fun i => (b_src b i, b_det b i, b_act b i, b_del b i))), seq_nth by exact Hi. reflexivity. }
  rewrite FF in L.
  assert (Tab : forall i, i < 8 -> map (b_S b i) (seq 0 8) = nth i (map (fun i => map (b_S b i) (seq 0 8)) (seq 0 8)) []).
  { intros i Hi. apply (@row 8 _ (fun i => map (b_S b i) (seq 0 8))); [reflexivity|exact Hi]. }
  rewrite FS in Tab.
  assert (E : forall i p, i < 8 -> p < 8 -> nth i [[1]; [0]; [7]; [5]; [6]; [3]; [4]; [2]] [] = [p] ->
    y i = 0c \/ (lag e b i = 0 /\ y i = csum (fun q => cmul (fst q w) (y (snd q))) (combine (nth p _ []) (seq 0 8))))
    by (intros i p Hi Hp0 Hp; destruct (Nat.eq_dec (lag e b i) 0) as [Z|Z]; [right; split; [exact Z|]; rewrite <- (Tab p Hp0); exact (YE i p Hi Hp Z)|left; exact (Y0 i Z)]).
  pose proof (L 5 ltac:(lia)) as L5. pose proof (L 6 ltac:(lia)) as L6. cbn [nth orb] in L5, L6.
  destruct Gr as (Gr1 & Gr2 & Gr3 & Gr4).
  destruct Cd as ((c1 & c2 & c3 & c4) & (c5 & c6 & c7 & c8) & (c9 & c10 & c11 & c12) & (c13 & c14 & c15 & c16)).
  Ltac expand Q := cbn [nth app repeat seq combine lsum fold_right fst snd] in Q; change (0%R, 0%R) with (c0 0%R) in Q.
  assert (y1 : y 1 = 0c) by (destruct (E 1 0 ltac:(lia) ltac:(lia) eq_refl) as [Q|[_ Q]]; [exact Q|expand Q; rewrite Q; ring]).
  assert (y2 : y 2 = 0c) by (destruct (E 2 7 ltac:(lia) ltac:(lia) eq_refl) as [Q|[_ Q]]; [exact Q|expand Q; rewrite Q; ring]).
  assert (Round : forall v u, (v = 0c \/ (steps e qr = 0 /\ v = cmul tau u)) -> (u = 0c \/ u = cmul zr v) -> v = 0c /\ u = 0c).
  { intros v u [->|[Z V]] [->|U].
    - split; reflexivity.
    - split; [reflexivity|rewrite U; ring].
    - split; [rewrite V; ring|reflexivity].
    - destruct Res as [Res|Res]; [contradiction|]. assert (Z0 : v = 0c). { apply (cancel Res). rewrite U in V. transitivity (csub v (cmul tau (cmul zr v))); [ring|rewrite <- V; ring]. }
      split; [exact Z0|rewrite U, Z0; ring]. }
  assert (F : y 5 = 0c /\ y 4 = 0c).
  { apply Round.
    - destruct (E 5 3 ltac:(lia) ltac:(lia) eq_refl) as [Q|[Z Q]]; [left; exact Q|right; split; [congruence|]]. expand Q. rewrite Q, c9, c10, c11, c12, y1. ring.
    - destruct (E 4 6 ltac:(lia) ltac:(lia) eq_refl) as [Q|[Z Q]]; [left; exact Q|right]. expand Q. rewrite Q, Gr2, Gr4. ring. }
  assert (G : y 6 = 0c /\ y 3 = 0c).
  { apply Round.
    - destruct (E 6 4 ltac:(lia) ltac:(lia) eq_refl) as [Q|[Z Q]]; [left; exact Q|right; split; [congruence|]]. expand Q. rewrite Q, c13, c14, c15, c16, y2. ring.
    - destruct (E 3 5 ltac:(lia) ltac:(lia) eq_refl) as [Q|[Z Q]]; [left; exact Q|right]. expand Q. rewrite Q, Gr1, Gr3. ring. }
  destruct F as [y5 y4], G as [y6 y3].
  assert (y0 : y 0 = 0c) by (destruct (E 0 1 ltac:(lia) ltac:(lia) eq_refl) as [Q|[Z Q]]; [exact Q|rewrite (L 0 ltac:(lia)) in Z; cbn [nth orb] in Z; lia]).
  assert (y7 : y 7 = 0c) by (destruct (E 7 2 ltac:(lia) ltac:(lia) eq_refl) as [Q|[Z Q]]; [exact Q|rewrite (L 7 ltac:(lia)) in Z; cbn [nth orb] in Z; lia]).
  intros i Hi L0. transitivity (y i); [unfold y; rewrite L0; reflexivity|]. clear Ex E L.
  do 8 (destruct i as [|i]; [assumption|]). lia.
Qed.
End Nested.

(** ** C121 *)
Section Filter.
Variable c : Q.
Variable wl : nat -> R.
Variable solve : nat -> nat -> mat R -> mat R -> option (mat R).
Variable A : Type.
Variable act : A -> nat -> field R -> A * field R.
Notation forward := (forward 0%R 1%R Rplus Rmult Rminus Ropp solve act).
Notation factor := (factor wl).
Notation circuit k g p := (nested (waveguide c wl g p) (directional_coupler k)).
Notation detected outs t w col := (at_ (nth t outs (zero_field 0%R)) w 0 col).

(** What the notebook prints: the inner network has the free ports 0 and 1, the circuit none. *)
Theorem C121_free (k : R) (g : guide) (p : R) : exists b b', circuit k g p b b' /\ b_np b = 6 /\ terminated b' = true /\
  forall i, i < 6 -> ((forall j, j < 6 -> b_C b i j = false) <-> i < 2).
Proof.
  destruct (@nested_built (b_S (directional_coupler k)) (b_S (waveguide c wl g p)) 0%Q (guide_delay c g)) as (b & b' & P & FC & N6 & _ & _ & _ & _ & _ & _ & _ & _ & Te).
  exists b, b'. split; [exact P|]. split; [exact N6|]. split; [exact Te|]. intros i Hi.
  assert (R : filter (b_C b i) (seq 0 6) = nth i [[]; []; [4]; [5]; [2]; [3]] []) by (apply (@row 6 _ (fun i => filter (b_C b i) (seq 0 6))); [exact FC|exact Hi]).
  split.
  - intros H. destruct (Nat.lt_ge_cases i 2) as [|H2]; [assumption|exfalso].
    assert (E : filter (b_C b i) (seq 0 6) = []).
    { destruct (filter (b_C b i) (seq 0 6)) as [|j l] eqn:E; [reflexivity|]. assert (I : In j (filter (b_C b i) (seq 0 6))) by (rewrite E; left; reflexivity).
      apply filter_In in I as [I T]. apply in_seq in I. rewrite H in T by lia. discriminate. }
    rewrite E in R. do 6 (destruct i as [|i]; [try lia; discriminate R|]). lia.
  - intros H2 j Hj. destruct (b_C b i j) eqn:E; [|reflexivity]. exfalso. assert (I : In j (filter (b_C b i) (seq 0 6))) by (apply filter_In; split; [apply in_seq; lia|exact E]).
    rewrite R in I. destruct i as [|[|i]]; [contradiction|contradiction|lia].
Qed.

(** The circuit obeys the recursion of a ring behind a coupler, whatever the time step. *)
Theorem C121_ring (k : R) (g : guide) (p : R) : (0 <= k <= 1)%R -> solver_sound 0%R Rplus Rmult solve ->
  exists b0 b, circuit k g p b0 b /\ num_src b = 1 /\ num_det b = 1 /\
  forall e s0 src outs w col, w < e_num_wl e -> forward e b s0 src = Ok outs -> length outs = e_num_t e /\
    ring_response (sqrt (1 - k), 0)%R (factor g p w) (steps e (guide_delay c g)) (fun t => at_ (src t) w 0 col) (fun t => detected outs t w col) (e_num_t e).
Proof.
  intros Hk SS. pose (Mr := b_S (waveguide c wl g p)). pose (Md := b_S (directional_coupler k)).
  destruct (@nested_built Md Mr 0%Q (guide_delay c g)) as (b0 & b & P & _ & _ & Np & FC & FS & FF & R7 & NA & ND & NS & Te).
  exists b0, b. split; [exact P|]. split; [exact NS|]. split; [exact ND|]. intros e s0 src outs w col Hw Hf.
  pose proof (guides_waveguide c wl g p w) as Gr. pose proof (couples_coupler k w) as Cd.
  destruct (@nested_regular Md Mr _ _ b0 b e w _ _ _ P Gr Cd) as [FO U].
  destruct (C16_solves_wave_equations RTheory col SS FO NA Hw U Hf) as (a & o & W & [Len Rd]).
  split; [exact Len|].
  assert (F : forall i, i < 8 -> (b_src b i, b_det b i, b_act b i, b_del b i) = nth i (map (fun i => (b_src b i, b_det b i, b_act b i, b_del b i)) (seq 0 8)) (false, false, false, 0%Q)).
  { intros i Hi. apply (@row 8 _ (fun i => (b_src b i, b_det b i, b_act b i, b_del b i))); [reflexivity|exact Hi]. }
  rewrite FF in F.
  assert (Z : forall t i, i < 8 -> i <> 0 -> injected 0%R b src w col t i = 0c).
  { intros t i Hi H0. unfold injected. specialize (F i Hi). do 8 (destruct i as [|i]; [cbn [nth] in F; injection F as -> _ _ _; try reflexivity; contradiction|]). lia. }
  pose proof (@nested_waves Md Mr _ _ b0 b e w (e_num_t e) _ a o _ _ _ P Gr Cd (steps_zero e) (lossless_coupler Hk) W Z) as RR.
  assert (S0 : forall t, t < e_num_t e -> injected 0%R b src w col t 0 = at_ (src t) w 0 col).
  { intros t _. unfold injected. pose proof (F 0 ltac:(lia)) as X. cbn [nth] in X. injection X as -> _ _ _. reflexivity. }
  assert (D7 : b_det b 7 = true) by (pose proof (F 7 ltac:(lia)) as X; cbn [nth] in X; injection X as _ -> _ _; reflexivity).
  assert (OD : forall t, t < e_num_t e -> detected outs t w col = a t 7).
  { intros t Ht. pose proof (Rd t 7 Ht ltac:(lia) D7) as X. rewrite R7 in X. exact X. }
  intros t Ht. rewrite (OD t Ht), (later_ext _ OD Ht), (RR t Ht), (S0 t Ht), (later_ext _ S0 Ht). reflexivity.
Qed.

Theorem C121_runs (k : R) (g : guide) (p : R) b0 b e s0 src : solver_complete 0%R Rplus Rmult solve -> circuit k g p b0 b -> timed e ->
  (forall w, w < e_num_wl e -> steps e (guide_delay c g) <> 0 \/ csub 1c (cmul (sqrt (1 - k), 0%R) (factor g p w)) <> 0c) ->
  exists outs, forward e b s0 src = Ok outs.
Proof.
  intros SC P Ti H. pose (Mr := b_S (waveguide c wl g p)). pose (Md := b_S (directional_coupler k)).
  destruct (@nested_built Md Mr 0%Q (guide_delay c g)) as (b0' & b' & P' & _ & _ & _ & _ & _ & _ & _ & _ & ND & _ & Te).
  destruct (nested_once P P') as [<- <-].
  destruct (@C30_succeeds_partial R 0%R 1%R Rplus Rmult Rminus Ropp solve A act RTheory e b s0 src SC Ti) as (outs & Ho & _).
  - exact (proj1 (@nested_regular Md Mr _ _ b0 b e 0 _ _ _ P (guides_waveguide c wl g p 0) (couples_coupler k 0))).
  - exact Te.
  - rewrite ND. discriminate.
  - intros w Hw. split.
    + exact (proj2 (@nested_regular Md Mr _ _ b0 b e w _ _ _ P (guides_waveguide c wl g p w) (couples_coupler k w))).
    + exact (@nested_quiet Md Mr _ _ b0 b e w _ _ _ P (guides_waveguide c wl g p w) (couples_coupler k w) (steps_zero e) (H w Hw)).
  - exists outs. exact Ho.
Qed.

(** In the frequency domain: [(t - z) / (1 - t z)] times the source. *)
Theorem C121_formula (k : R) (g : guide) (p : R) b0 b e s0 src outs w col : (0 <= k <= 1)%R -> solver_sound 0%R Rplus Rmult solve ->
  circuit k g p b0 b -> e_freq e = true -> e_num_t e <> 0 -> w < e_num_wl e -> forward e b s0 src = Ok outs ->
  let tau := (sqrt (1 - k), 0)%R in let z := factor g p w in
  csub 1c (cmul tau z) <> 0c -> detected outs 0 w col = cmul (cdiv (csub tau z) (csub 1c (cmul tau z))) (at_ (src 0) w 0 col).
Proof.
  intros Hk SS P Fr Hn Hw Ho tau z Nz. destruct (@C121_ring k g p Hk SS) as (b0' & b' & P' & _ & _ & H).
  destruct (nested_once P P') as [<- <-].
  destruct (H e s0 src outs w col Hw Ho) as [_ RR]. specialize (RR 0 ltac:(lia)).
  rewrite !(C28_frequency_domain _ Fr) in RR. rewrite !later_0 in RR. fold tau z in RR.
  set (d := detected outs 0 w col) in *. set (v := at_ (src 0) w 0 col) in *.
  assert (E : cmul (csub 1c (cmul tau z)) d = cmul (csub tau z) v) by (transitivity (csub d (cmul (cmul tau z) d)); [ring|rewrite RR at 1; ring]).
  unfold cdiv. transitivity (cmul (cmul (cinv (csub 1c (cmul tau z))) (csub 1c (cmul tau z))) d); [rewrite (Finv_l c_field _ Nz); ring|].
  transitivity (cmul (cinv (csub 1c (cmul tau z))) (cmul (csub 1c (cmul tau z)) d)); [ring|rewrite E; ring].
Qed.

(** The training of the notebook ("minimal transmission at this wavelength") has an exact solution, and only this one for a source that is on:
    the factor of the ring equals the transmission of the coupler. *)
Theorem C121_extinction (k : R) (g : guide) (p : R) b0 b e s0 src outs w col : (0 < k <= 1)%R -> solver_sound 0%R Rplus Rmult solve ->
  circuit k g p b0 b -> e_freq e = true -> e_num_t e <> 0 -> w < e_num_wl e -> forward e b s0 src = Ok outs ->
  (0 <= g_loss g * Q2R (g_length g))%R -> at_ (src 0) w 0 col <> 0c ->
  (detected outs 0 w col = 0c <-> factor g p w = (sqrt (1 - k), 0)%R).
Proof.
  intros Hk SS P Fr Hn Hw Ho Hl Hs. set (tau := (sqrt (1 - k), 0)%R). set (z := factor g p w).
  assert (Nz : csub 1c (cmul tau z) <> 0c).
  { apply subunit; [apply sqrt_pos|rewrite <- sqrt_1 at 2; apply sqrt_lt_1; lra|]. unfold z, PropExample.factor. rewrite power_polar.
    assert (H : (0 < attenuation g <= 1)%R).
    { unfold attenuation. replace (- g_loss g * Q2R (g_length g) / 20)%R with (- (g_loss g * Q2R (g_length g)) / 20)%R by field. apply attenuates. exact Hl. }
    nra. }
  rewrite (@C121_formula k g p b0 b e s0 src outs w col ltac:(lra) SS P Fr Hn Hw Ho Nz). fold tau z. unfold cdiv. split; intros H.
  - assert (E : cmul (csub tau z) (at_ (src 0) w 0 col) = 0c).
    { transitivity (cmul (csub 1c (cmul tau z)) (cmul (cmul (csub tau z) (cinv (csub 1c (cmul tau z)))) (at_ (src 0) w 0 col))); [|rewrite H; ring].
      transitivity (cmul (cmul (cinv (csub 1c (cmul tau z))) (csub 1c (cmul tau z))) (cmul (csub tau z) (at_ (src 0) w 0 col))); [rewrite (Finv_l c_field _ Nz); ring|ring]. }
    assert (E' : csub tau z = 0c).
    { apply (cancel Hs). rewrite <- E. ring. }
    transitivity (csub tau (csub tau z)); [ring|rewrite E'; ring].
  - rewrite H. ring.
Qed.
End Filter.
Print Assumptions C121_free.
Print Assumptions C121_ring.
Print Assumptions C121_runs.
Print Assumptions C121_formula.
Print Assumptions C121_extinction.

(** ** Examples *)
Definition intro_guide : guide := {| g_length := 1; g_ng := 3; g_neff := 2; g_wl0 := 1; g_loss := 0 |}.
Definition one_wl : env := {| e_freq := true; e_dt := None; e_num_t := 1; e_num_wl := 1 |}.
Definition lamp (t : nat) : field R := (fun _ _ _ => 1%R, fun _ _ _ => 0%R).
Example C121_ex : exists b0 b outs, nested (waveguide 3%Q (fun _ => 1%R) intro_guide 0) (directional_coupler (3 / 10)) b0 b /\
  forward 0%R 1%R Rplus Rmult Rminus Ropp rsolve ract one_wl b tt lamp = Ok outs /\ (0 < 3 / 10 <= 1)%R /\ at_ (lamp 0) 0 0 0 <> 0c /\
  at_ (nth 0 outs (zero_field 0%R)) 0 0 0 <> 0c.
Proof.
  assert (SS : solver_sound 0%R Rplus Rmult rsolve) by exact (gauss_sound Rfield reqb_eq).
  assert (SC : solver_complete 0%R Rplus Rmult rsolve) by exact (gauss_complete Rfield reqb_eq).
  assert (Ez : factor (fun _ => 1%R) intro_guide 0 0 = 1c).
  { unfold factor. rewrite lossless_guide by reflexivity. unfold phase_at, intro_guide. cbn [g_length g_ng g_neff g_wl0].
    replace (Q2R 1) with 1%R by (unfold Q2R; cbn; lra). unfold polar.
    replace (2 * PI * (2 + (1 - 1) * (Q2R 3 - 2) / 1) * 1 / 1 + 0)%R with (0 + 2 * INR 2 * PI)%R by (cbn [INR]; field).
    rewrite cos_period, sin_period, cos_0, sin_0. unfold c1. f_equal; ring. }
  assert (T1 : (sqrt (1 - 3 / 10) < 1)%R) by (rewrite <- sqrt_1 at 2; apply sqrt_lt_1; lra).
  destruct (@C121_ring 3%Q (fun _ => 1%R) rsolve unit ract (3/10)%R intro_guide 0%R ltac:(lra) SS) as (b0 & b & P & _).
  destruct (@C121_runs 3%Q (fun _ => 1%R) rsolve unit ract (3/10)%R intro_guide 0%R b0 b one_wl tt lamp SC P) as (outs & Ho).
  { left. reflexivity. }
  { intros w Hw. right. cbn in Hw. assert (w = 0) by lia. subst w. rewrite Ez. intros E. unfold SimAlg.csub, SimAlg.cmul, c1, c0 in E. cbn [fst snd] in E. injection E as E _. lra. }
  assert (N : at_ (lamp 0) 0 0 0 <> 0c) by (unfold lamp, at_, c0; cbn [fst snd]; intros E; injection E as E; lra).
  exists b0, b, outs. split; [exact P|]. split; [exact Ho|]. split; [lra|]. split; [exact N|]. intros E.
  apply (@C121_extinction 3%Q (fun _ => 1%R) rsolve unit ract (3/10)%R intro_guide 0%R b0 b one_wl tt lamp outs 0 0) in E; try assumption; try reflexivity; try (cbn; lia); try lra.
  - rewrite Ez in E. unfold c1 in E. injection E as E. lra.
  - cbn [intro_guide g_loss]. lra.
Qed.
