(** Property C120: the circuit of the XOR example interferes a signal with its own past. *)
From Coq Require Import QArith Reals Qreals Lra Lia Psatz Field Bool.
From Verif Require Import Base NetModel NetSpec SimModel SimAlg SimSpec CompModel CompSpec CompProofs Deriv SimDelay Gauss PropSim PropEnergy ExampleModel PropExample.
Set Implicit Arguments.
Unset Strict Implicit.
Local Open Scope list_scope.
Local Open Scope nat_scope.

Section Interferometer.
Variables M1 M2 N1 N2 : smat.
Variables e1 e2 q1 q2 : Q.
Definition inter_calls := interferometer (simple 4 M1 e1) (simple 4 M2 e2) (simple 2 N1 q1) (simple 2 N2 q2).
Lemma inter_built : exists s b, performed inter_calls s /\ ns_buf s = Built b /\ b_np b = 16 /\
  map (fun i => filter (b_C b i) (seq 0 16)) (seq 0 16) = [[4]; [12]; [13]; [5]; [0]; [3]; [10]; [14]; [15]; [11]; [6]; [9]; [1]; [2]; [7]; [8]] /\
  map (fun i => map (b_S b i) (seq 0 16)) (seq 0 16) =
   [repeat zz 16;
    repeat zz 1 ++ [M1 0 0; M1 0 1; M1 0 2; M1 0 3] ++ repeat zz 11;
    repeat zz 1 ++ [M1 1 0; M1 1 1; M1 1 2; M1 1 3] ++ repeat zz 11;
    repeat zz 1 ++ [M1 2 0; M1 2 1; M1 2 2; M1 2 3] ++ repeat zz 11;
    repeat zz 1 ++ [M1 3 0; M1 3 1; M1 3 2; M1 3 3] ++ repeat zz 11;
    repeat zz 5 ++ [N1 0 0; N1 0 1] ++ repeat zz 9;
    repeat zz 5 ++ [N1 1 0; N1 1 1] ++ repeat zz 9;
    repeat zz 7 ++ [M2 0 0; M2 0 1; M2 0 2; M2 0 3] ++ repeat zz 5;
    repeat zz 7 ++ [M2 1 0; M2 1 1; M2 1 2; M2 1 3] ++ repeat zz 5;
    repeat zz 7 ++ [M2 2 0; M2 2 1; M2 2 2; M2 2 3] ++ repeat zz 5;
    repeat zz 7 ++ [M2 3 0; M2 3 1; M2 3 2; M2 3 3] ++ repeat zz 5;
    repeat zz 16;
    repeat zz 16;
    repeat zz 13 ++ [N2 0 0; N2 0 1] ++ repeat zz 1;
    repeat zz 13 ++ [N2 1 0; N2 1 1] ++ repeat zz 1;
    repeat zz 16] /\
  map (fun i => (b_src b i, b_det b i, b_act b i, b_del b i)) (seq 0 16) =
   [(false, false, false, 0%Q); (false, false, false, e1); (false, false, false, e1); (false, false, false, e1); (false, false, false, e1); (false, false, false, q1); (false, false, false, q1); (false, false, false, e2); (false, false, false, e2); (false, false, false, e2); (false, false, false, e2); (false, false, false, 0%Q); (true, false, false, 0%Q); (false, false, false, q2); (false, false, false, q2); (false, true, false, 0%Q)] /\
  rank (b_det b) 15 = 0 /\ rank (b_src b) 12 = 0 /\ num_act b = 0 /\ num_det b = 1 /\ num_src b = 1 /\ terminated b = true.
Proof.
  eexists. eexists. split; [unfold performed, inter_calls, interferometer; repeat (eapply acc_cons; [vm_compute; reflexivity|]); apply acc_nil|].
  split; [reflexivity|]. repeat split; vm_compute; reflexivity.
Qed.

Lemma inter_waves s b e w T src a o (t1 k1 t2 k2 g1 g2 : C) : performed inter_calls s -> ns_buf s = Built b ->
  guides N1 w g1 -> guides N2 w g2 -> couples M1 w t1 k1 -> couples M2 w t2 k2 -> steps e e1 = 0 -> steps e e2 = 0 ->
  waves 0%R Rplus Rmult Rminus e b w T src a o -> (forall t i, i < 16 -> i <> 12 -> src t i = 0c) ->
  forall t, t < T -> a t 15 = cadd (cmul (cmul (cmul t1 t2) g2) (later (steps e q2) (fun t => src t 12) t)) (cmul (cmul (cmul k1 k2) g1) (later (steps e q1) (fun t => src t 12) t)).
Proof.
  intros P B G1 G2 C1 C2 Ld Le W Z. destruct inter_built as (s' & b' & P' & B' & Np & FC & FS & FF & _).
  assert (s = s') by (eapply performed_once; eassumption). subst s'. rewrite B in B'. injection B' as <-.
  assert (A : forall t i p, t < T -> i < 16 -> nth i [[4]; [12]; [13]; [5]; [0]; [3]; [10]; [14]; [15]; [11]; [6]; [9]; [1]; [2]; [7]; [8]] [] = [p] -> a t i = o t p).
  { intros t i p Ht Hi Hp. destruct (W t i Ht ltac:(lia)) as [E _]. rewrite E, Np. apply partner. rewrite (row [] FC Hi). exact Hp. }
  assert (O : forall t i, t < T -> i < 16 -> o t i = cadd (src t i) (csum (fun p => cmul (fst p w) (later (lag e b (snd p)) (fun t => a t (snd p)) t)) (combine (map (b_S b i) (seq 0 16)) (seq 0 16)))).
  { intros t i Ht Hi. destruct (W t i Ht ltac:(lia)) as [_ E]. rewrite E, Np, sum_table. reflexivity. }
  assert (L : forall i, i < 16 -> lag e b i = let '(x, y, z, d) := nth i (map (fun i => (b_src b i, b_det b i, b_act b i, b_del b i)) (seq 0 16)) (false, false, false, 0%Q) in
    if x || y || z then Nat.max 1 (steps e d) else steps e d).
  { intros i Hi. rewrite (nth_indep _ _ (b_src b 0, b_det b 0, b_act b 0, b_del b 0)) by (rewrite map_length, seq_length; exact Hi).
    rewrite (map_nth (fun i => (b_src b i, b_det b i, b_act b i, b_del b i))), seq_nth by exact Hi. reflexivity. }
  rewrite FF in L.
  assert (Tab : forall i, i < 16 -> map (b_S b i) (seq 0 16) = nth i (map (fun i => map (b_S b i) (seq 0 16)) (seq 0 16)) []).
  { intros i Hi. apply (@row 16 _ (fun i => map (b_S b i) (seq 0 16))); [reflexivity|exact Hi]. }
  rewrite FS in Tab. clear W FC FS FF.
  pose proof (L 1 ltac:(lia)) as L1. pose proof (L 2 ltac:(lia)) as L2. pose proof (L 3 ltac:(lia)) as L3. pose proof (L 4 ltac:(lia)) as L4. pose proof (L 5 ltac:(lia)) as L5. pose proof (L 6 ltac:(lia)) as L6. pose proof (L 7 ltac:(lia)) as L7. pose proof (L 8 ltac:(lia)) as L8. pose proof (L 9 ltac:(lia)) as L9. pose proof (L 10 ltac:(lia)) as L10. pose proof (L 13 ltac:(lia)) as L13. pose proof (L 14 ltac:(lia)) as L14.
  cbn [nth orb] in L1, L2, L3, L4, L5, L6, L7, L8, L9, L10, L13, L14. rewrite Ld in L1, L2, L3, L4. rewrite Le in L7, L8, L9, L10.
  destruct G1 as (G11 & G12 & G13 & G14). destruct G2 as (G21 & G22 & G23 & G24).
  destruct C1 as ((c1 & c2 & c3 & c4) & (c5 & c6 & c7 & c8) & (c9 & c10 & c11 & c12) & (c13 & c14 & c15 & c16)).
  destruct C2 as ((d1 & d2 & d3 & d4) & (d5 & d6 & d7 & d8) & (d9 & d10 & d11 & d12) & (d13 & d14 & d15 & d16)).
  assert (Out : forall t i, t < T -> i < 16 -> i <> 12 -> o t i = csum (fun p => cmul (fst p w) (later (lag e b (snd p)) (fun t => a t (snd p)) t)) (combine (nth i _ []) (seq 0 16)))
    by (intros t i Ht Hi H0; rewrite (O t i Ht Hi), (Tab i Hi), (Z t i Hi H0); ring).
  Ltac crunch Out t i Ht := rewrite (Out t i Ht ltac:(lia) ltac:(discriminate)); cbn [nth app repeat seq combine lsum fold_right fst snd]; change (0%R, 0%R) with (c0 0%R).
  assert (A1 : forall t, t < T -> a t 1 = src t 12).
  { intros t Ht. rewrite (A t 1 12 Ht ltac:(lia) eq_refl), (O t 12 Ht ltac:(lia)), (Tab 12 ltac:(lia)). cbn [nth app repeat seq combine lsum fold_right fst snd]. change (0%R, 0%R) with (c0 0%R). ring. }
  assert (A4 : forall t, t < T -> a t 4 = 0c) by (intros t Ht; rewrite (A t 4 0 Ht ltac:(lia) eq_refl); crunch Out t 0 Ht; ring).
  assert (A8 : forall t, t < T -> a t 8 = 0c) by (intros t Ht; rewrite (A t 8 15 Ht ltac:(lia) eq_refl); crunch Out t 15 Ht; ring).
  assert (A9 : forall t, t < T -> a t 9 = 0c) by (intros t Ht; rewrite (A t 9 11 Ht ltac:(lia) eq_refl); crunch Out t 11 Ht; ring).
  assert (A13 : forall t, t < T -> a t 13 = cmul t1 (src t 12))
    by (intros t Ht; rewrite (A t 13 2 Ht ltac:(lia) eq_refl); crunch Out t 2 Ht; rewrite c5, c6, c7, c8, L1, L4, !later_0, (A1 t Ht), (A4 t Ht); ring).
  assert (A5 : forall t, t < T -> a t 5 = cmul k1 (src t 12))
    by (intros t Ht; rewrite (A t 5 3 Ht ltac:(lia) eq_refl); crunch Out t 3 Ht; rewrite c9, c10, c11, c12, L1, L4, !later_0, (A1 t Ht), (A4 t Ht); ring).
  assert (A7 : forall t, t < T -> a t 7 = cmul g2 (later (steps e q2) (fun t => a t 13) t))
    by (intros t Ht; rewrite (A t 7 14 Ht ltac:(lia) eq_refl); crunch Out t 14 Ht; rewrite G22, G24, L13; ring).
  assert (A10 : forall t, t < T -> a t 10 = cmul g1 (later (steps e q1) (fun t => a t 5) t))
    by (intros t Ht; rewrite (A t 10 6 Ht ltac:(lia) eq_refl); crunch Out t 6 Ht; rewrite G12, G14, L5; ring).
  intros t Ht. rewrite (A t 15 8 Ht ltac:(lia) eq_refl). crunch Out t 8 Ht. rewrite d5, d6, d7, d8, L7, L10, !later_0, (A7 t Ht), (A10 t Ht), (later_ext (steps e q2) A13 Ht), (later_ext (steps e q1) A5 Ht), !later_mul. ring.
Qed.

Lemma inter_regular s b e w t1 k1 t2 k2 g1 g2 : performed inter_calls s -> ns_buf s = Built b ->
  guides N1 w g1 -> guides N2 w g2 -> couples M1 w t1 k1 -> couples M2 w t2 k2 -> flags_ok b /\ unmixed 0%R e b w.
Proof.
  intros P B G1 G2 C1 C2. destruct inter_built as (s' & b' & P' & B' & Np & FC & FS & FF & _).
  assert (s = s') by (eapply performed_once; eassumption). subst s'. rewrite B in B'. injection B' as <-.
  assert (F : forall i, i < 16 -> (b_src b i, b_det b i, b_act b i, b_del b i) = nth i (map (fun i => (b_src b i, b_det b i, b_act b i, b_del b i)) (seq 0 16)) (false, false, false, 0%Q)).
  { intros i Hi. apply (@row 16 _ (fun i => (b_src b i, b_det b i, b_act b i, b_del b i))); [reflexivity|exact Hi]. }
  rewrite FF in F.
  assert (Tab : forall i j, i < 16 -> j < 16 -> b_S b i j = nth j (nth i (map (fun i => map (b_S b i) (seq 0 16)) (seq 0 16)) []) zz).
  { intros i j Hi Hj. rewrite <- (@row 16 _ (fun i => map (b_S b i) (seq 0 16)) _ [] i eq_refl Hi). apply (@row 16 _ (b_S b i)); [reflexivity|exact Hj]. }
  rewrite FS in Tab. clear FC FS FF. split.
  - intros i Hi. rewrite Np in Hi. specialize (F i Hi). do 16 (destruct i as [|i]; [cbn [nth] in F; injection F as -> -> -> _; intuition discriminate|]). lia.
  - intros i j Hi Hj N. rewrite Np in Hi, Hj. rewrite (Tab i j Hi Hj). pose proof (F i Hi) as Fi. pose proof (F j Hj) as Fj. unfold lag in N. clear F Tab.
    do 16 (destruct i as [|i]; [cbn [nth] in Fi; injection Fi as E1 E2 E3 E4; rewrite E1, E2, E3, E4 in N; clear E1 E2 E3 E4; do 16 (destruct j as [|j]; [cbn [nth] in Fj; injection Fj as E1 E2 E3 E4; rewrite E1, E2, E3, E4 in N; solve [reflexivity|exfalso; apply N; reflexivity]|]); lia|]). lia.
Qed.

Lemma inter_quiet s b e w t1 k1 t2 k2 g1 g2 : performed inter_calls s -> ns_buf s = Built b ->
  guides N1 w g1 -> guides N2 w g2 -> couples M1 w t1 k1 -> couples M2 w t2 k2 -> no_resonance 0%R Rplus Rmult Rminus e b w.
Proof.
  intros P B G1 G2 C1 C2 x Ex. destruct inter_built as (s' & b' & P' & B' & Np & FC & FS & FF & _).
  assert (s = s') by (eapply performed_once; eassumption). subst s'. rewrite B in B'. injection B' as <-. rewrite Np in Ex |- *.
  set (y := fun k => if lag e b k =? 0 then x k else 0c).
  assert (Y0 : forall i, lag e b i <> 0 -> y i = 0c) by (intros i H; unfold y; destruct (Nat.eqb_spec (lag e b i) 0); [contradiction|reflexivity]).
  assert (YE : forall i p, i < 16 -> nth i [[4]; [12]; [13]; [5]; [0]; [3]; [10]; [14]; [15]; [11]; [6]; [9]; [1]; [2]; [7]; [8]] [] = [p] -> lag e b i = 0 ->
    y i = csum (fun q => cmul (fst q w) (y (snd q))) (combine (map (b_S b p) (seq 0 16)) (seq 0 16))).
  { intros i p Hi Hp L0. unfold y at 1. rewrite L0. cbn [Nat.eqb]. rewrite (Ex i Hi L0), <- sum_table.
    rewrite (@partner b 16 i p (fun j => csum (fun k => if lag e b k =? 0 then cmul (b_S b j k w) (x k) else 0c) (seq 0 16))) by (rewrite (row [] FC Hi); exact Hp).
    apply lsum_ext. intros k _. unfold y. destruct (lag e b k =? 0); [reflexivity|ring]. }
  assert (Tab : forall i, i < 16 -> map (b_S b i) (seq 0 16) = nth i (map (fun i => map (b_S b i) (seq 0 16)) (seq 0 16)) []).
  { intros i Hi. apply (@row 16 _ (fun i => map (b_S b i) (seq 0 16))); [reflexivity|exact Hi]. }
  rewrite FS in Tab.
  assert (E : forall i p, i < 16 -> p < 16 -> nth i [[4]; [12]; [13]; [5]; [0]; [3]; [10]; [14]; [15]; [11]; [6]; [9]; [1]; [2]; [7]; [8]] [] = [p] ->
    y i = 0c \/ y i = csum (fun q => cmul (fst q w) (y (snd q))) (combine (nth p _ []) (seq 0 16)))
    by (intros i p Hi Hp0 Hp; destruct (Nat.eq_dec (lag e b i) 0) as [Z|Z]; [right; rewrite <- (Tab p Hp0); exact (YE i p Hi Hp Z)|left; exact (Y0 i Z)]).
  destruct G1 as (G11 & G12 & G13 & G14). destruct G2 as (G21 & G22 & G23 & G24).
  destruct C1 as ((c1 & c2 & c3 & c4) & (c5 & c6 & c7 & c8) & (c9 & c10 & c11 & c12) & (c13 & c14 & c15 & c16)).
  destruct C2 as ((d1 & d2 & d3 & d4) & (d5 & d6 & d7 & d8) & (d9 & d10 & d11 & d12) & (d13 & d14 & d15 & d16)).
  Ltac expand Q := cbn [nth app repeat seq combine lsum fold_right fst snd] in Q; change (0%R, 0%R) with (c0 0%R) in Q.
  assert (y1 : y 1 = 0c) by (destruct (E 1 12 ltac:(lia) ltac:(lia) eq_refl) as [Q|Q]; [exact Q|expand Q; rewrite Q; ring]).
  assert (y4 : y 4 = 0c) by (destruct (E 4 0 ltac:(lia) ltac:(lia) eq_refl) as [Q|Q]; [exact Q|expand Q; rewrite Q; ring]).
  assert (y8 : y 8 = 0c) by (destruct (E 8 15 ltac:(lia) ltac:(lia) eq_refl) as [Q|Q]; [exact Q|expand Q; rewrite Q; ring]).
  assert (y9 : y 9 = 0c) by (destruct (E 9 11 ltac:(lia) ltac:(lia) eq_refl) as [Q|Q]; [exact Q|expand Q; rewrite Q; ring]).
  assert (y13 : y 13 = 0c) by (destruct (E 13 2 ltac:(lia) ltac:(lia) eq_refl) as [Q|Q]; [exact Q|expand Q; rewrite Q, c5, c6, c7, c8, y1, y4; ring]).
  assert (y5 : y 5 = 0c) by (destruct (E 5 3 ltac:(lia) ltac:(lia) eq_refl) as [Q|Q]; [exact Q|expand Q; rewrite Q, c9, c10, c11, c12, y1, y4; ring]).
  assert (y7 : y 7 = 0c) by (destruct (E 7 14 ltac:(lia) ltac:(lia) eq_refl) as [Q|Q]; [exact Q|expand Q; rewrite Q, G22, G24, y13; ring]).
  assert (y10 : y 10 = 0c) by (destruct (E 10 6 ltac:(lia) ltac:(lia) eq_refl) as [Q|Q]; [exact Q|expand Q; rewrite Q, G12, G14, y5; ring]).
  assert (y15 : y 15 = 0c) by (destruct (E 15 8 ltac:(lia) ltac:(lia) eq_refl) as [Q|Q]; [exact Q|expand Q; rewrite Q, d5, d6, d7, d8, y7, y10; ring]).
  assert (y11 : y 11 = 0c) by (destruct (E 11 9 ltac:(lia) ltac:(lia) eq_refl) as [Q|Q]; [exact Q|expand Q; rewrite Q, d9, d10, d11, d12, y7, y10; ring]).
  assert (y14 : y 14 = 0c) by (destruct (E 14 7 ltac:(lia) ltac:(lia) eq_refl) as [Q|Q]; [exact Q|expand Q; rewrite Q, d1, d2, d3, d4, y8, y9; ring]).
  assert (y6 : y 6 = 0c) by (destruct (E 6 10 ltac:(lia) ltac:(lia) eq_refl) as [Q|Q]; [exact Q|expand Q; rewrite Q, d13, d14, d15, d16, y8, y9; ring]).
  assert (y2 : y 2 = 0c) by (destruct (E 2 13 ltac:(lia) ltac:(lia) eq_refl) as [Q|Q]; [exact Q|expand Q; rewrite Q, G21, G23, y14; ring]).
  assert (y3 : y 3 = 0c) by (destruct (E 3 5 ltac:(lia) ltac:(lia) eq_refl) as [Q|Q]; [exact Q|expand Q; rewrite Q, G11, G13, y6; ring]).
  assert (y12 : y 12 = 0c) by (destruct (E 12 1 ltac:(lia) ltac:(lia) eq_refl) as [Q|Q]; [exact Q|expand Q; rewrite Q, c1, c2, c3, c4, y2, y3; ring]).
  assert (y0 : y 0 = 0c) by (destruct (E 0 4 ltac:(lia) ltac:(lia) eq_refl) as [Q|Q]; [exact Q|expand Q; rewrite Q, c13, c14, c15, c16, y2, y3; ring]).
  intros i Hi L0. transitivity (y i); [unfold y; rewrite L0; reflexivity|]. clear Ex E Tab YE.
  do 16 (destruct i as [|i]; [assumption|]). lia.
Qed.
End Interferometer.

(** ** C120 *)
Section Filter.
Variable c : Q.
Variable wl : nat -> R.
Variable solve : nat -> nat -> mat R -> mat R -> option (mat R).
Variable A : Type.
Variable act : A -> nat -> field R -> A * field R.
Notation forward := (forward 0%R 1%R Rplus Rmult Rminus Ropp solve act).
Notation factor := (factor wl).
Notation power := (norm2 Rplus Rmult).
Notation network k1 k2 g1 p1 g2 p2 := (interferometer (directional_coupler k1) (directional_coupler k2) (waveguide c wl g1 p1) (waveguide c wl g2 p2)).
Notation detected outs t w col := (at_ (nth t outs (zero_field 0%R)) w 0 col).

(** The calls of the notebook build the circuit; what arrives is the sum of the signal delayed by one arm and by the other. *)
Theorem C120_interferes (k1 k2 : R) (g1 g2 : guide) (p1 p2 : R) : (0 <= k1 <= 1)%R -> (0 <= k2 <= 1)%R -> solver_sound 0%R Rplus Rmult solve ->
  exists s b, performed (network k1 k2 g1 p1 g2 p2) s /\ ns_buf s = Built b /\ num_src b = 1 /\ num_det b = 1 /\
  forall e s0 src outs w col, w < e_num_wl e -> forward e b s0 src = Ok outs ->
    let u := fun t => at_ (src t) w 0 col in
    length outs = e_num_t e /\
    forall t, t < e_num_t e -> detected outs t w col =
      csub (cmul (cmul ((sqrt (1 - k1) * sqrt (1 - k2))%R, 0%R) (factor g2 p2 w)) (later (steps e (guide_delay c g2)) u t))
           (cmul (cmul ((sqrt k1 * sqrt k2)%R, 0%R) (factor g1 p1 w)) (later (steps e (guide_delay c g1)) u t)).
Proof.
  intros Hk Hk2 SS.
  pose (N1 := b_S (waveguide c wl g1 p1)). pose (N2 := b_S (waveguide c wl g2 p2)). pose (M1 := b_S (directional_coupler k1)). pose (M2 := b_S (directional_coupler k2)).
  destruct (@inter_built M1 M2 N1 N2 0%Q 0%Q (guide_delay c g1) (guide_delay c g2)) as (s & b & P & B & Np & FC & FS & FF & Rd15 & Rs12 & NA & ND & NS & Te).
  exists s, b. split; [exact P|]. split; [exact B|]. split; [exact NS|]. split; [exact ND|]. intros e s0 src outs w col Hw Hf u.
  pose proof (guides_waveguide c wl g1 p1 w) as G1. pose proof (guides_waveguide c wl g2 p2 w) as G2. pose proof (couples_coupler k1 w) as C1. pose proof (couples_coupler k2 w) as C2.
  destruct (@inter_regular M1 M2 N1 N2 _ _ _ _ s b e w _ _ _ _ _ _ P B G1 G2 C1 C2) as [FO U].
  destruct (C16_solves_wave_equations RTheory col SS FO NA Hw U Hf) as (a & o & W & [Len Rd]).
  split; [exact Len|].
  assert (F : forall i, i < 16 -> (b_src b i, b_det b i, b_act b i, b_del b i) = nth i (map (fun i => (b_src b i, b_det b i, b_act b i, b_del b i)) (seq 0 16)) (false, false, false, 0%Q)).
  { intros i Hi. apply (@row 16 _ (fun i => (b_src b i, b_det b i, b_act b i, b_del b i))); [reflexivity|exact Hi]. }
  rewrite FF in F.
  assert (Z : forall t i, i < 16 -> i <> 12 -> injected 0%R b src w col t i = 0c).
  { intros t i Hi H0. unfold injected. specialize (F i Hi). do 16 (destruct i as [|i]; [cbn [nth] in F; injection F as -> _ _ _; try reflexivity; contradiction|]). lia. }
  pose proof (@inter_waves M1 M2 N1 N2 _ _ _ _ s b e w (e_num_t e) _ a o _ _ _ _ _ _ P B G1 G2 C1 C2 (steps_zero e) (steps_zero e) W Z) as H15.
  assert (S0 : forall t, injected 0%R b src w col t 12 = u t).
  { intros t. unfold injected. pose proof (F 12 ltac:(lia)) as X. cbn [nth] in X. injection X as -> _ _ _. rewrite Rs12. reflexivity. }
  assert (T15 : b_det b 15 = true) by (pose proof (F 15 ltac:(lia)) as X; cbn [nth] in X; injection X as _ -> _ _; reflexivity).
  assert (SU : forall d t, t < e_num_t e -> later d u t = later d (fun t => injected 0%R b src w col t 12) t).
  { intros d t Ht. apply later_ext with (T := e_num_t e); [|exact Ht]. intros t' _. symmetry. apply S0. }
  intros t Ht. pose proof (Rd t 15 Ht ltac:(lia) T15) as X. rewrite Rd15 in X. rewrite X, (H15 t Ht), !(SU _ _ Ht).
  set (x1 := later _ _ t). set (x2 := later _ _ t).
  replace (cmul (sqrt (1 - k1), 0%R) (sqrt (1 - k2), 0%R)) with ((sqrt (1 - k1) * sqrt (1 - k2))%R, 0%R) by (unfold SimAlg.cmul; cbn [fst snd]; f_equal; ring).
  replace (cmul (0%R, sqrt k1) (0%R, sqrt k2)) with (copp ((sqrt k1 * sqrt k2)%R, 0%R)) by (unfold SimAlg.cmul, SimAlg.copp; cbn [fst snd]; f_equal; ring).
  ring.
Qed.

(** There are no loops: every simulation succeeds. *)
Theorem C120_runs (k1 k2 : R) (g1 g2 : guide) (p1 p2 : R) s b e s0 src : solver_complete 0%R Rplus Rmult solve ->
  performed (network k1 k2 g1 p1 g2 p2) s -> ns_buf s = Built b -> timed e -> exists outs, forward e b s0 src = Ok outs.
Proof.
  intros SC P B Ti.
  pose (N1 := b_S (waveguide c wl g1 p1)). pose (N2 := b_S (waveguide c wl g2 p2)). pose (M1 := b_S (directional_coupler k1)). pose (M2 := b_S (directional_coupler k2)).
  destruct (@inter_built M1 M2 N1 N2 0%Q 0%Q (guide_delay c g1) (guide_delay c g2)) as (s' & b' & P' & B' & _ & _ & _ & _ & _ & _ & _ & ND & _ & Te).
  assert (s = s') by (eapply performed_once; eassumption). subst s'. rewrite B in B'. injection B' as <-.
  destruct (@C30_succeeds_partial R 0%R 1%R Rplus Rmult Rminus Ropp solve A act RTheory e b s0 src SC Ti) as (outs & Ho & _).
  - exact (proj1 (@inter_regular M1 M2 N1 N2 _ _ _ _ s b e 0 _ _ _ _ _ _ P B (guides_waveguide c wl g1 p1 0) (guides_waveguide c wl g2 p2 0) (couples_coupler k1 0) (couples_coupler k2 0))).
  - exact Te.
  - rewrite ND. discriminate.
  - intros w Hw. split.
    + exact (proj2 (@inter_regular M1 M2 N1 N2 _ _ _ _ s b e w _ _ _ _ _ _ P B (guides_waveguide c wl g1 p1 w) (guides_waveguide c wl g2 p2 w) (couples_coupler k1 w) (couples_coupler k2 w))).
    + exact (@inter_quiet M1 M2 N1 N2 _ _ _ _ s b e w _ _ _ _ _ _ P B (guides_waveguide c wl g1 p1 w) (guides_waveguide c wl g2 p2 w) (couples_coupler k1 w) (couples_coupler k2 w)).
  - exists outs. exact Ho.
Qed.

(** The task can be learned: with equal splitting and arms in phase, the detected power is the exclusive or of two bits of the stream, scaled
    by 1/4. *)
Definition amplitude (bit : bool) : C := if bit then 1c else 0c.
Theorem C120_xor (g1 g2 : guide) (p1 p2 : R) s b e s0 src outs w col (bits : nat -> bool) : solver_sound 0%R Rplus Rmult solve ->
  performed (network (1 / 2)%R (1 / 2)%R g1 p1 g2 p2) s -> ns_buf s = Built b -> w < e_num_wl e -> forward e b s0 src = Ok outs ->
  (forall t, at_ (src t) w 0 col = amplitude (bits t)) -> factor g1 p1 w = factor g2 p2 w -> g_loss g1 = 0%R ->
  let bit d t := negb (t <? d) && bits (t - d) in
  forall t, t < e_num_t e -> power (detected outs t w col) = (if xorb (bit (steps e (guide_delay c g1)) t) (bit (steps e (guide_delay c g2)) t) then 1 / 4 else 0)%R.
Proof.
  intros SS P B Hw Ho Hb Ez L1 bit t Ht. destruct (@C120_interferes (1/2)%R (1/2)%R g1 g2 p1 p2 ltac:(lra) ltac:(lra) SS) as (s' & b' & P' & B' & _ & _ & H).
  assert (s = s') by (eapply performed_once; eassumption). subst s'. rewrite B in B'. injection B' as <-.
  destruct (H e s0 src outs w col Hw Ho) as [_ E]. rewrite (E t Ht). clear E.
  assert (Eh : (1 - 1 / 2 = 1 / 2)%R) by lra. rewrite Eh, (sqrt_sqrt (1 / 2)) by lra. rewrite Ez.
  assert (Lb : forall d, later d (fun t => at_ (src t) w 0 col) t = amplitude (bit d t)).
  { intros d. unfold later, bit. destruct (t <? d); [reflexivity|]. apply Hb. }
  rewrite !Lb. set (b1 := bit _ t). set (b2 := bit _ t). set (h := ((1 / 2)%R, 0%R)).
  assert (Pz : power (factor g2 p2 w) = 1%R) by (rewrite <- Ez; unfold PropExample.factor; rewrite power_polar, lossless_guide by exact L1; ring).
  transitivity (power (cmul (cmul h (factor g2 p2 w)) (csub (amplitude b1) (amplitude b2)))); [f_equal; ring|].
  rewrite !power_mul, Pz. unfold h, b1, b2. destruct (bit (steps e (guide_delay c g1)) t), (bit (steps e (guide_delay c g2)) t); unfold amplitude, norm2, SimAlg.csub, c1, c0; cbn [fst snd xorb]; lra.
Qed.
End Filter.
Print Assumptions C120_interferes.
Print Assumptions C120_runs.
Print Assumptions C120_xor.

(** ** Examples *)
(** Two guides of the same effective index, the second shorter by a whole number of wavelengths: the circuit computes XOR for every bit stream. *)
Definition arm (len : Q) : guide := {| g_length := len; g_ng := 3; g_neff := 2; g_wl0 := 1; g_loss := 0 |}.
Definition stream (bits : nat -> bool) (t : nat) : field R := (fun _ _ _ => if bits t then 1%R else 0%R, fun _ _ _ => 0%R).
Definition ten_steps : env := {| e_freq := false; e_dt := Some 1%Q; e_num_t := 10; e_num_wl := 1 |}.
Example C120_ex (bits : nat -> bool) : exists s b outs,
  performed (interferometer (directional_coupler (1 / 2)) (directional_coupler (1 / 2)) (waveguide 3%Q (fun _ => 1%R) (arm 2) 0) (waveguide 3%Q (fun _ => 1%R) (arm 1) 0)) s /\
  ns_buf s = Built b /\ forward 0%R 1%R Rplus Rmult Rminus Ropp rsolve ract ten_steps b tt (stream bits) = Ok outs /\
  forall t, 2 <= t -> t < 10 -> norm2 Rplus Rmult (at_ (nth t outs (zero_field 0%R)) 0 0 0) = (if xorb (bits (t - 2)%nat) (bits (t - 1)%nat) then 1 / 4 else 0)%R.
Proof.
  assert (SS : solver_sound 0%R Rplus Rmult rsolve) by exact (gauss_sound Rfield reqb_eq).
  assert (SC : solver_complete 0%R Rplus Rmult rsolve) by exact (gauss_complete Rfield reqb_eq).
  destruct (@C120_interferes 3%Q (fun _ => 1%R) rsolve unit ract (1/2)%R (1/2)%R (arm 2) (arm 1) 0%R 0%R ltac:(lra) ltac:(lra) SS) as (s & b & P & B & _).
  destruct (@C120_runs 3%Q (fun _ => 1%R) rsolve unit ract (1/2)%R (1/2)%R (arm 2) (arm 1) 0%R 0%R s b ten_steps tt (stream bits) SC P B) as (outs & Ho).
  { right. exists 1%Q. split; reflexivity. }
  exists s, b, outs. split; [exact P|]. split; [exact B|]. split; [exact Ho|]. intros t Ha Hb.
  assert (Ef : factor (fun _ => 1%R) (arm 2) 0 0 = factor (fun _ => 1%R) (arm 1) 0 0).
  { unfold factor. rewrite !lossless_guide by reflexivity. unfold phase_at, arm. cbn [g_length g_ng g_neff g_wl0].
    replace (Q2R 2) with 2%R by (unfold Q2R; cbn; lra). replace (Q2R 1) with 1%R by (unfold Q2R; cbn; lra). unfold polar.
    replace (2 * PI * (2 + (1 - 1) * (Q2R 3 - 2) / 1) * 2 / 1 + 0)%R with (2 * PI * (2 + (1 - 1) * (Q2R 3 - 2) / 1) * 1 / 1 + 0 + 2 * INR 2 * PI)%R by (cbn [INR]; field).
    rewrite cos_period, sin_period. reflexivity. }
  rewrite (@C120_xor 3%Q (fun _ => 1%R) rsolve unit ract (arm 2) (arm 1) 0%R 0%R s b ten_steps tt (stream bits) outs 0 0 bits SS P B ltac:(cbn; lia) Ho
    ltac:(intros t0; unfold stream, at_, amplitude; cbn [fst snd]; destruct (bits t0); reflexivity) Ef eq_refl t ltac:(cbn; lia)).
  assert (E2 : steps ten_steps (guide_delay 3 (arm 2)) = 2) by reflexivity. assert (E1 : steps ten_steps (guide_delay 3 (arm 1)) = 1) by reflexivity. rewrite E1, E2.
  destruct (Nat.ltb_spec t 2); [lia|]. destruct (Nat.ltb_spec t 1); [lia|]. reflexivity.
Qed.
