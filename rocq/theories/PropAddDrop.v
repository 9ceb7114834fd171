(** Property C119: the add-drop filter of the second example. *)
From Coq Require Import QArith Reals Qreals Lra Lia Psatz Field.
From Verif Require Import Base NetModel NetSpec SimModel SimAlg SimSpec CompModel CompSpec CompProofs Deriv SimDelay Gauss PropSim PropEnergy ExampleModel PropExample.
Set Implicit Arguments.
Unset Strict Implicit.
Local Open Scope list_scope.
Local Open Scope nat_scope.

(** ** Specification: what is dropped goes round as what passes does, and comes out after the first half of the ring. *)
Definition drop_response (z h : C) (L D : nat) (u y : nat -> C) (T : nat) : Prop := forall t, t < T ->
  y t = cadd (cmul z (later L y t)) (cmul h (later D u t)).

Lemma unfed (z : C) L y T : L <> 0 \/ csub 1c z <> 0c -> (forall t, t < T -> y t = cmul z (later L y t)) -> forall t, t < T -> y t = 0c.
Proof.
  intros HL H t. induction t as [t IH] using lt_wf_ind. intros Ht. pose proof (H t Ht) as E. unfold later in E. destruct L as [|L].
  - destruct HL as [HL|Hz]; [contradiction|]. cbn in E. rewrite Nat.sub_0_r in E. apply (cancel Hz).
    transitivity (csub (y t) (cmul z (y t))); [ring|rewrite <- E; ring].
  - destruct (Nat.ltb_spec t (Datatypes.S L)) as [Hlt|Hge]; [rewrite E; ring|]. rewrite (IH (t - Datatypes.S L)) in E by lia. rewrite E. ring.
Qed.

Section AddDrop.
Variables M1 M2 N1 N2 : smat.
Variables e1 e2 q1 q2 : Q.
Definition adddrop_calls := adddrop (simple 4 M1 e1) (simple 4 M2 e2) (simple 2 N1 q1) (simple 2 N2 q2).
Lemma adddrop_built : exists s b, performed adddrop_calls s /\ ns_buf s = Built b /\ b_np b = 16 /\
  map (fun i => filter (b_C b i) (seq 0 16)) (seq 0 16) = [[1]; [0]; [12]; [5]; [13]; [3]; [8]; [14]; [6]; [15]; [11]; [10]; [2]; [4]; [7]; [9]] /\
  map (fun i => map (b_S b i) (seq 0 16)) (seq 0 16) =
   [repeat zz 16;
    repeat zz 1 ++ [M1 0 0; M1 0 1; M1 0 2; M1 0 3] ++ repeat zz 11;
    repeat zz 1 ++ [M1 1 0; M1 1 1; M1 1 2; M1 1 3] ++ repeat zz 11;
    repeat zz 1 ++ [M1 2 0; M1 2 1; M1 2 2; M1 2 3] ++ repeat zz 11;
    repeat zz 1 ++ [M1 3 0; M1 3 1; M1 3 2; M1 3 3] ++ repeat zz 11;
    repeat zz 5 ++ [N1 0 0; N1 0 1] ++ repeat zz 9;
    repeat zz 5 ++ [N1 1 0; N1 1 1] ++ repeat zz 9;
    repeat zz 7 ++ [M2 0 0; M2 0 1; M2 0 2; M2 0 3] ++ repeat zz 5;
    repeat zz 7 ++ [M2 1 0; M2 1 1; M2 1 2; M2 1 3] ++ repeat zz 5;
    repeat zz 7 ++ [M2 2 0; M2 2 1; M2 2 2; M2 2 3] ++ repeat zz 5;
    repeat zz 7 ++ [M2 3 0; M2 3 1; M2 3 2; M2 3 3] ++ repeat zz 5;
    repeat zz 16;
    repeat zz 16;
    repeat zz 13 ++ [N2 0 0; N2 0 1] ++ repeat zz 1;
    repeat zz 13 ++ [N2 1 0; N2 1 1] ++ repeat zz 1;
    repeat zz 16] /\
  map (fun i => (b_src b i, b_det b i, b_act b i, b_del b i)) (seq 0 16) =
   [(true, false, false, 0%Q); (false, false, false, e1); (false, false, false, e1); (false, false, false, e1); (false, false, false, e1); (false, false, false, q1); (false, false, false, q1); (false, false, false, e2); (false, false, false, e2); (false, false, false, e2); (false, false, false, e2); (false, true, false, 0%Q); (false, true, false, 0%Q); (false, false, false, q2); (false, false, false, q2); (false, true, false, 0%Q)] /\
  map (rank (b_det b)) [11; 12; 15] = [0; 1; 2] /\ num_act b = 0 /\ num_det b = 3 /\ num_src b = 1 /\ terminated b = true.
Proof.
  eexists. eexists. split; [unfold performed, adddrop_calls, adddrop; repeat (eapply acc_cons; [vm_compute; reflexivity|]); apply acc_nil|].
  split; [reflexivity|]. repeat split; vm_compute; reflexivity.
Qed.

Lemma adddrop_waves s b e w T src a o (t1 k1 t2 k2 g1 g2 : C) : performed adddrop_calls s -> ns_buf s = Built b ->
  guides N1 w g1 -> guides N2 w g2 -> couples M1 w t1 k1 -> couples M2 w t2 k2 -> steps e e1 = 0 -> steps e e2 = 0 -> csub (cmul t1 t1) (cmul k1 k1) = 1c ->
  waves 0%R Rplus Rmult Rminus e b w T src a o -> (forall t i, i < 16 -> i <> 0 -> src t i = 0c) ->
  ring_response t1 (cmul t2 (cmul g1 g2)) (steps e q1 + steps e q2) (fun t => src t 0) (fun t => a t 12) T /\
  drop_response (cmul (cmul t1 t2) (cmul g1 g2)) (cmul (cmul k1 k2) g1) (steps e q1 + steps e q2) (steps e q1) (fun t => src t 0) (fun t => a t 11) T /\
  (steps e q1 + steps e q2 <> 0 \/ csub 1c (cmul (cmul t1 t2) (cmul g1 g2)) <> 0c -> forall t, t < T -> a t 15 = 0c).
Proof.
  intros P B G1 G2 C1 C2 Ld Le N W Z. destruct adddrop_built as (s' & b' & P' & B' & Np & FC & FS & FF & _).
  assert (s = s') by (eapply performed_once; eassumption). subst s'. rewrite B in B'. injection B' as <-.
  assert (A : forall t i p, t < T -> i < 16 -> nth i [[1]; [0]; [12]; [5]; [13]; [3]; [8]; [14]; [6]; [15]; [11]; [10]; [2]; [4]; [7]; [9]] [] = [p] -> a t i = o t p).
  { intros t i p Ht Hi Hp. destruct (W t i Ht ltac:(lia)) as [E _]. rewrite E, Np. apply partner. rewrite (row [] FC Hi). exact Hp. }
  assert (O : forall t i, t < T -> i < 16 -> o t i = cadd (src t i) (csum (fun p => cmul (fst p w) (later (lag e b (snd p)) (fun t => a t (snd p)) t)) (combine (map (b_S b i) (seq 0 16)) (seq 0 16)))).
  { intros t i Ht Hi. destruct (W t i Ht ltac:(lia)) as [_ E]. rewrite E, Np, sum_table. reflexivity. }
  assert (L : forall i, i < 16 -> lag e b i = let '(x, y, z, d) := nth i (map (fun i => (b_src b i, b_det b i, b_act b i, b_del b i)) (seq 0 16)) (false, false, false, 0%Q) in
    if x || y || z then Nat.max 1 (steps e d) else steps e d).
  { intros i Hi. rewrite (nth_indep _ _ (b_src b 0, b_det b 0, b_act b 0, b_del b 0)) by (rewrite map_length, seq_length; exact Hi).
    rewrite (map_nth (fun i => (b_src b i, b_det b i, b_act b i, b_del b i))), seq_nth by exact Hi. reflexivity. }
  rewrite FF in L.
  assert (Tab : forall i, i < 16 -> map (b_S b i) (seq 0 16) = nth i (map (fun i => map (b_S b i) (seq 0 16)) (seq 0 16)) []).
  { intros i Hi. apply (@row 16 _ (fun i => map (b_S b i) (seq 0 16))); [reflexivity|exact Hi]. }
  rewrite FS in Tab. clear W FC FS FF.
  pose proof (L 1 ltac:(lia)) as L1. pose proof (L 2 ltac:(lia)) as L2. pose proof (L 3 ltac:(lia)) as L3. pose proof (L 4 ltac:(lia)) as L4. pose proof (L 5 ltac:(lia)) as L5. pose proof (L 6 ltac:(lia)) as L6. pose proof (L 7 ltac:(lia)) as L7. pose proof (L 8 ltac:(lia)) as L8. pose proof (L 9 ltac:(lia)) as L9. pose proof (L 10 ltac:(lia)) as L10. pose proof (L 13 ltac:(lia)) as L13. pose proof (L 14 ltac:(lia)) as L14.
  cbn [nth orb] in L1, L2, L3, L4, L5, L6, L7, L8, L9, L10, L13, L14. rewrite Ld in L1, L2, L3, L4. rewrite Le in L7, L8, L9, L10.
  destruct G1 as (G11 & G12 & G13 & G14). destruct G2 as (G21 & G22 & G23 & G24).
  destruct C1 as ((c1 & c2 & c3 & c4) & (c5 & c6 & c7 & c8) & (c9 & c10 & c11 & c12) & (c13 & c14 & c15 & c16)).
  destruct C2 as ((d1 & d2 & d3 & d4) & (d5 & d6 & d7 & d8) & (d9 & d10 & d11 & d12) & (d13 & d14 & d15 & d16)).
  assert (Out : forall t i, t < T -> i < 16 -> i <> 0 -> o t i = csum (fun p => cmul (fst p w) (later (lag e b (snd p)) (fun t => a t (snd p)) t)) (combine (nth i _ []) (seq 0 16)))
    by (intros t i Ht Hi H0; rewrite (O t i Ht Hi), (Tab i Hi), (Z t i Hi H0); ring).
  Ltac crunch Out t i Ht := rewrite (Out t i Ht ltac:(lia) ltac:(discriminate)); cbn [nth app repeat seq combine lsum fold_right fst snd]; change (0%R, 0%R) with (c0 0%R).
  assert (A1 : forall t, t < T -> a t 1 = src t 0).
  { intros t Ht. rewrite (A t 1 0 Ht ltac:(lia) eq_refl), (O t 0 Ht ltac:(lia)), (Tab 0 ltac:(lia)). cbn [nth app repeat seq combine lsum fold_right fst snd]. change (0%R, 0%R) with (c0 0%R). ring. }
  assert (A2 : forall t, t < T -> a t 2 = 0c) by (intros t Ht; rewrite (A t 2 12 Ht ltac:(lia) eq_refl); crunch Out t 12 Ht; ring).
  assert (A9 : forall t, t < T -> a t 9 = 0c) by (intros t Ht; rewrite (A t 9 15 Ht ltac:(lia) eq_refl); crunch Out t 15 Ht; ring).
  assert (A10 : forall t, t < T -> a t 10 = 0c) by (intros t Ht; rewrite (A t 10 11 Ht ltac:(lia) eq_refl); crunch Out t 11 Ht; ring).
  assert (A12 : forall t, t < T -> a t 12 = cadd (cmul t1 (src t 0)) (cmul k1 (a t 4)))
    by (intros t Ht; rewrite (A t 12 2 Ht ltac:(lia) eq_refl); crunch Out t 2 Ht; rewrite c5, c6, c7, c8, L1, L4, !later_0, (A1 t Ht); ring).
  assert (A5 : forall t, t < T -> a t 5 = cadd (cmul k1 (src t 0)) (cmul t1 (a t 4)))
    by (intros t Ht; rewrite (A t 5 3 Ht ltac:(lia) eq_refl); crunch Out t 3 Ht; rewrite c9, c10, c11, c12, L1, L4, !later_0, (A1 t Ht); ring).
  assert (A8 : forall t, t < T -> a t 8 = cmul g1 (later (steps e q1) (fun t => a t 5) t))
    by (intros t Ht; rewrite (A t 8 6 Ht ltac:(lia) eq_refl); crunch Out t 6 Ht; rewrite G12, G14, L5; ring).
  assert (A14 : forall t, t < T -> a t 14 = cmul t2 (a t 8))
    by (intros t Ht; rewrite (A t 14 7 Ht ltac:(lia) eq_refl); crunch Out t 7 Ht; rewrite d1, d2, d3, d4, L8, L9, !later_0, (A9 t Ht); ring).
  assert (A11 : forall t, t < T -> a t 11 = cmul k2 (a t 8))
    by (intros t Ht; rewrite (A t 11 10 Ht ltac:(lia) eq_refl); crunch Out t 10 Ht; rewrite d13, d14, d15, d16, L8, L9, !later_0, (A9 t Ht); ring).
  assert (A4 : forall t, t < T -> a t 4 = cmul g2 (later (steps e q2) (fun t => a t 14) t))
    by (intros t Ht; rewrite (A t 4 13 Ht ltac:(lia) eq_refl); crunch Out t 13 Ht; rewrite G21, G23, L14; ring).
  assert (A4' : forall t, t < T -> a t 4 = cmul (cmul t2 (cmul g1 g2)) (later (steps e q1 + steps e q2) (fun t => a t 5) t)).
  { intros t Ht. rewrite (A4 t Ht), (later_ext _ A14 Ht), later_mul, (later_ext _ A8 Ht), later_mul, later_add, (Nat.add_comm (steps e q2)). ring. }
  split; [|split].
  - exact (@ring_solution t1 k1 (cmul t2 (cmul g1 g2)) _ (fun t => src t 0) (fun t => a t 12) (fun t => a t 5) (fun t => a t 4) T N A12 A5 A4').
  - assert (A5' : forall t, t < T -> a t 5 = cadd (cmul k1 (src t 0)) (cmul (cmul (cmul t1 t2) (cmul g1 g2)) (later (steps e q1 + steps e q2) (fun t => a t 5) t)))
      by (intros t Ht; rewrite (A5 t Ht), (A4' t Ht); ring).
    assert (A11' : forall t, t < T -> a t 11 = cmul (cmul k2 g1) (later (steps e q1) (fun t => a t 5) t)) by (intros t Ht; rewrite (A11 t Ht), (A8 t Ht); ring).
    intros t Ht. rewrite (later_ext _ A11' Ht), later_mul, later_add, (A11' t Ht), (later_ext _ A5' Ht), later_addc, !later_mul, later_add.
    rewrite (Nat.add_comm (steps e q1 + steps e q2) (steps e q1)). ring.
  - intros HL.
    assert (A7 : forall t, t < T -> a t 7 = cmul g2 (later (steps e q2) (fun t => a t 13) t))
      by (intros t Ht; rewrite (A t 7 14 Ht ltac:(lia) eq_refl); crunch Out t 14 Ht; rewrite G22, G24, L13; ring).
    assert (A13 : forall t, t < T -> a t 13 = cmul t1 (a t 3))
      by (intros t Ht; rewrite (A t 13 4 Ht ltac:(lia) eq_refl); crunch Out t 4 Ht; rewrite c13, c14, c15, c16, L2, L3, !later_0, (A2 t Ht); ring).
    assert (A3 : forall t, t < T -> a t 3 = cmul g1 (later (steps e q1) (fun t => a t 6) t))
      by (intros t Ht; rewrite (A t 3 5 Ht ltac:(lia) eq_refl); crunch Out t 5 Ht; rewrite G11, G13, L6; ring).
    assert (A6 : forall t, t < T -> a t 6 = cmul t2 (a t 7))
      by (intros t Ht; rewrite (A t 6 8 Ht ltac:(lia) eq_refl); crunch Out t 8 Ht; rewrite d5, d6, d7, d8, L7, L10, !later_0, (A10 t Ht); ring).
    assert (A7' : forall t, t < T -> a t 7 = cmul (cmul (cmul t1 t2) (cmul g1 g2)) (later (steps e q1 + steps e q2) (fun t => a t 7) t)).
    { intros t Ht. rewrite (A7 t Ht), (later_ext _ A13 Ht), later_mul, (later_ext _ A3 Ht), later_mul, later_add, (later_ext _ A6 Ht), later_mul, (Nat.add_comm (steps e q2)). ring. }
    intros t Ht. rewrite (A t 15 9 Ht ltac:(lia) eq_refl). crunch Out t 9 Ht. rewrite d9, d10, d11, d12, L7, L10, !later_0, (A10 t Ht), (unfed HL A7' Ht). ring.
Qed.

Lemma adddrop_regular s b e w t1 k1 t2 k2 g1 g2 : performed adddrop_calls s -> ns_buf s = Built b ->
  guides N1 w g1 -> guides N2 w g2 -> couples M1 w t1 k1 -> couples M2 w t2 k2 -> flags_ok b /\ unmixed 0%R e b w.
Proof.
  intros P B G1 G2 C1 C2. destruct adddrop_built as (s' & b' & P' & B' & Np & FC & FS & FF & _).
  assert (s = s') by (eapply performed_once; eassumption). subst s'. rewrite B in B'. injection B' as <-.
  assert (F : forall i, i < 16 -> (b_src b i, b_det b i, b_act b i, b_del b i) = nth i (map (fun i => (b_src b i, b_det b i, b_act b i, b_del b i)) (seq 0 16)) (false, false, false, 0%Q)).
  { intros i Hi. apply (@row 16 _ (fun i => (b_src b i, b_det b i, b_act b i, b_del b i))); [reflexivity|exact Hi]. }
  rewrite FF in F.
  assert (Tab : forall i j, i < 16 -> j < 16 -> b_S b i j = nth j (nth i (map (fun i => map (b_S b i) (seq 0 16)) (seq 0 16)) []) zz).
  { intros i j Hi Hj. rewrite <- (@row 16 _ (fun i => map (b_S b i) (seq 0 16)) _ [] i eq_refl Hi). apply (@row 16 _ (b_S b i)); [reflexivity|exact Hj]. }
  rewrite FS in Tab. clear FC FS FF. split.
  - intros i Hi. rewrite Np in Hi. specialize (F i Hi). do 16 (destruct i as [|i]; [cbn [nth] in F; injection F as -> -> -> _; intuition discriminate|]). lia.
  - intros i j Hi Hj N. rewrite Np in Hi, Hj. rewrite (Tab i j Hi Hj). pose proof (F i Hi) as Fi. pose proof (F j Hj) as Fj. unfold lag in N. clear F Tab.
    do 16 (destruct i as [|i]; [cbn [nth] in Fi; injection Fi as E1 E2 E3 E4; rewrite E1, E2, E3, E4 in N; clear E1 E2 E3 E4; do 16 (destruct j as [|j]; [cbn [nth] in Fj; injection Fj as E1 E2 E3 E4; rewrite E1, E2, E3, E4 in N; solve [reflexivity|exfalso; apply N; reflexivity]|]); lia|]). lia.
Qed.

Lemma cycle (c1 c2 c3 c4 u1 u2 u3 u4 : C) : u1 = 0c \/ u1 = cmul c1 u2 -> u2 = 0c \/ u2 = cmul c2 u3 -> u3 = 0c \/ u3 = cmul c3 u4 -> u4 = 0c \/ u4 = cmul c4 u1 ->
  u1 = 0c \/ u3 = 0c \/ csub 1c (cmul (cmul c1 c2) (cmul c3 c4)) <> 0c -> u1 = 0c /\ u2 = 0c /\ u3 = 0c /\ u4 = 0c.
Proof.
  intros H1 H2 H3 H4 H. assert (Z : u1 = 0c).
  { destruct H as [H|[H|H]]; [exact H| |].
    - destruct H1 as [H1|H1]; [exact H1|]. destruct H2 as [H2|H2]; rewrite H1, H2; [ring|rewrite H; ring].
    - destruct H1 as [H1|H1]; [exact H1|]. destruct H2 as [H2|H2]; [rewrite H1, H2; ring|]. destruct H3 as [H3|H3]; [rewrite H1, H2, H3; ring|].
      destruct H4 as [H4|H4]; [rewrite H1, H2, H3, H4; ring|]. apply (cancel H). rewrite H4 in H3. rewrite H3 in H2. rewrite H2 in H1.
      transitivity (csub u1 (cmul c1 (cmul c2 (cmul c3 (cmul c4 u1))))); [ring|rewrite <- H1; ring]. }
  assert (Z4 : u4 = 0c) by (destruct H4 as [H4|H4]; [exact H4|rewrite H4, Z; ring]).
  assert (Z3 : u3 = 0c) by (destruct H3 as [H3|H3]; [exact H3|rewrite H3, Z4; ring]).
  assert (Z2 : u2 = 0c) by (destruct H2 as [H2|H2]; [exact H2|rewrite H2, Z3; ring]).
  repeat split; assumption.
Qed.

Lemma adddrop_quiet s b e w t1 k1 t2 k2 g1 g2 : performed adddrop_calls s -> ns_buf s = Built b ->
  guides N1 w g1 -> guides N2 w g2 -> couples M1 w t1 k1 -> couples M2 w t2 k2 -> steps e e1 = 0 -> steps e e2 = 0 ->
  (steps e q1 + steps e q2 <> 0 \/ csub 1c (cmul (cmul t1 t2) (cmul g1 g2)) <> 0c) -> no_resonance 0%R Rplus Rmult Rminus e b w.
Proof.
  intros P B G1 G2 C1 C2 Ld Le Res x Ex. destruct adddrop_built as (s' & b' & P' & B' & Np & FC & FS & FF & _).
  assert (s = s') by (eapply performed_once; eassumption). subst s'. rewrite B in B'. injection B' as <-. rewrite Np in Ex |- *.
  set (y := fun k => if lag e b k =? 0 then x k else 0c).
  assert (Y0 : forall i, lag e b i <> 0 -> y i = 0c) by (intros i H; unfold y; destruct (Nat.eqb_spec (lag e b i) 0); [contradiction|reflexivity]).
  assert (YE : forall i p, i < 16 -> nth i [[1]; [0]; [12]; [5]; [13]; [3]; [8]; [14]; [6]; [15]; [11]; [10]; [2]; [4]; [7]; [9]] [] = [p] -> lag e b i = 0 ->
    y i = csum (fun q => cmul (fst q w) (y (snd q))) (combine (map (b_S b p) (seq 0 16)) (seq 0 16))).
  { intros i p Hi Hp L0. unfold y at 1. rewrite L0. cbn [Nat.eqb]. rewrite (Ex i Hi L0), <- sum_table.
    rewrite (@partner b 16 i p (fun j => csum (fun k => if lag e b k =? 0 then cmul (b_S b j k w) (x k) else 0c) (seq 0 16))) by (rewrite (row [] FC Hi); exact Hp).
    apply lsum_ext. intros k _. unfold y. destruct (lag e b k =? 0); [reflexivity|ring]. }
  assert (L : forall i, i < 16 -> lag e b i = let '(x, y, z, d) := nth i (map (fun i => (b_src b i, b_det b i, b_act b i, b_del b i)) (seq 0 16)) (false, false, false, 0%Q) in
    if x || y || z then Nat.max 1 (steps e d) else steps e d).
  { intros i Hi. rewrite (nth_indep _ _ (b_src b 0, b_det b 0, b_act b 0, b_del b 0)) by (rewrite map_length, seq_length; exact Hi).
    rewrite (map_nth (fun i => (b_src b i, b_det b i, b_act b i, b_del b i))), seq_nth by exact Hi. reflexivity. }
  rewrite FF in L.
  assert (Tab : forall i, i < 16 -> map (b_S b i) (seq 0 16) = nth i (map (fun i => map (b_S b i) (seq 0 16)) (seq 0 16)) []).
  { intros i Hi. apply (@row 16 _ (fun i => map (b_S b i) (seq 0 16))); [reflexivity|exact Hi]. }
  rewrite FS in Tab.
  assert (E : forall i p, i < 16 -> p < 16 -> nth i [[1]; [0]; [12]; [5]; [13]; [3]; [8]; [14]; [6]; [15]; [11]; [10]; [2]; [4]; [7]; [9]] [] = [p] ->
    y i = 0c \/ (lag e b i = 0 /\ y i = csum (fun q => cmul (fst q w) (y (snd q))) (combine (nth p _ []) (seq 0 16))))
    by (intros i p Hi Hp0 Hp; destruct (Nat.eq_dec (lag e b i) 0) as [Z|Z]; [right; split; [exact Z|]; rewrite <- (Tab p Hp0); exact (YE i p Hi Hp Z)|left; exact (Y0 i Z)]).
  destruct G1 as (G11 & G12 & G13 & G14). destruct G2 as (G21 & G22 & G23 & G24).
  destruct C1 as ((c1 & c2 & c3 & c4) & (c5 & c6 & c7 & c8) & (c9 & c10 & c11 & c12) & (c13 & c14 & c15 & c16)).
  destruct C2 as ((d1 & d2 & d3 & d4) & (d5 & d6 & d7 & d8) & (d9 & d10 & d11 & d12) & (d13 & d14 & d15 & d16)).
  Ltac expand Q := cbn [nth app repeat seq combine lsum fold_right fst snd] in Q; change (0%R, 0%R) with (c0 0%R) in Q.
  assert (y1 : y 1 = 0c) by (destruct (E 1 0 ltac:(lia) ltac:(lia) eq_refl) as [Q|[_ Q]]; [exact Q|expand Q; rewrite Q; ring]).
  assert (y2 : y 2 = 0c) by (destruct (E 2 12 ltac:(lia) ltac:(lia) eq_refl) as [Q|[_ Q]]; [exact Q|expand Q; rewrite Q; ring]).
  assert (y9 : y 9 = 0c) by (destruct (E 9 15 ltac:(lia) ltac:(lia) eq_refl) as [Q|[_ Q]]; [exact Q|expand Q; rewrite Q; ring]).
  assert (y10 : y 10 = 0c) by (destruct (E 10 11 ltac:(lia) ltac:(lia) eq_refl) as [Q|[_ Q]]; [exact Q|expand Q; rewrite Q; ring]).
  pose proof (L 5 ltac:(lia)) as L5. pose proof (L 6 ltac:(lia)) as L6. pose proof (L 13 ltac:(lia)) as L13. pose proof (L 14 ltac:(lia)) as L14. cbn [nth orb] in L5, L6, L13, L14.
  assert (F : y 5 = 0c /\ y 4 = 0c /\ y 14 = 0c /\ y 8 = 0c).
  { apply cycle with (c1 := t1) (c2 := g2) (c3 := t2) (c4 := g1).
    - destruct (E 5 3 ltac:(lia) ltac:(lia) eq_refl) as [Q|[Z Q]]; [left; exact Q|right]. expand Q. rewrite Q, c9, c10, c11, c12, y1. ring.
    - destruct (E 4 13 ltac:(lia) ltac:(lia) eq_refl) as [Q|[Z Q]]; [left; exact Q|right]. expand Q. rewrite Q, G21, G23. ring.
    - destruct (E 14 7 ltac:(lia) ltac:(lia) eq_refl) as [Q|[Z Q]]; [left; exact Q|right]. expand Q. rewrite Q, d1, d2, d3, d4, y9. ring.
    - destruct (E 8 6 ltac:(lia) ltac:(lia) eq_refl) as [Q|[Z Q]]; [left; exact Q|right]. expand Q. rewrite Q, G12, G14. ring.
    - destruct Res as [Res|Res]; [|right; right; replace (cmul (cmul t1 g2) (cmul t2 g1)) with (cmul (cmul t1 t2) (cmul g1 g2)) by ring; exact Res].
      destruct (Nat.eq_dec (steps e q1) 0) as [Z|Z]; [right; left; apply Y0; lia|left; apply Y0; lia]. }
  assert (G : y 13 = 0c /\ y 3 = 0c /\ y 6 = 0c /\ y 7 = 0c).
  { apply cycle with (c1 := t1) (c2 := g1) (c3 := t2) (c4 := g2).
    - destruct (E 13 4 ltac:(lia) ltac:(lia) eq_refl) as [Q|[Z Q]]; [left; exact Q|right]. expand Q. rewrite Q, c13, c14, c15, c16, y2. ring.
    - destruct (E 3 5 ltac:(lia) ltac:(lia) eq_refl) as [Q|[Z Q]]; [left; exact Q|right]. expand Q. rewrite Q, G11, G13. ring.
    - destruct (E 6 8 ltac:(lia) ltac:(lia) eq_refl) as [Q|[Z Q]]; [left; exact Q|right]. expand Q. rewrite Q, d5, d6, d7, d8, y10. ring.
    - destruct (E 7 14 ltac:(lia) ltac:(lia) eq_refl) as [Q|[Z Q]]; [left; exact Q|right]. expand Q. rewrite Q, G22, G24. ring.
    - destruct Res as [Res|Res]; [|right; right; replace (cmul (cmul t1 g1) (cmul t2 g2)) with (cmul (cmul t1 t2) (cmul g1 g2)) by ring; exact Res].
      destruct (Nat.eq_dec (steps e q1) 0) as [Z|Z]; [left; apply Y0; lia|right; left; apply Y0; lia]. }
  destruct F as (y5 & y4 & y14 & y8), G as (y13 & y3 & y6 & y7).
  assert (y0 : y 0 = 0c) by (apply Y0; rewrite (L 0 ltac:(lia)); cbn [nth orb]; lia).
  assert (y11 : y 11 = 0c) by (apply Y0; rewrite (L 11 ltac:(lia)); cbn [nth orb]; lia).
  assert (y12 : y 12 = 0c) by (apply Y0; rewrite (L 12 ltac:(lia)); cbn [nth orb]; lia).
  assert (y15 : y 15 = 0c) by (apply Y0; rewrite (L 15 ltac:(lia)); cbn [nth orb]; lia).
  intros i Hi L0. transitivity (y i); [unfold y; rewrite L0; reflexivity|]. clear Ex E L Tab YE.
  do 16 (destruct i as [|i]; [assumption|]). lia.
Qed.
End AddDrop.

(** ** C119 *)
Section Filter.
Variable c : Q.
Variable wl : nat -> R.
Variable solve : nat -> nat -> mat R -> mat R -> option (mat R).
Variable A : Type.
Variable act : A -> nat -> field R -> A * field R.
Notation forward := (forward 0%R 1%R Rplus Rmult Rminus Ropp solve act).
Notation factor := (factor wl).
Notation power := (norm2 Rplus Rmult).
Notation network k1 k2 g1 p1 g2 p2 := (adddrop (directional_coupler k1) (directional_coupler k2) (waveguide c wl g1 p1) (waveguide c wl g2 p2)).
Notation through k := (sqrt (1 - k), 0)%R.
Notation cross k := (0, sqrt k)%R.
Notation detected outs t w d col := (at_ (nth t outs (zero_field 0%R)) w d col).

(** The calls of the notebook build the filter; its three detectors show, in this order, what is dropped, what passes and what leaves where
    light could be added, and each obeys the recursion of the ring. *)
Theorem C119_adddrop (k1 k2 : R) (g1 g2 : guide) (p1 p2 : R) : (0 <= k1 <= 1)%R -> solver_sound 0%R Rplus Rmult solve ->
  exists s b, performed (network k1 k2 g1 p1 g2 p2) s /\ ns_buf s = Built b /\ num_det b = 3 /\
  forall e s0 src outs w col, w < e_num_wl e -> forward e b s0 src = Ok outs ->
    let z := cmul (factor g1 p1 w) (factor g2 p2 w) in let D1 := steps e (guide_delay c g1) in let D := D1 + steps e (guide_delay c g2) in
    let u := fun t => at_ (src t) w 0 col in
    length outs = e_num_t e /\
    drop_response (cmul (cmul (through k1) (through k2)) z) (cmul (cmul (cross k1) (cross k2)) (factor g1 p1 w)) D D1 u (fun t => detected outs t w 0 col) (e_num_t e) /\
    ring_response (through k1) (cmul (through k2) z) D u (fun t => detected outs t w 1 col) (e_num_t e) /\
    (D <> 0 \/ csub 1c (cmul (cmul (through k1) (through k2)) z) <> 0c -> forall t, t < e_num_t e -> detected outs t w 2 col = 0c).
Proof.
  intros Hk SS.
  pose (N1 := b_S (waveguide c wl g1 p1)). pose (N2 := b_S (waveguide c wl g2 p2)). pose (M1 := b_S (directional_coupler k1)). pose (M2 := b_S (directional_coupler k2)).
  destruct (@adddrop_built M1 M2 N1 N2 0%Q 0%Q (guide_delay c g1) (guide_delay c g2)) as (s & b & P & B & Np & FC & FS & FF & Rk & NA & ND & NS & Te).
  exists s, b. split; [exact P|]. split; [exact B|]. split; [exact ND|]. intros e s0 src outs w col Hw Hf z D1 D u.
  pose proof (guides_waveguide c wl g1 p1 w) as G1. pose proof (guides_waveguide c wl g2 p2 w) as G2. pose proof (couples_coupler k1 w) as C1. pose proof (couples_coupler k2 w) as C2.
  destruct (@adddrop_regular M1 M2 N1 N2 _ _ _ _ s b e w _ _ _ _ _ _ P B G1 G2 C1 C2) as [FO U].
  destruct (C16_solves_wave_equations RTheory col SS FO NA Hw U Hf) as (a & o & W & [Len Rd]).
  split; [exact Len|].
  assert (F : forall i, i < 16 -> (b_src b i, b_det b i, b_act b i, b_del b i) = nth i (map (fun i => (b_src b i, b_det b i, b_act b i, b_del b i)) (seq 0 16)) (false, false, false, 0%Q)).
  { intros i Hi. apply (@row 16 _ (fun i => (b_src b i, b_det b i, b_act b i, b_del b i))); [reflexivity|exact Hi]. }
  rewrite FF in F.
  destruct (@adddrop_waves M1 M2 N1 N2 _ _ _ _ s b e w (e_num_t e) _ a o _ _ _ _ _ _ P B G1 G2 C1 C2 (steps_zero e) (steps_zero e) (lossless_coupler Hk) W) as (H12 & H11 & H15).
  { intros t i Hi H0. unfold injected. specialize (F i Hi). do 16 (destruct i as [|i]; [cbn [nth] in F; injection F as -> _ _ _; try reflexivity; contradiction|]). lia. }
  assert (S0 : forall t, injected 0%R b src w col t 0 = u t).
  { intros t. unfold injected. specialize (F 0 ltac:(lia)). cbn [nth] in F. injection F as -> _ _ _. reflexivity. }
  assert (Det : b_det b 11 = true /\ b_det b 12 = true /\ b_det b 15 = true).
  { pose proof (F 11 ltac:(lia)) as X. pose proof (F 12 ltac:(lia)) as Y. pose proof (F 15 ltac:(lia)) as Z. cbn [nth] in X, Y, Z.
    injection X as _ -> _ _. injection Y as _ -> _ _. injection Z as _ -> _ _. repeat split. }
  destruct Det as (T11 & T12 & T15). cbn [map] in Rk. injection Rk as R11 R12 R15.
  assert (Det0 : forall t, t < e_num_t e -> detected outs t w 0 col = a t 11) by (intros t Ht; pose proof (Rd t 11 Ht ltac:(lia) T11) as X; rewrite R11 in X; exact X).
  assert (Det1 : forall t, t < e_num_t e -> detected outs t w 1 col = a t 12) by (intros t Ht; pose proof (Rd t 12 Ht ltac:(lia) T12) as X; rewrite R12 in X; exact X).
  assert (Det2 : forall t, t < e_num_t e -> detected outs t w 2 col = a t 15) by (intros t Ht; pose proof (Rd t 15 Ht ltac:(lia) T15) as X; rewrite R15 in X; exact X).
  assert (SU : forall d t, t < e_num_t e -> later d u t = later d (fun t => injected 0%R b src w col t 0) t).
  { intros d t Ht. apply later_ext with (T := e_num_t e); [|exact Ht]. intros t' _. symmetry. apply S0. }
  split; [|split].
  - intros t Ht. rewrite (Det0 t Ht), (later_ext _ Det0 Ht), (SU _ _ Ht). exact (H11 t Ht).
  - intros t Ht. rewrite (Det1 t Ht), (later_ext _ Det1 Ht), (SU _ _ Ht), <- S0. exact (H12 t Ht).
  - intros HD t Ht. rewrite (Det2 t Ht). exact (H15 HD t Ht).
Qed.

Theorem C119_runs (k1 k2 : R) (g1 g2 : guide) (p1 p2 : R) s b e s0 src : solver_complete 0%R Rplus Rmult solve ->
  performed (network k1 k2 g1 p1 g2 p2) s -> ns_buf s = Built b -> timed e ->
  (forall w, w < e_num_wl e -> steps e (guide_delay c g1) + steps e (guide_delay c g2) <> 0 \/
    csub 1c (cmul (cmul (through k1) (through k2)) (cmul (factor g1 p1 w) (factor g2 p2 w))) <> 0c) ->
  exists outs, forward e b s0 src = Ok outs.
Proof.
  intros SC P B Ti H.
  pose (N1 := b_S (waveguide c wl g1 p1)). pose (N2 := b_S (waveguide c wl g2 p2)). pose (M1 := b_S (directional_coupler k1)). pose (M2 := b_S (directional_coupler k2)).
  destruct (@adddrop_built M1 M2 N1 N2 0%Q 0%Q (guide_delay c g1) (guide_delay c g2)) as (s' & b' & P' & B' & _ & _ & _ & _ & _ & _ & ND & _ & Te).
  assert (s = s') by (eapply performed_once; eassumption). subst s'. rewrite B in B'. injection B' as <-.
  destruct (@C30_succeeds_partial R 0%R 1%R Rplus Rmult Rminus Ropp solve A act RTheory e b s0 src SC Ti) as (outs & Ho & _).
  - exact (proj1 (@adddrop_regular M1 M2 N1 N2 _ _ _ _ s b e 0 _ _ _ _ _ _ P B (guides_waveguide c wl g1 p1 0) (guides_waveguide c wl g2 p2 0) (couples_coupler k1 0) (couples_coupler k2 0))).
  - exact Te.
  - rewrite ND. discriminate.
  - intros w Hw. split.
    + exact (proj2 (@adddrop_regular M1 M2 N1 N2 _ _ _ _ s b e w _ _ _ _ _ _ P B (guides_waveguide c wl g1 p1 w) (guides_waveguide c wl g2 p2 w) (couples_coupler k1 w) (couples_coupler k2 w))).
    + exact (@adddrop_quiet M1 M2 N1 N2 _ _ _ _ s b e w _ _ _ _ _ _ P B (guides_waveguide c wl g1 p1 w) (guides_waveguide c wl g2 p2 w) (couples_coupler k1 w) (couples_coupler k2 w)
        (steps_zero e) (steps_zero e) (H w Hw)).
  - exists outs. exact Ho.
Qed.

Lemma solve_linear (x d v : C) : x <> 0c -> cmul x d = v -> d = cdiv v x.
Proof.
  intros Hx E. unfold cdiv. rewrite <- E. transitivity (cmul (cmul (cinv x) x) d); [rewrite (Finv_l c_field _ Hx); ring|ring].
Qed.

(** In the frequency domain: [pass = (t1 - t2 z) / (1 - t1 t2 z) s] and [drop = - sqrt (k1 k2) z1 / (1 - t1 t2 z) s]. *)
Theorem C119_formula (k1 k2 : R) (g1 g2 : guide) (p1 p2 : R) s b e s0 src outs w col : (0 <= k1 <= 1)%R -> (0 <= k2 <= 1)%R -> solver_sound 0%R Rplus Rmult solve ->
  performed (network k1 k2 g1 p1 g2 p2) s -> ns_buf s = Built b -> e_freq e = true -> e_num_t e <> 0 -> w < e_num_wl e -> forward e b s0 src = Ok outs ->
  let z := cmul (factor g1 p1 w) (factor g2 p2 w) in let q := csub 1c (cmul (cmul (through k1) (through k2)) z) in
  q <> 0c ->
  detected outs 0 w 0 col = cmul (cdiv (cmul (- sqrt (k1 * k2), 0)%R (factor g1 p1 w)) q) (at_ (src 0) w 0 col) /\
  detected outs 0 w 1 col = cmul (cdiv (csub (through k1) (cmul (through k2) z)) q) (at_ (src 0) w 0 col) /\
  detected outs 0 w 2 col = 0c.
Proof.
  intros Hk Hk2 SS P B Fr Hn Hw Ho z q Nz. destruct (@C119_adddrop k1 k2 g1 g2 p1 p2 Hk SS) as (s' & b' & P' & B' & _ & H).
  assert (s = s') by (eapply performed_once; eassumption). subst s'. rewrite B in B'. injection B' as <-.
  destruct (H e s0 src outs w col Hw Ho) as (_ & Dr & Pa & Ad). fold z in Dr, Pa, Ad. rewrite !(C28_frequency_domain _ Fr) in Dr, Pa, Ad.
  specialize (Dr 0 ltac:(lia)). specialize (Pa 0 ltac:(lia)). change (0 + 0) with 0 in Dr, Pa. rewrite !later_0 in Dr, Pa.
  assert (Kk : cmul (cross k1) (cross k2) = (- sqrt (k1 * k2), 0)%R).
  { rewrite sqrt_mult by lra. unfold SimAlg.cmul. cbn [fst snd]. f_equal; ring. }
  rewrite Kk in Dr. split; [|split].
  - transitivity (cdiv (cmul (cmul (- sqrt (k1 * k2), 0)%R (factor g1 p1 w)) (at_ (src 0) w 0 col)) q); [|unfold cdiv; ring]. apply (solve_linear Nz). unfold q.
    set (d := detected outs 0 w 0 col) in *. transitivity (csub d (cmul (cmul (cmul (through k1) (through k2)) z) d)); [ring|rewrite Dr at 1; ring].
  - transitivity (cdiv (cmul (csub (through k1) (cmul (through k2) z)) (at_ (src 0) w 0 col)) q); [|unfold cdiv; ring]. apply (solve_linear Nz). unfold q.
    set (d := detected outs 0 w 1 col) in *. transitivity (csub d (cmul (cmul (cmul (through k1) (through k2)) z) d)); [ring|rewrite Pa at 1; ring].
  - apply Ad; [right; exact Nz|lia].
Qed.

Lemma power_cdiv x y : y <> 0c -> (power (cdiv x y) * power y = power x)%R.
Proof. intros H. rewrite <- power_mul. f_equal. unfold cdiv. transitivity (cmul x (cmul (cinv y) y)); [ring|rewrite (Finv_l c_field _ H); ring]. Qed.

(** Without loss every bit of power either passes or is dropped. *)
Theorem C119_conserved (k1 k2 : R) (g1 g2 : guide) (p1 p2 : R) s b e s0 src outs w col : (0 < k1 <= 1)%R -> (0 <= k2 <= 1)%R -> solver_sound 0%R Rplus Rmult solve ->
  performed (network k1 k2 g1 p1 g2 p2) s -> ns_buf s = Built b -> e_freq e = true -> e_num_t e <> 0 -> w < e_num_wl e -> forward e b s0 src = Ok outs ->
  g_loss g1 = 0%R -> g_loss g2 = 0%R ->
  (power (detected outs 0%nat w 0%nat col) + power (detected outs 0%nat w 1%nat col) = power (at_ (src 0%nat) w 0%nat col))%R.
Proof.
  intros Hk Hk2 SS P B Fr Hn Hw Ho L1 L2.
  set (z := cmul (factor g1 p1 w) (factor g2 p2 w)). set (q := csub 1c (cmul (cmul (through k1) (through k2)) z)).
  assert (P1 : power (factor g1 p1 w) = 1%R) by (unfold PropExample.factor; rewrite power_polar, lossless_guide by assumption; ring).
  assert (P2 : power (factor g2 p2 w) = 1%R) by (unfold PropExample.factor; rewrite power_polar, lossless_guide by assumption; ring).
  assert (Pz : power z = 1%R) by (unfold z; rewrite power_mul, P1, P2; ring).
  pose proof (sqrt_pos (1 - k1)) as T1. pose proof (sqrt_pos (1 - k2)) as T2. pose proof (sqrt_sqrt (1 - k1) ltac:(lra)) as S1. pose proof (sqrt_sqrt (1 - k2) ltac:(lra)) as S2.
  set (t1 := sqrt (1 - k1)) in *. set (t2 := sqrt (1 - k2)) in *.
  assert (Et : cmul (t1, 0%R) (t2, 0%R) = ((t1 * t2)%R, 0%R)) by (unfold SimAlg.cmul; cbn [fst snd]; f_equal; ring).
  assert (Nz : q <> 0c).
  { unfold q. rewrite Et. apply subunit; [nra| |lra]. assert (t1 < 1)%R by nra. assert (t2 <= 1)%R by nra. nra. }
  destruct (@C119_formula k1 k2 g1 g2 p1 p2 s b e s0 src outs w col ltac:(lra) Hk2 SS P B Fr Hn Hw Ho Nz) as (E0 & E1 & _).
  rewrite E0, E1, !power_mul. fold z t1 t2. rewrite Et. fold (c1 0%R 1%R). unfold q in *. rewrite Et in Nz. set (qq := csub 1c (cmul ((t1 * t2)%R, 0%R) z)) in *.
  set (u := power (at_ (src 0) w 0 col)).
  pose proof (power_cdiv (cmul ((- sqrt (k1 * k2))%R, 0%R) (factor g1 p1 w)) Nz) as X. pose proof (power_cdiv (csub (t1, 0%R) (cmul (t2, 0%R) z)) Nz) as Y.
  assert (Q0 : (0 < power qq)%R).
  { pose proof (norm2_nonneg qq). destruct (Req_dec (power qq) 0) as [Z|Z]; [|lra]. exfalso. apply (cnorm0 Nz). exact Z. }
  assert (V : (power (cmul ((- sqrt (k1 * k2))%R, 0%R) (factor g1 p1 w)) + power (csub (t1, 0%R) (cmul (t2, 0%R) z)) = power qq)%R).
  { rewrite power_mul, P1. pose proof (sqrt_sqrt (k1 * k2) ltac:(nra)) as Sk. unfold qq. destruct z as [zx zy]. unfold norm2, SimAlg.csub, SimAlg.cmul, c1 in *. cbn [fst snd] in *.
    set (r := sqrt (k1 * k2)) in *. 
    transitivity (r * r + t1 * t1 - 2 * t1 * t2 * zx + t2 * t2 * (zx * zx + zy * zy))%R; [ring|].
    transitivity (1 - 2 * t1 * t2 * zx + (t1 * t1) * (t2 * t2) * (zx * zx + zy * zy))%R; [|ring]. rewrite Sk, Pz, S1, S2. ring. }
  apply (Rmult_eq_reg_r (power qq)); [|lra].
  rewrite Rmult_plus_distr_r. transitivity (u * (power (cdiv (cmul ((- sqrt (k1 * k2))%R, 0%R) (factor g1 p1 w)) qq) * power qq + power (cdiv (csub (t1, 0%R) (cmul (t2, 0%R) z)) qq) * power qq))%R; [ring|].
  rewrite X, Y, V. ring.
Qed.

(** With equal couplers and no loss, everything is dropped on resonance. *)
Theorem C119_resonance (k : R) (g1 g2 : guide) (p1 p2 : R) s b e s0 src outs w col : (0 < k <= 1)%R -> solver_sound 0%R Rplus Rmult solve ->
  performed (network k k g1 p1 g2 p2) s -> ns_buf s = Built b -> e_freq e = true -> e_num_t e <> 0 -> w < e_num_wl e -> forward e b s0 src = Ok outs ->
  cmul (factor g1 p1 w) (factor g2 p2 w) = 1c ->
  detected outs 0 w 1 col = 0c /\ detected outs 0 w 0 col = copp (cmul (factor g1 p1 w) (at_ (src 0) w 0 col)).
Proof.
  intros Hk SS P B Fr Hn Hw Ho E.
  pose proof (sqrt_pos (1 - k)) as T1. pose proof (sqrt_sqrt (1 - k) ltac:(lra)) as S1.
  assert (Eq : csub 1c (cmul (cmul (through k) (through k)) 1c) = (k, 0%R)).
  { unfold SimAlg.csub, SimAlg.cmul, c1. cbn [fst snd]. f_equal; [|ring]. set (t := sqrt (1 - k)) in *. transitivity (1 - t * t)%R; [ring|rewrite S1; ring]. }
  assert (Nz : csub 1c (cmul (cmul (through k) (through k)) (cmul (factor g1 p1 w) (factor g2 p2 w))) <> 0c).
  { rewrite E, Eq. intros X. apply (f_equal fst) in X. cbn in X. lra. }
  destruct (@C119_formula k k g1 g2 p1 p2 s b e s0 src outs w col ltac:(lra) ltac:(lra) SS P B Fr Hn Hw Ho Nz) as (E0 & E1 & _).
  rewrite E0, E1, E, Eq. rewrite sqrt_square by lra. split.
  - replace (csub (through k) (cmul (through k) 1c)) with (c0 0%R) by ring. unfold cdiv. ring.
  - replace (- k, 0)%R with (copp (k, 0%R)) by (unfold SimAlg.copp; cbn [fst snd]; f_equal; ring). unfold cdiv.
    assert (K0 : (k, 0%R) <> 0c) by (intros X; apply (f_equal fst) in X; cbn in X; lra).
    transitivity (copp (cmul (cmul (cmul (cinv (k, 0%R)) (k, 0%R)) (factor g1 p1 w)) (at_ (src 0) w 0 col))); [ring|rewrite (Finv_l c_field _ K0); ring].
Qed.
Lemma drop_build_up (z h : C) L D (U lim : C) u y T : drop_response z h L D u y T -> 0 < L -> (forall t, u t = U) -> cmul (csub 1c z) lim = cmul h U ->
  (forall t, t < T -> t < D -> y t = 0c) /\
  forall n r, r < L -> D + n * L + r < T -> y (D + n * L + r) = cadd lim (cmul (rounds z n) (csub (cmul h U) lim)).
Proof.
  intros H HL HU Hlim.
  assert (Z : forall t, t < T -> t < D -> y t = 0c).
  { intros t. induction t as [t IH] using lt_wf_ind. intros Ht HD. rewrite (H t Ht). unfold later. destruct (Nat.ltb_spec t D); [|lia].
    destruct (Nat.ltb_spec t L); [ring|]. rewrite IH by lia. ring. }
  split; [exact Z|]. induction n as [|n IH]; intros r Hr Ht.
  - cbn [Nat.mul] in *. rewrite Nat.add_0_r in *. rewrite (H _ Ht). unfold later. destruct (Nat.ltb_spec (D + r) D); [lia|]. rewrite HU. cbn [rounds].
    destruct (Nat.ltb_spec (D + r) L); [ring|]. rewrite Z by lia. ring.
  - rewrite (H _ Ht). unfold later. destruct (Nat.ltb_spec (D + Datatypes.S n * L + r) D); [lia|]. destruct (Nat.ltb_spec (D + Datatypes.S n * L + r) L); [lia|].
    rewrite HU. replace (D + Datatypes.S n * L + r - L) with (D + n * L + r) by lia. rewrite (IH r Hr) by lia. cbn [rounds]. set (e := cmul (rounds z n) (csub (cmul h U) lim)).
    assert (El : cadd (cmul z lim) (cmul h U) = lim) by (rewrite <- Hlim; ring).
    transitivity (cadd (cmul z e) (cadd (cmul z lim) (cmul h U))); [ring|rewrite El; unfold e; ring].
Qed.

(** A source of constant amplitude in the time domain: both detectors show staircases with one step per round trip; what is dropped arrives
    after half a round. *)
Theorem C119_build_up (k1 k2 : R) (g1 g2 : guide) (p1 p2 : R) s b e s0 src outs w col (x : C) : (0 <= k1 <= 1)%R -> solver_sound 0%R Rplus Rmult solve ->
  performed (network k1 k2 g1 p1 g2 p2) s -> ns_buf s = Built b -> w < e_num_wl e -> forward e b s0 src = Ok outs -> (forall t, at_ (src t) w 0 col = x) ->
  let z := cmul (factor g1 p1 w) (factor g2 p2 w) in let y := cmul (cmul (through k1) (through k2)) z in let q := csub 1c y in
  let D := steps e (guide_delay c g1) in let L := D + steps e (guide_delay c g2) in
  let h := cmul (cmul (cross k1) (cross k2)) (factor g1 p1 w) in
  let dropped := cmul (cdiv h q) x in let passed := cmul (cdiv (csub (through k1) (cmul (through k2) z)) q) x in
  q <> 0c -> L <> 0 ->
  (forall t, t < e_num_t e -> t < D -> detected outs t w 0 col = 0c) /\
  (forall n r, r < L -> D + n * L + r < e_num_t e -> detected outs (D + n * L + r) w 0 col = cadd dropped (cmul (rounds y n) (csub (cmul h x) dropped))) /\
  (forall n r, r < L -> n * L + r < e_num_t e -> detected outs (n * L + r) w 1 col = cadd passed (cmul (rounds y n) (csub (cmul (through k1) x) passed))).
Proof.
  intros Hk SS P B Hw Ho Hx z y q D L h dropped passed Nz HL. destruct (@C119_adddrop k1 k2 g1 g2 p1 p2 Hk SS) as (s' & b' & P' & B' & _ & H).
  assert (s = s') by (eapply performed_once; eassumption). subst s'. rewrite B in B'. injection B' as <-.
  destruct (H e s0 src outs w col Hw Ho) as (_ & Dr & Pa & _). fold z D L in Dr, Pa. fold y h in Dr.
  destruct (@drop_build_up y h L D x dropped _ (fun t => detected outs t w 0 col) (e_num_t e) Dr ltac:(lia) Hx) as [D0 D1].
  { fold q. unfold dropped, cdiv. transitivity (cmul (cmul (cmul (cinv q) q) h) x); [ring|rewrite (Finv_l c_field _ Nz); ring]. }
  assert (Ey : cmul (through k1) (cmul (through k2) z) = y) by (unfold y; ring).
  destruct (@ring_build_up (through k1) (cmul (through k2) z) L 0 x passed _ (fun t => detected outs t w 1 col) (e_num_t e) Pa ltac:(lia)) as [_ P1].
  { intros t _. apply Hx. }
  { rewrite Ey. fold q. unfold passed, cdiv. transitivity (cmul (cmul (cmul (cinv q) q) (csub (through k1) (cmul (through k2) z))) x); [ring|rewrite (Finv_l c_field _ Nz); ring]. }
  rewrite Ey in P1. split; [exact D0|]. split; [exact D1|exact P1].
Qed.
End Filter.
Print Assumptions C119_adddrop.
Print Assumptions C119_runs.
Print Assumptions C119_formula.
Print Assumptions C119_conserved.
Print Assumptions C119_resonance.
Print Assumptions C119_build_up.

(** ** Examples *)
(** A filter as in the notebook: simulations exist, and all power passes or is dropped. *)
Example C119_ex (lambda : R) (src : nat -> field R) : exists s b outs,
  performed (adddrop (directional_coupler (3 / 10)) (directional_coupler (3 / 10)) (waveguide 300%Q (fun _ => lambda) (notebook_guide 25) 0)
    (waveguide 300%Q (fun _ => lambda) (notebook_guide 25) 0)) s /\ ns_buf s = Built b /\
  forward 0%R 1%R Rplus Rmult Rminus Ropp rsolve ract one_shot b tt src = Ok outs /\
  (norm2 Rplus Rmult (at_ (nth 0%nat outs (zero_field 0)) 0%nat 0%nat 0%nat) + norm2 Rplus Rmult (at_ (nth 0%nat outs (zero_field 0)) 0%nat 1%nat 0%nat) = norm2 Rplus Rmult (at_ (src 0%nat) 0%nat 0%nat 0%nat))%R.
Proof.
  assert (SS : solver_sound 0%R Rplus Rmult rsolve) by exact (gauss_sound Rfield reqb_eq).
  assert (SC : solver_complete 0%R Rplus Rmult rsolve) by exact (gauss_complete Rfield reqb_eq).
  set (g := notebook_guide 25).
  destruct (@C119_adddrop 300%Q (fun _ => lambda) rsolve unit ract (3/10)%R (3/10)%R g g 0%R 0%R ltac:(lra) SS) as (s & b & P & B & _).
  assert (Q : forall w, w < e_num_wl one_shot -> steps one_shot (guide_delay 300 g) + steps one_shot (guide_delay 300 g) <> 0 \/
    csub 1c (cmul (cmul (sqrt (1 - 3 / 10), 0%R) (sqrt (1 - 3 / 10), 0%R)) (cmul (factor (fun _ => lambda) g 0 w) (factor (fun _ => lambda) g 0 w))) <> 0c).
  { intros w _. right. assert (Et : cmul (sqrt (1 - 3 / 10), 0%R) (sqrt (1 - 3 / 10), 0%R) = ((7 / 10)%R, 0%R)).
    { pose proof (sqrt_sqrt (1 - 3 / 10) ltac:(lra)) as E2. unfold SimAlg.cmul. cbn [fst snd]. f_equal; [rewrite E2; lra|ring]. }
    rewrite Et. apply subunit; [lra|lra|]. rewrite power_mul. unfold factor. rewrite power_polar, lossless_guide by reflexivity. lra. }
  destruct (@C119_runs 300%Q (fun _ => lambda) rsolve unit ract (3/10)%R (3/10)%R g g 0%R 0%R s b one_shot tt src SC P B (or_introl eq_refl) Q) as (outs & Ho).
  exists s, b, outs. split; [exact P|]. split; [exact B|]. split; [exact Ho|].
  exact (@C119_conserved 300%Q (fun _ => lambda) rsolve unit ract (3/10)%R (3/10)%R g g 0%R 0%R s b one_shot tt src outs 0 0 ltac:(lra) ltac:(lra) SS P B eq_refl ltac:(discriminate) ltac:(cbn; lia) Ho eq_refl eq_refl).
Qed.
