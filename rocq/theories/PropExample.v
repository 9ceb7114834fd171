(** Property C118: the filters of the examples respond as their formulas say. *)
From Coq Require Import QArith Reals Qreals Lra Lia Psatz Field.
From Verif Require Import Base NetModel NetSpec SimModel SimAlg SimSpec SimProofs RingExample CompModel CompSpec CompProofs Deriv SimDelay Gauss PropSim PropEnergy ExampleModel.
Set Implicit Arguments.
Unset Strict Implicit.
Local Open Scope list_scope.
Local Open Scope nat_scope.

(** ** Specification *)
(** The signal [d] steps later; nothing happened before the simulation started. *)
Definition later (d : nat) (f : nat -> C) (t : nat) : C := if t <? d then 0c else f (t - d).
(** A ring with through coupling [tau] (field), [z] per round and [L] steps per round. *)
Definition ring_response (tau z : C) (L : nat) (u y : nat -> C) (T : nat) : Prop := forall t, t < T ->
  y t = cadd (cmul (cmul tau z) (later L y t)) (csub (cmul tau (u t)) (cmul z (later L u t))).

(** ** Reading off tables *)
Section Tables.
Variables (b : net R) (n : nat).
Lemma sum_table i w (X : nat -> C) l :
  csum (fun j => cmul (b_S b i j w) (X j)) l = csum (fun p => cmul (fst p w) (X (snd p))) (combine (map (b_S b i) l) l).
Proof. induction l as [|j l IH]; [reflexivity|]. cbn [map combine]. rewrite !lsum_cons, IH. reflexivity. Qed.
Lemma row A (f : nat -> A) (tab : list A) d i : map f (seq 0 n) = tab -> i < n -> f i = nth i tab d.
Proof. intros <- H. rewrite (nth_indep _ d (f 0)) by (rewrite map_length, seq_length; exact H). rewrite map_nth, seq_nth by exact H. reflexivity. Qed.
Lemma partner i p (o : nat -> C) : filter (b_C b i) (seq 0 n) = [p] -> csum (fun j => if b_C b i j then o j else 0c) (seq 0 n) = o p.
Proof.
  intros H. transitivity (csum o (filter (b_C b i) (seq 0 n))); [|rewrite H; rewrite lsum_cons, lsum_nil; ring]. generalize (seq 0 n) as l.
  induction l as [|j l IH]; [reflexivity|]. cbn [filter]. rewrite lsum_cons. destruct (b_C b i j); [rewrite lsum_cons|]; rewrite IH; ring.
Qed.
End Tables.

(** All calls succeed and leave this network. *)
Definition performed (cs : calls) (s : nstate (nat -> C) Q) : Prop := accepted (nstep (fun _ => (0, 0)%R) 0%Q) (ns_empty _ _) cs s.
Lemma performed_once cs s s' : performed cs s -> performed cs s' -> s = s'.
Proof.
  unfold performed. generalize (ns_empty (nat -> C) Q). induction cs as [|o cs IH]; intros r H H'; inversion H; inversion H'; subst; [reflexivity|].
  match goal with A : nstep _ _ _ _ = (?x, None), B : nstep _ _ _ _ = (?y, None) |- _ => assert (x = y) by congruence; subst y end.
  eapply IH; eassumption.
Qed.

Lemma later_past (a : nat -> nat -> C) d t j : past 0%R a d t j = later d (fun t => a t j) t.
Proof. reflexivity. Qed.
Lemma later_0 f t : later 0 f t = f t.
Proof. unfold later. cbn. f_equal. lia. Qed.
Lemma later_add a b f t : later a (later b f) t = later (a + b) f t.
Proof. unfold later. destruct (Nat.ltb_spec t a), (Nat.ltb_spec t (a + b)); try lia; [reflexivity| |]; destruct (Nat.ltb_spec (t - a) b); try lia; [reflexivity|f_equal; lia]. Qed.
Lemma later_ext d f g t T : (forall t, t < T -> f t = g t) -> t < T -> later d f t = later d g t.
Proof. intros H L. unfold later. destruct (t <? d); [reflexivity|apply H; lia]. Qed.
Lemma later_mul d z f t : later d (fun t => cmul z (f t)) t = cmul z (later d f t).
Proof. unfold later. destruct (t <? d); [ring|reflexivity]. Qed.
Lemma later_addc d f g t : later d (fun t => cadd (f t) (g t)) t = cadd (later d f t) (later d g t).
Proof. unfold later. destruct (t <? d); [ring|reflexivity]. Qed.
Lemma later_subc d f g t : later d (fun t => csub (f t) (g t)) t = csub (later d f t) (later d g t).
Proof. unfold later. destruct (t <? d); [ring|reflexivity]. Qed.

Lemma cancel (x v : C) : x <> 0c -> cmul x v = 0c -> v = 0c.
Proof. intros H E. transitivity (cmul (cmul (cinv x) x) v); [rewrite (Finv_l c_field x H); ring|transitivity (cmul (cinv x) (cmul x v)); [ring|rewrite E; ring]]. Qed.

(** What the two kinds of parts do. *)
Definition guides (M : smat) (w : nat) (z : C) : Prop := M 0 0 w = 0c /\ M 1 1 w = 0c /\ M 0 1 w = z /\ M 1 0 w = z.
Definition couples (M : smat) (w : nat) (tau kap : C) : Prop :=
  (M 0 0 w = 0c /\ M 0 1 w = tau /\ M 0 2 w = kap /\ M 0 3 w = 0c) /\ (M 1 0 w = tau /\ M 1 1 w = 0c /\ M 1 2 w = 0c /\ M 1 3 w = kap) /\
  (M 2 0 w = kap /\ M 2 1 w = 0c /\ M 2 2 w = 0c /\ M 2 3 w = tau) /\ (M 3 0 w = 0c /\ M 3 1 w = kap /\ M 3 2 w = tau /\ M 3 3 w = 0c).

Notation zz := (fun _ : nat => (0, 0)%R).
(** What the ring does: [x] enters the ring, [v] comes back. *)
Lemma ring_solution (tau kap z : C) L u y x v T : csub (cmul tau tau) (cmul kap kap) = 1c ->
  (forall t, t < T -> y t = cadd (cmul tau (u t)) (cmul kap (v t))) -> (forall t, t < T -> x t = cadd (cmul kap (u t)) (cmul tau (v t))) ->
  (forall t, t < T -> v t = cmul z (later L x t)) -> ring_response tau z L u y T.
Proof.
  intros N Y X V t Ht. rewrite (Y t Ht), (V t Ht), (later_ext L X Ht), (later_ext L Y Ht), !later_addc, !later_mul.
  set (a := later L u t). set (b := later L v t).
  transitivity (cadd (cmul (cmul tau z) (cadd (cmul tau a) (cmul kap b))) (csub (cmul tau (u t)) (cmul (cmul z a) (csub (cmul tau tau) (cmul kap kap))))); [ring|rewrite N; ring].
Qed.

(** ** The all-pass filter *)
Section Allpass.
Variables Mi Md Mt Mr : smat.
Variables qi qd qt qr : Q.
Definition allpass_calls := allpass (simple 2 Mi qi) (simple 4 Md qd) (simple 2 Mt qt) (simple 2 Mr qr).
Lemma allpass_built : exists s b, performed allpass_calls s /\ ns_buf s = Built b /\ b_np b = 12 /\
  map (fun i => filter (b_C b i) (seq 0 12)) (seq 0 12) = [[1]; [0]; [3]; [2]; [7]; [10]; [11]; [4]; [9]; [8]; [5]; [6]] /\
  map (fun i => map (b_S b i) (seq 0 12)) (seq 0 12) =
   [repeat zz 12; [zz; Mi 0 0; Mi 0 1] ++ repeat zz 9; [zz; Mi 1 0; Mi 1 1] ++ repeat zz 9;
    [zz; zz; zz; Md 0 0; Md 0 1; Md 0 2; Md 0 3] ++ repeat zz 5; [zz; zz; zz; Md 1 0; Md 1 1; Md 1 2; Md 1 3] ++ repeat zz 5;
    [zz; zz; zz; Md 2 0; Md 2 1; Md 2 2; Md 2 3] ++ repeat zz 5; [zz; zz; zz; Md 3 0; Md 3 1; Md 3 2; Md 3 3] ++ repeat zz 5;
    repeat zz 7 ++ [Mt 0 0; Mt 0 1; zz; zz; zz]; repeat zz 7 ++ [Mt 1 0; Mt 1 1; zz; zz; zz]; repeat zz 12;
    repeat zz 10 ++ [Mr 0 0; Mr 0 1]; repeat zz 10 ++ [Mr 1 0; Mr 1 1]] /\
  map (fun i => (b_src b i, b_det b i, b_act b i, b_del b i)) (seq 0 12) =
   [(true, false, false, 0%Q); (false, false, false, qi); (false, false, false, qi); (false, false, false, qd); (false, false, false, qd);
    (false, false, false, qd); (false, false, false, qd); (false, false, false, qt); (false, false, false, qt); (false, true, false, 0%Q);
    (false, false, false, qr); (false, false, false, qr)] /\
  rank (b_det b) 9 = 0 /\ num_act b = 0 /\ num_det b = 1 /\ num_src b = 1 /\ terminated b = true.
Proof.
  eexists. eexists. split; [unfold performed, allpass_calls, allpass; repeat (eapply acc_cons; [vm_compute; reflexivity|]); apply acc_nil|].
  split; [reflexivity|]. repeat split; vm_compute; reflexivity.
Qed.

Lemma allpass_waves s b e w T src a o (zi zt zr tau kap : C) : performed allpass_calls s -> ns_buf s = Built b ->
  guides Mi w zi -> guides Mt w zt -> guides Mr w zr -> couples Md w tau kap -> steps e qd = 0 -> csub (cmul tau tau) (cmul kap kap) = 1c ->
  waves 0%R Rplus Rmult Rminus e b w T src a o -> (forall t i, i < 12 -> i <> 0 -> src t i = 0c) ->
  exists u y, (forall t, t < T -> u t = cmul zi (later (steps e qi) (fun t => src t 0) t)) /\ ring_response tau zr (steps e qr) u y T /\
    forall t, t < T -> a t 9 = cmul zt (later (steps e qt) y t).
Proof.
  intros P B Gi Gt Gr Cd Ld N W Z. destruct allpass_built as (s' & b' & P' & B' & Np & FC & FS & FF & _).
  assert (s = s') by (eapply performed_once; eassumption). subst s'. rewrite B in B'. injection B' as <-.
  assert (A : forall t i p, t < T -> i < 12 -> nth i [[1]; [0]; [3]; [2]; [7]; [10]; [11]; [4]; [9]; [8]; [5]; [6]] [] = [p] -> a t i = o t p).
  { intros t i p Ht Hi Hp. destruct (W t i Ht ltac:(lia)) as [E _]. rewrite E, Np. apply partner. rewrite (row [] FC Hi). exact Hp. }
  assert (O : forall t i, t < T -> i < 12 -> o t i = cadd (src t i) (csum (fun p => cmul (fst p w) (later (lag e b (snd p)) (fun t => a t (snd p)) t)) (combine (map (b_S b i) (seq 0 12)) (seq 0 12)))).
  { intros t i Ht Hi. destruct (W t i Ht ltac:(lia)) as [_ E]. rewrite E, Np, sum_table. reflexivity. }
  assert (L : forall i, i < 12 -> lag e b i = let '(x, y, z, d) := nth i (map (fun i => (b_src b i, b_det b i, b_act b i, b_del b i)) (seq 0 12)) (false, false, false, 0%Q) in
    if x || y || z then Nat.max 1 (steps e d) else steps e d).
  { intros i Hi. rewrite (nth_indep _ _ (b_src b 0, b_det b 0, b_act b 0, b_del b 0)) by (rewrite map_length, seq_length; exact Hi).
    rewrite (map_nth (fun i => (b_src b i, b_det b i, b_act b i, b_del b i))), seq_nth by exact Hi. reflexivity. }
  rewrite FF in L.
  assert (Tab : forall i, i < 12 -> map (b_S b i) (seq 0 12) = nth i (map (fun i => map (b_S b i) (seq 0 12)) (seq 0 12)) []).
  { intros i Hi. apply (@row 12 _ (fun i => map (b_S b i) (seq 0 12))); [reflexivity|exact Hi]. }
  rewrite FS in Tab. clear W FC FS FF.
  pose proof (L 1 ltac:(lia)) as L1. pose proof (L 2 ltac:(lia)) as L2. pose proof (L 3 ltac:(lia)) as L3. pose proof (L 4 ltac:(lia)) as L4. pose proof (L 5 ltac:(lia)) as L5.
  pose proof (L 6 ltac:(lia)) as L6. pose proof (L 7 ltac:(lia)) as L7. pose proof (L 8 ltac:(lia)) as L8. pose proof (L 10 ltac:(lia)) as L10. pose proof (L 11 ltac:(lia)) as L11.
  cbn [nth orb] in L1, L2, L3, L4, L5, L6, L7, L8, L10, L11. rewrite Ld in L3, L4, L5, L6.
  destruct Gi as (Gi1 & Gi2 & Gi3 & Gi4). destruct Gt as (Gt1 & Gt2 & Gt3 & Gt4). destruct Gr as (Gr1 & Gr2 & Gr3 & Gr4).
  destruct Cd as ((c1 & c2 & c3 & c4) & (c5 & c6 & c7 & c8) & (c9 & c10 & c11 & c12) & (c13 & c14 & c15 & c16)).

  assert (Out : forall t i, t < T -> i < 12 -> i <> 0 -> o t i = csum (fun p => cmul (fst p w) (later (lag e b (snd p)) (fun t => a t (snd p)) t)) (combine (nth i _ []) (seq 0 12)))
    by (intros t i Ht Hi H0; rewrite (O t i Ht Hi), (Tab i Hi), (Z t i Hi H0); ring).
  Ltac crunch Out t i Ht := rewrite (Out t i Ht ltac:(lia) ltac:(discriminate)); cbn [nth app repeat seq combine lsum fold_right fst snd]; change (0%R, 0%R) with (c0 0%R).
  assert (O0 : forall t, t < T -> o t 0 = src t 0).
  { intros t Ht. rewrite (O t 0 Ht ltac:(lia)), (Tab 0 ltac:(lia)). cbn [nth app repeat seq combine lsum fold_right fst snd]. change (0%R, 0%R) with (c0 0%R). ring. }
  assert (O2 : forall t, t < T -> o t 2 = cmul zi (later (steps e qi) (fun t => a t 1) t)) by (intros t Ht; crunch Out t 2 Ht; rewrite Gi2, Gi4, L1; ring).
  assert (O4 : forall t, t < T -> o t 4 = cadd (cmul tau (a t 3)) (cmul kap (a t 6))) by (intros t Ht; crunch Out t 4 Ht; rewrite c5, c6, c7, c8, L3, L6, !later_0; ring).
  assert (O5 : forall t, t < T -> o t 5 = cadd (cmul kap (a t 3)) (cmul tau (a t 6))) by (intros t Ht; crunch Out t 5 Ht; rewrite c9, c10, c11, c12, L3, L6, !later_0; ring).
  assert (O8 : forall t, t < T -> o t 8 = cmul zt (later (steps e qt) (fun t => a t 7) t)) by (intros t Ht; crunch Out t 8 Ht; rewrite Gt2, Gt4, L7; ring).
  assert (O11 : forall t, t < T -> o t 11 = cmul zr (later (steps e qr) (fun t => a t 10) t)) by (intros t Ht; crunch Out t 11 Ht; rewrite Gr2, Gr4, L10; ring).
  exists (fun t => a t 3), (fun t => a t 7). split; [|split].
  - intros t Ht. rewrite (A t 3 2 Ht ltac:(lia) eq_refl), (O2 t Ht). f_equal. apply later_ext with (T := T); [|exact Ht].
    intros t' Ht'. rewrite (A t' 1 0 Ht' ltac:(lia) eq_refl). apply O0. exact Ht'.
  - apply ring_solution with (kap := kap) (x := fun t => a t 10) (v := fun t => a t 6); [exact N| | |].
    + intros t Ht. rewrite (A t 7 4 Ht ltac:(lia) eq_refl). apply O4. exact Ht.
    + intros t Ht. rewrite (A t 10 5 Ht ltac:(lia) eq_refl). apply O5. exact Ht.
    + intros t Ht. rewrite (A t 6 11 Ht ltac:(lia) eq_refl). apply O11. exact Ht.
  - intros t Ht. rewrite (A t 9 8 Ht ltac:(lia) eq_refl). apply O8. exact Ht.
Qed.

Lemma allpass_regular s b e w zi zt zr tau kap : performed allpass_calls s -> ns_buf s = Built b ->
  guides Mi w zi -> guides Mt w zt -> guides Mr w zr -> couples Md w tau kap -> flags_ok b /\ unmixed 0%R e b w.
Proof.
  intros P B Gi Gt Gr Cd. destruct allpass_built as (s' & b' & P' & B' & Np & FC & FS & FF & _).
  assert (s = s') by (eapply performed_once; eassumption). subst s'. rewrite B in B'. injection B' as <-.
  assert (F : forall i, i < 12 -> (b_src b i, b_det b i, b_act b i, b_del b i) = nth i (map (fun i => (b_src b i, b_det b i, b_act b i, b_del b i)) (seq 0 12)) (false, false, false, 0%Q)).
  { intros i Hi. apply (@row 12 _ (fun i => (b_src b i, b_det b i, b_act b i, b_del b i))); [reflexivity|exact Hi]. }
  rewrite FF in F.
  assert (Tab : forall i j, i < 12 -> j < 12 -> b_S b i j = nth j (nth i (map (fun i => map (b_S b i) (seq 0 12)) (seq 0 12)) []) zz).
  { intros i j Hi Hj. rewrite <- (@row 12 _ (fun i => map (b_S b i) (seq 0 12)) _ [] i eq_refl Hi). apply (@row 12 _ (b_S b i)); [reflexivity|exact Hj]. }
  rewrite FS in Tab. clear FC FS FF. split.
  - intros i Hi. rewrite Np in Hi. specialize (F i Hi). do 12 (destruct i as [|i]; [cbn [nth] in F; injection F as -> -> -> _; intuition discriminate|]). lia.
  - intros i j Hi Hj N. rewrite Np in Hi, Hj. rewrite (Tab i j Hi Hj). pose proof (F i Hi) as Fi. pose proof (F j Hj) as Fj. unfold lag in N. clear F Tab.
    do 12 (destruct i as [|i]; [cbn [nth] in Fi; injection Fi as E1 E2 E3 E4; rewrite E1, E2, E3, E4 in N; clear E1 E2 E3 E4; do 12 (destruct j as [|j]; [cbn [nth] in Fj; injection Fj as E1 E2 E3 E4; rewrite E1, E2, E3, E4 in N; solve [reflexivity|exfalso; apply N; reflexivity]|]); lia|]). lia.
Qed.

(** Light cannot circulate without being fed unless it comes back unchanged at once. *)
Lemma allpass_quiet s b e w zi zt zr tau kap : performed allpass_calls s -> ns_buf s = Built b ->
  guides Mi w zi -> guides Mt w zt -> guides Mr w zr -> couples Md w tau kap -> steps e qd = 0 -> (steps e qr <> 0 \/ csub 1c (cmul tau zr) <> 0c) ->
  no_resonance 0%R Rplus Rmult Rminus e b w.
Proof.
  intros P B Gi Gt Gr Cd Ld Res x Ex. destruct allpass_built as (s' & b' & P' & B' & Np & FC & FS & FF & _).
  assert (s = s') by (eapply performed_once; eassumption). subst s'. rewrite B in B'. injection B' as <-. rewrite Np in Ex |- *.
  set (y := fun k => if lag e b k =? 0 then x k else 0c).
  assert (Y0 : forall i, lag e b i <> 0 -> y i = 0c) by (intros i H; unfold y; destruct (Nat.eqb_spec (lag e b i) 0); [contradiction|reflexivity]).
  assert (YE : forall i p, i < 12 -> nth i [[1]; [0]; [3]; [2]; [7]; [10]; [11]; [4]; [9]; [8]; [5]; [6]] [] = [p] -> lag e b i = 0 ->
    y i = csum (fun q => cmul (fst q w) (y (snd q))) (combine (map (b_S b p) (seq 0 12)) (seq 0 12))).
  { intros i p Hi Hp L0. unfold y at 1. rewrite L0. cbn [Nat.eqb]. rewrite (Ex i Hi L0), <- sum_table.
    rewrite (@partner b 12 i p (fun j => csum (fun k => if lag e b k =? 0 then cmul (b_S b j k w) (x k) else 0c) (seq 0 12))) by (rewrite (row [] FC Hi); exact Hp).
    apply lsum_ext. intros k _. unfold y. destruct (lag e b k =? 0); [reflexivity|ring]. }
  assert (L : forall i, i < 12 -> lag e b i = let '(x, y, z, d) := nth i (map (fun i => (b_src b i, b_det b i, b_act b i, b_del b i)) (seq 0 12)) (false, false, false, 0%Q) in
    if x || y || z then Nat.max 1 (steps e d) else steps e d).
  { intros i Hi. rewrite (nth_indep _ _ (b_src b 0, b_det b 0, b_act b 0, b_del b 0)) by (rewrite map_length, seq_length; exact Hi).
    rewrite (map_nth (fun i => (b_src b i, b_det b i, b_act b i, b_del b i))), seq_nth by exact Hi. reflexivity. }
  rewrite FF in L.
  assert (Tab : forall i, i < 12 -> map (b_S b i) (seq 0 12) = nth i (map (fun i => map (b_S b i) (seq 0 12)) (seq 0 12)) []).
  { intros i Hi. apply (@row 12 _ (fun i => map (b_S b i) (seq 0 12))); [reflexivity|exact Hi]. }
  rewrite FS in Tab.
  assert (E : forall i p, i < 12 -> p < 12 -> nth i [[1]; [0]; [3]; [2]; [7]; [10]; [11]; [4]; [9]; [8]; [5]; [6]] [] = [p] ->
    y i = 0c \/ (lag e b i = 0 /\ y i = csum (fun q => cmul (fst q w) (y (snd q))) (combine (nth p _ []) (seq 0 12))))
    by (intros i p Hi Hp0 Hp; destruct (Nat.eq_dec (lag e b i) 0) as [Z|Z]; [right; split; [exact Z|]; rewrite <- (Tab p Hp0); exact (YE i p Hi Hp Z)|left; exact (Y0 i Z)]).
  pose proof (L 10 ltac:(lia)) as L10. pose proof (L 11 ltac:(lia)) as L11. cbn [nth orb] in L10, L11.
  destruct Gi as (Gi1 & Gi2 & Gi3 & Gi4). destruct Gt as (Gt1 & Gt2 & Gt3 & Gt4). destruct Gr as (Gr1 & Gr2 & Gr3 & Gr4).
  destruct Cd as ((c1 & c2 & c3 & c4) & (c5 & c6 & c7 & c8) & (c9 & c10 & c11 & c12) & (c13 & c14 & c15 & c16)).
  Ltac expand Q := cbn [nth app repeat seq combine lsum fold_right fst snd] in Q; change (0%R, 0%R) with (c0 0%R) in Q.
  assert (y1 : y 1 = 0c) by (destruct (E 1 0 ltac:(lia) ltac:(lia) eq_refl) as [Q|[_ Q]]; [exact Q|expand Q; rewrite Q; ring]).
  assert (y8 : y 8 = 0c) by (destruct (E 8 9 ltac:(lia) ltac:(lia) eq_refl) as [Q|[_ Q]]; [exact Q|expand Q; rewrite Q; ring]).
  assert (y3 : y 3 = 0c) by (destruct (E 3 2 ltac:(lia) ltac:(lia) eq_refl) as [Q|[_ Q]]; [exact Q|expand Q; rewrite Q, Gi2, y1; ring]).
  assert (y4 : y 4 = 0c) by (destruct (E 4 7 ltac:(lia) ltac:(lia) eq_refl) as [Q|[_ Q]]; [exact Q|expand Q; rewrite Q, Gt1, y8; ring]).
  assert (Round : forall v u, (v = 0c \/ (steps e qr = 0 /\ v = cmul tau u)) -> (u = 0c \/ u = cmul zr v) -> v = 0c /\ u = 0c).
  { intros v u [->|[Z V]] [->|U].
    - split; reflexivity.
    - split; [reflexivity|rewrite U; ring].
    - split; [rewrite V; ring|reflexivity].
    - destruct Res as [Res|Res]; [contradiction|]. assert (Z0 : v = 0c). { apply (cancel Res). rewrite U in V. transitivity (csub v (cmul tau (cmul zr v))); [ring|rewrite <- V; ring]. }
      split; [exact Z0|rewrite U, Z0; ring]. }
  assert (F : y 10 = 0c /\ y 6 = 0c).
  { apply Round.
    - destruct (E 10 5 ltac:(lia) ltac:(lia) eq_refl) as [Q|[Z Q]]; [left; exact Q|right; split; [congruence|]]. expand Q. rewrite Q, c9, c10, c11, c12, y3. ring.
    - destruct (E 6 11 ltac:(lia) ltac:(lia) eq_refl) as [Q|[Z Q]]; [left; exact Q|right]. expand Q. rewrite Q, Gr2, Gr4. ring. }
  assert (G : y 11 = 0c /\ y 5 = 0c).
  { apply Round.
    - destruct (E 11 6 ltac:(lia) ltac:(lia) eq_refl) as [Q|[Z Q]]; [left; exact Q|right; split; [congruence|]]. expand Q. rewrite Q, c13, c14, c15, c16, y4. ring.
    - destruct (E 5 10 ltac:(lia) ltac:(lia) eq_refl) as [Q|[Z Q]]; [left; exact Q|right]. expand Q. rewrite Q, Gr1, Gr3. ring. }
  destruct F as [y10 y6], G as [y11 y5].
  assert (y0 : y 0 = 0c) by (destruct (E 0 1 ltac:(lia) ltac:(lia) eq_refl) as [Q|[Z Q]]; [exact Q|rewrite (L 0 ltac:(lia)) in Z; cbn [nth orb] in Z; lia]).
  assert (y9 : y 9 = 0c) by (destruct (E 9 8 ltac:(lia) ltac:(lia) eq_refl) as [Q|[Z Q]]; [exact Q|rewrite (L 9 ltac:(lia)) in Z; cbn [nth orb] in Z; lia]).
  assert (y7 : y 7 = 0c) by (destruct (E 7 4 ltac:(lia) ltac:(lia) eq_refl) as [Q|[_ Q]]; [exact Q|expand Q; rewrite Q, c6, c7, y3, y6; ring]).
  assert (y2 : y 2 = 0c) by (destruct (E 2 3 ltac:(lia) ltac:(lia) eq_refl) as [Q|[_ Q]]; [exact Q|expand Q; rewrite Q, c1, c4, y4, y5; ring]).
  intros i Hi L0. transitivity (y i); [unfold y; rewrite L0; reflexivity|]. clear Ex E L.
  do 12 (destruct i as [|i]; [assumption|]). lia.
Qed.
End Allpass.

Lemma ring_later tau z L u y d x T : ring_response tau z L u y T ->
  ring_response tau z L (fun t => cmul x (later d u t)) (fun t => cmul x (later d y t)) T.
Proof.
  intros H t Ht. rewrite !later_mul, !later_add, (Nat.add_comm L d), <- !later_add. rewrite (later_ext d H Ht), later_addc, later_subc, !later_mul. ring.
Qed.

Lemma steps_zero e : steps e 0 = 0.
Proof.
  unfold steps. destruct (e_dt e) as [[n d]|]; [|reflexivity]. replace (if e_freq e then 0%Q else 0%Q) with 0%Q by (destruct (e_freq e); reflexivity).
  unfold long, Qdiv, Qmult, Qinv, Qplus. destruct n as [|n|n]; cbn; [reflexivity| |]; rewrite Z.quot_small; auto; lia.
Qed.

(** A constant signal that is switched on after [D] steps builds up in a staircase, one step per round. *)
Fixpoint rounds (x : C) (n : nat) : C := match n with O => 1c | Datatypes.S n => cmul x (rounds x n) end.
Lemma ring_build_up (tau z : C) L D (U lim : C) u y T : ring_response tau z L u y T -> 0 < L -> (forall t, t < T -> u t = if t <? D then 0c else U) ->
  cmul (csub 1c (cmul tau z)) lim = cmul (csub tau z) U ->
  (forall t, t < T -> t < D -> y t = 0c) /\
  forall n r, r < L -> D + n * L + r < T -> y (D + n * L + r) = cadd lim (cmul (rounds (cmul tau z) n) (csub (cmul tau U) lim)).
Proof.
  intros H HL HU Hlim.
  assert (Z : forall t, t < T -> t < D -> y t = 0c).
  { intros t. induction t as [t IH] using lt_wf_ind. intros Ht HD. rewrite (H t Ht), (HU t Ht). destruct (Nat.ltb_spec t D); [|lia].
    unfold later. destruct (Nat.ltb_spec t L); [ring|]. rewrite (HU (t - L)) by lia. destruct (Nat.ltb_spec (t - L) D); [|lia]. rewrite IH by lia. ring. }
  split; [exact Z|]. induction n as [|n IH]; intros r Hr Ht.
  - cbn [Nat.mul] in *. rewrite Nat.add_0_r in *. rewrite (H _ Ht), (HU _ Ht). destruct (Nat.ltb_spec (D + r) D); [lia|]. cbn [rounds].
    unfold later. destruct (Nat.ltb_spec (D + r) L); [ring|]. rewrite (HU (D + r - L)) by lia. destruct (Nat.ltb_spec (D + r - L) D); [|lia]. rewrite Z by lia. ring.
  - rewrite (H _ Ht), (HU _ Ht). destruct (Nat.ltb_spec (D + Datatypes.S n * L + r) D); [lia|].
    unfold later. destruct (Nat.ltb_spec (D + Datatypes.S n * L + r) L); [lia|]. rewrite (HU (D + Datatypes.S n * L + r - L)) by lia.
    destruct (Nat.ltb_spec (D + Datatypes.S n * L + r - L) D); [lia|]. replace (D + Datatypes.S n * L + r - L) with (D + n * L + r) by lia.
    rewrite (IH r Hr) by lia. cbn [rounds]. set (e := cmul (rounds (cmul tau z) n) (csub (cmul tau U) lim)).
    transitivity (cadd (cmul (cmul tau z) e) (cadd (cmul (cmul tau z) lim) (cmul (csub tau z) U))); [ring|rewrite <- Hlim; unfold e; ring].
Qed.

(** ** C118 *)
Section Filters.
Variable c : Q.
Variable wl : nat -> R.
Variable solve : nat -> nat -> mat R -> mat R -> option (mat R).
Variable A : Type.
Variable act : A -> nat -> field R -> A * field R.
Notation forward := (forward 0%R 1%R Rplus Rmult Rminus Ropp solve act).

(** Amplitude and phase of a guide, as in the notebook. *)
Definition attenuation (g : guide) : R := Rpower 10 (- g_loss g * Q2R (g_length g) / 20).
Definition phase_at (g : guide) (ph lambda : R) : R :=
  (2 * PI * (g_neff g + (g_wl0 g - lambda) * (Q2R (g_ng g) - g_neff g) / g_wl0 g) * Q2R (g_length g) / lambda + ph)%R.
Definition factor (g : guide) (ph : R) (w : nat) : C := polar (attenuation g) (phase_at g ph (wl w)).

Lemma guides_waveguide g ph w : guides (b_S (waveguide c wl g ph)) w (factor g ph w).
Proof.
  assert (E : factor g ph w = polar (guide_amp g) (pure_phase wl g w + ph)).
  { unfold factor, attenuation, guide_amp, phase_at, pure_phase, guide_neff. do 3 f_equal. unfold Rdiv. ring. }
  rewrite E. destruct (waveguide_S c wl g ph w) as (H0 & H1 & H2 & H3). repeat split; assumption.
Qed.
Lemma couples_coupler k w : couples (b_S (directional_coupler k)) w (sqrt (1 - k), 0)%R (0, sqrt k)%R.
Proof. repeat split. Qed.

Notation network gi pi k gt pt gr pr := (allpass (waveguide c wl gi pi) (directional_coupler k) (waveguide c wl gt pt) (waveguide c wl gr pr)).
Lemma lossless_coupler k : (0 <= k <= 1)%R -> csub (cmul (sqrt (1 - k), 0%R) (sqrt (1 - k), 0%R)) (cmul (0%R, sqrt k) (0%R, sqrt k)) = 1c.
Proof.
  intros H. unfold SimAlg.csub, SimAlg.cmul, c1. cbn [fst snd]. pose proof (sqrt_sqrt k ltac:(lra)). pose proof (sqrt_sqrt (1 - k) ltac:(lra)). f_equal; lra.
Qed.

(** The calls of the notebook build the filter, and every simulation obeys the recursion of a ring behind a coupler, in the time and in the
    frequency domain. *)
Theorem C118_allpass (gi gt gr : guide) (pi pt pr k : R) : (0 <= k <= 1)%R -> solver_sound 0%R Rplus Rmult solve ->
  exists s b, performed (network gi pi k gt pt gr pr) s /\ ns_buf s = Built b /\
  forall e s0 src outs w col, w < e_num_wl e -> forward e b s0 src = Ok outs ->
    length outs = e_num_t e /\
    ring_response (sqrt (1 - k), 0)%R (factor gr pr w) (steps e (guide_delay c gr))
      (fun t => cmul (cmul (factor gi pi w) (factor gt pt w)) (later (steps e (guide_delay c gi) + steps e (guide_delay c gt)) (fun t => at_ (src t) w 0 col) t))
      (fun t => at_ (nth t outs (zero_field 0%R)) w 0 col) (e_num_t e).
Proof.
  intros Hk SS.
  pose (Mi := b_S (waveguide c wl gi pi)). pose (Mt := b_S (waveguide c wl gt pt)). pose (Mr := b_S (waveguide c wl gr pr)). pose (Md := b_S (directional_coupler k)).
  destruct (@allpass_built Mi Md Mt Mr (guide_delay c gi) 0%Q (guide_delay c gt) (guide_delay c gr)) as (s & b & P & B & Np & FC & FS & FF & R9 & NA & ND & NS & Te).
  exists s, b. split; [exact P|]. split; [exact B|]. intros e s0 src outs w col Hw Hf.
  pose proof (guides_waveguide gi pi w) as Gi. pose proof (guides_waveguide gt pt w) as Gt. pose proof (guides_waveguide gr pr w) as Gr. pose proof (couples_coupler k w) as Cd.
  destruct (@allpass_regular Mi Md Mt Mr _ _ _ _ s b e w _ _ _ _ _ P B Gi Gt Gr Cd) as [FO U].
  destruct (C16_solves_wave_equations RTheory col SS FO NA Hw U Hf) as (a & o & W & [Len Rd]).
  split; [exact Len|].
  assert (F : forall i, i < 12 -> (b_src b i, b_det b i, b_act b i, b_del b i) = nth i (map (fun i => (b_src b i, b_det b i, b_act b i, b_del b i)) (seq 0 12)) (false, false, false, 0%Q)).
  { intros i Hi. apply (@row 12 _ (fun i => (b_src b i, b_det b i, b_act b i, b_del b i))); [reflexivity|exact Hi]. }
  rewrite FF in F.
  destruct (@allpass_waves Mi Md Mt Mr _ _ _ _ s b e w (e_num_t e) _ a o _ _ _ _ _ P B Gi Gt Gr Cd (steps_zero e) (lossless_coupler Hk) W) as (u & y & Hu & Hy & Ha).
  { intros t i Hi H0. unfold injected. specialize (F i Hi). do 12 (destruct i as [|i]; [cbn [nth] in F; injection F as -> _ _ _; try reflexivity; contradiction|]). lia. }
  assert (S0 : forall t, injected 0%R b src w col t 0 = at_ (src t) w 0 col).
  { intros t. unfold injected. specialize (F 0 ltac:(lia)). cbn [nth] in F. injection F as -> _ _ _. reflexivity. }
  assert (D9 : b_det b 9 = true) by (specialize (F 9 ltac:(lia)); cbn [nth] in F; injection F as _ -> _ _; reflexivity).
  assert (OD : forall t, t < e_num_t e -> at_ (nth t outs (zero_field 0%R)) w 0 col = cmul (factor gt pt w) (later (steps e (guide_delay c gt)) y t)).
  { intros t Ht. rewrite <- R9, (Rd t 9 Ht ltac:(lia) D9). apply Ha. exact Ht. }
  pose proof (@ring_later _ _ _ _ _ (steps e (guide_delay c gt)) (factor gt pt w) _ Hy) as RR.
  intros t Ht. rewrite (OD t Ht), (later_ext _ OD Ht), (RR t Ht).
  assert (EU : forall t, t < e_num_t e -> cmul (factor gt pt w) (later (steps e (guide_delay c gt)) u t) =
     cmul (cmul (factor gi pi w) (factor gt pt w)) (later (steps e (guide_delay c gi) + steps e (guide_delay c gt)) (fun t => at_ (src t) w 0 col) t)).
  { intros t' Ht'. rewrite (later_ext _ Hu Ht'), later_mul, later_add, (Nat.add_comm (steps e (guide_delay c gi))).
    rewrite (@later_ext _ _ (fun t => at_ (src t) w 0 col) t' (e_num_t e)) by (try exact Ht'; intros; apply S0). ring. }
  rewrite (EU t Ht), (later_ext _ EU Ht). reflexivity.
Qed.

(** The simulations exist unless light circulates unchanged in a ring without delay. *)
Theorem C118_runs (gi gt gr : guide) (pi pt pr k : R) s b e s0 src : solver_complete 0%R Rplus Rmult solve ->
  performed (network gi pi k gt pt gr pr) s -> ns_buf s = Built b -> timed e ->
  (forall w, w < e_num_wl e -> steps e (guide_delay c gr) <> 0 \/ csub 1c (cmul (sqrt (1 - k), 0%R) (factor gr pr w)) <> 0c) ->
  exists outs, forward e b s0 src = Ok outs.
Proof.
  intros SC P B Ti H.
  pose (Mi := b_S (waveguide c wl gi pi)). pose (Mt := b_S (waveguide c wl gt pt)). pose (Mr := b_S (waveguide c wl gr pr)). pose (Md := b_S (directional_coupler k)).
  destruct (@allpass_built Mi Md Mt Mr (guide_delay c gi) 0%Q (guide_delay c gt) (guide_delay c gr)) as (s' & b' & P' & B' & _ & _ & _ & _ & _ & _ & ND & _ & Te).
  assert (s = s') by (eapply performed_once; eassumption). subst s'. rewrite B in B'. injection B' as <-.
  destruct (@C30_succeeds_partial R 0%R 1%R Rplus Rmult Rminus Ropp solve A act RTheory e b s0 src SC Ti) as (outs & Ho & _).
  - exact (proj1 (@allpass_regular Mi Md Mt Mr _ _ _ _ s b e 0 _ _ _ _ _ P B (guides_waveguide gi pi 0) (guides_waveguide gt pt 0) (guides_waveguide gr pr 0) (couples_coupler k 0))).
  - exact Te.
  - rewrite ND. discriminate.
  - intros w Hw. split.
    + exact (proj2 (@allpass_regular Mi Md Mt Mr _ _ _ _ s b e w _ _ _ _ _ P B (guides_waveguide gi pi w) (guides_waveguide gt pt w) (guides_waveguide gr pr w) (couples_coupler k w))).
    + exact (@allpass_quiet Mi Md Mt Mr _ _ _ _ s b e w _ _ _ _ _ P B (guides_waveguide gi pi w) (guides_waveguide gt pt w) (guides_waveguide gr pr w) (couples_coupler k w) (steps_zero e) (H w Hw)).
  - exists outs. exact Ho.
Qed.

(** The formula of the notebook: [o = (t - z) / (1 - t z) s], for the frequency domain. *)
Theorem C118_formula (gi gt gr : guide) (pi pt pr k : R) s b e s0 src outs w col : (0 <= k <= 1)%R -> solver_sound 0%R Rplus Rmult solve ->
  performed (network gi pi k gt pt gr pr) s -> ns_buf s = Built b -> e_freq e = true -> e_num_t e <> 0 -> w < e_num_wl e -> forward e b s0 src = Ok outs ->
  let tau := (sqrt (1 - k), 0)%R in let z := factor gr pr w in
  csub 1c (cmul tau z) <> 0c ->
  at_ (nth 0 outs (zero_field 0%R)) w 0 col = cmul (cdiv (csub tau z) (csub 1c (cmul tau z))) (cmul (cmul (factor gi pi w) (factor gt pt w)) (at_ (src 0) w 0 col)).
Proof.
  intros Hk SS P B Fr Hn Hw Ho tau z Nz. destruct (@C118_allpass gi gt gr pi pt pr k Hk SS) as (s' & b' & P' & B' & H).
  assert (s = s') by (eapply performed_once; eassumption). subst s'. rewrite B in B'. injection B' as <-.
  destruct (H e s0 src outs w col Hw Ho) as [_ RR]. specialize (RR 0 ltac:(lia)).
  rewrite !(C28_frequency_domain _ Fr) in RR. rewrite !later_0 in RR. fold tau z in RR.
  set (d := at_ (nth 0 outs (zero_field 0%R)) w 0 col) in *. set (v := cmul (cmul (factor gi pi w) (factor gt pt w)) (at_ (src 0) w 0 col)) in *.
  assert (E : cmul (csub 1c (cmul tau z)) d = cmul (csub tau z) v) by (transitivity (csub d (cmul (cmul tau z) d)); [ring|rewrite RR at 1; ring]).
  unfold cdiv. transitivity (cmul (cmul (cinv (csub 1c (cmul tau z))) (csub 1c (cmul tau z))) d); [rewrite (Finv_l c_field _ Nz); ring|].
  transitivity (cmul (cinv (csub 1c (cmul tau z))) (cmul (csub 1c (cmul tau z)) d)); [ring|rewrite E; ring].
Qed.

Notation power := (norm2 Rplus Rmult).
Lemma power_mul x y : power (cmul x y) = (power x * power y)%R.
Proof. destruct x, y. unfold norm2, SimAlg.cmul. cbn [fst snd]. ring. Qed.
Lemma power_polar r x : power (polar r x) = (r * r)%R.
Proof. unfold norm2, polar. cbn [fst snd]. pose proof (sin2_cos2 x) as E. unfold Rsqr in E. nra. Qed.

(** The power at the detector, as a function of the phase of the ring. *)
Theorem C118_power (gi gt gr : guide) (pi pt pr k : R) s b e s0 src outs w col : (0 <= k <= 1)%R -> solver_sound 0%R Rplus Rmult solve ->
  performed (network gi pi k gt pt gr pr) s -> ns_buf s = Built b -> e_freq e = true -> e_num_t e <> 0 -> w < e_num_wl e -> forward e b s0 src = Ok outs ->
  let tau := sqrt (1 - k) in let x := attenuation gr in let phi := phase_at gr pr (wl w) in
  (power (at_ (nth 0%nat outs (zero_field 0%R)) w 0%nat col) * (1 - 2 * tau * x * cos phi + (tau * x) * (tau * x)) =
   (attenuation gi * attenuation gt) * (attenuation gi * attenuation gt) * power (at_ (src 0%nat) w 0%nat col) * (tau * tau - 2 * tau * x * cos phi + x * x))%R.
Proof.
  intros Hk SS P B Fr Hn Hw Ho tau x phi. destruct (@C118_allpass gi gt gr pi pt pr k Hk SS) as (s' & b' & P' & B' & H).
  assert (s = s') by (eapply performed_once; eassumption). subst s'. rewrite B in B'. injection B' as <-.
  destruct (H e s0 src outs w col Hw Ho) as [_ RR]. specialize (RR 0 ltac:(lia)).
  rewrite !(C28_frequency_domain _ Fr) in RR. rewrite !later_0 in RR. fold tau in RR. set (z := factor gr pr w) in *. set (tc := (tau, 0%R)) in *.
  set (d := at_ (nth 0 outs (zero_field 0%R)) w 0 col) in *. set (v := cmul (cmul (factor gi pi w) (factor gt pt w)) (at_ (src 0) w 0 col)) in *.
  assert (E : cmul (csub 1c (cmul tc z)) d = cmul (csub tc z) v) by (transitivity (csub d (cmul (cmul tc z) d)); [ring|rewrite RR at 1; ring]).
  apply (f_equal (fun q => power q)) in E. rewrite !power_mul in E. unfold v in E. rewrite !power_mul in E. unfold factor in E. rewrite !power_polar in E.
  pose proof (sin2_cos2 phi) as SC. unfold Rsqr in SC.
  assert (E1 : power (csub 1c (cmul tc z)) = (1 - 2 * tau * x * cos phi + (tau * x) * (tau * x))%R).
  { unfold tc, z, factor, polar, norm2, SimAlg.csub, SimAlg.cmul, c1. cbn [fst snd]. fold x phi.
    transitivity (1 - 2 * tau * x * cos phi + (tau * x) * (tau * x) * (sin phi * sin phi + cos phi * cos phi))%R; [ring|rewrite SC; ring]. }
  assert (E2 : power (csub tc z) = (tau * tau - 2 * tau * x * cos phi + x * x)%R).
  { unfold tc, z, factor, polar, norm2, SimAlg.csub, SimAlg.cmul, c1. cbn [fst snd]. fold x phi.
    transitivity (tau * tau - 2 * tau * x * cos phi + x * x * (sin phi * sin phi + cos phi * cos phi))%R; [ring|rewrite SC; ring]. }
  rewrite E1, E2 in E. rewrite (Rmult_comm (power d)), E. ring.
Qed.

Lemma lossless_guide g : g_loss g = 0%R -> attenuation g = 1%R.
Proof. intros Hg. unfold attenuation. rewrite Hg. replace (- 0 * Q2R (g_length g) / 20)%R with 0%R by (unfold Rdiv; ring). apply Rpower_O. lra. Qed.

(** Without loss the filter passes all power, whatever the phase ("all-pass"); light resonating unchanged excepted. *)
Theorem C118_all_pass (gi gt gr : guide) (pi pt pr k : R) s b e s0 src outs w col : (0 < k <= 1)%R -> solver_sound 0%R Rplus Rmult solve ->
  performed (network gi pi k gt pt gr pr) s -> ns_buf s = Built b -> e_freq e = true -> e_num_t e <> 0 -> w < e_num_wl e -> forward e b s0 src = Ok outs ->
  g_loss gi = 0%R -> g_loss gt = 0%R -> g_loss gr = 0%R -> power (at_ (nth 0 outs (zero_field 0%R)) w 0 col) = power (at_ (src 0) w 0 col).
Proof.
  intros Hk SS P B Fr Hn Hw Ho Li Lt Lr. pose proof (@C118_power gi gt gr pi pt pr k s b e s0 src outs w col ltac:(lra) SS P B Fr Hn Hw Ho) as E. cbv zeta in E.
  rewrite !lossless_guide in E by assumption. set (tau := sqrt (1 - k)) in *. set (q := cos (phase_at gr pr (wl w))) in *.
  assert (T0 : (0 <= tau)%R) by apply sqrt_pos. assert (T2 : (tau * tau = 1 - k)%R) by (apply sqrt_sqrt; lra).
  assert (T1 : (tau < 1)%R) by nra. pose proof (COS_bound (phase_at gr pr (wl w))) as CB. fold q in CB.
  assert (D : (0 < 1 - 2 * tau * 1 * q + tau * 1 * (tau * 1))%R) by nra.
  apply (Rmult_eq_reg_r (1 - 2 * tau * 1 * q + tau * 1 * (tau * 1))); [rewrite E; ring|lra].
Qed.

(** Critical coupling: on resonance nothing passes a ring which loses as much as the coupler lets in. *)
Theorem C118_critical (gi gt gr : guide) (pi pt pr k : R) s b e s0 src outs w col : (0 < k <= 1)%R -> solver_sound 0%R Rplus Rmult solve ->
  performed (network gi pi k gt pt gr pr) s -> ns_buf s = Built b -> e_freq e = true -> e_num_t e <> 0 -> w < e_num_wl e -> forward e b s0 src = Ok outs ->
  cos (phase_at gr pr (wl w)) = 1%R -> attenuation gr = sqrt (1 - k) -> at_ (nth 0 outs (zero_field 0%R)) w 0 col = 0c.
Proof.
  intros Hk SS P B Fr Hn Hw Ho Ph At. pose proof (@C118_power gi gt gr pi pt pr k s b e s0 src outs w col ltac:(lra) SS P B Fr Hn Hw Ho) as E. cbv zeta in E.
  rewrite Ph, At in E. set (tau := sqrt (1 - k)) in *. assert (T0 : (0 <= tau)%R) by apply sqrt_pos. assert (T2 : (tau * tau = 1 - k)%R) by (apply sqrt_sqrt; lra).
  set (d := at_ (nth 0 outs (zero_field 0%R)) w 0 col) in *.
  assert (Z : (power d * ((1 - tau * tau) * (1 - tau * tau)) = 0)%R).
  { transitivity (power d * (1 - 2 * tau * tau * 1 + tau * tau * (tau * tau)))%R; [ring|rewrite E; ring]. }
  apply Rmult_integral in Z. destruct Z as [Z|Z]; [|rewrite T2 in Z; nra]. destruct d as [p q]. unfold norm2 in Z. cbn [fst snd] in Z.
  unfold c0. f_equal; nra.
Qed.

(** The function [frequency] of the notebook: its arithmetic, in real numbers. *)
Definition frequency (neff ng wl0 loss transmission len lambda : R) : R :=
  let neff_wl := (neff + (wl0 - lambda) * (ng - neff) / wl0)%R in
  let turn := polar (Rpower 10 (- loss / 20)) (2 * PI * neff_wl * len / lambda) in
  power (cdiv (csub (sqrt transmission, 0)%R turn) (csub 1c (cmul (sqrt transmission, 0)%R turn))).
Lemma subunit (t : R) z : (0 <= t)%R -> (t < 1)%R -> (power z <= 1)%R -> csub 1c (cmul (t, 0%R) z) <> 0c.
Proof.
  intros H0 H1 Hz E. assert (E' : cmul (t, 0%R) z = 1c) by (transitivity (csub 1c (csub 1c (cmul (t, 0%R) z))); [ring|rewrite E; ring]).
  apply (f_equal (fun q => power q)) in E'. rewrite power_mul in E'. unfold norm2 at 1 3 in E'. unfold c1 in E'. cbn [fst snd] in E'. nra.
Qed.
Lemma attenuates l : (0 <= l)%R -> (0 < Rpower 10 (- l / 20) <= 1)%R.
Proof.
  intros H. split; [apply exp_pos|]. replace 1%R with (Rpower 10 0) by (apply Rpower_O; lra). apply Rle_Rpower; lra.
Qed.

(** The power detected by the network of the notebook is the one its [frequency] computes, times the power of the source. *)
Theorem C118_notebook (neff wl0 loss transmission : R) (ng len : Q) s b e s0 src outs w col :
  let guide l db := {| g_length := l; g_ng := ng; g_neff := neff; g_wl0 := wl0; g_loss := db |} in
  (0 <= transmission < 1)%R -> (0 <= loss)%R -> (0 < len)%Q -> solver_sound 0%R Rplus Rmult solve ->
  performed (network (guide ((1 # 2) * len)%Q 0%R) 0%R (1 - transmission)%R (guide ((1 # 2) * len)%Q 0%R) 0%R (guide len (loss / Q2R len)%R) 0%R) s ->
  ns_buf s = Built b -> e_freq e = true -> e_num_t e <> 0 -> w < e_num_wl e -> forward e b s0 src = Ok outs ->
  power (at_ (nth 0 outs (zero_field 0%R)) w 0 col) = (frequency neff (Q2R ng) wl0 loss transmission (Q2R len) (wl w) * power (at_ (src 0%nat) w 0%nat col))%R.
Proof.
  intros guide Ht Hl Hlen SS P B Fr Hn Hw Ho.
  assert (L0 : (0 < Q2R len)%R) by (apply Qlt_Rlt in Hlen; rewrite RMicromega.Q2R_0 in Hlen; exact Hlen).
  assert (Ez : factor (guide len (loss / Q2R len)%R) 0 w = polar (Rpower 10 (- loss / 20)) (2 * PI * (neff + (wl0 - wl w) * (Q2R ng - neff) / wl0) * Q2R len / wl w)).
  { unfold factor, attenuation, phase_at, guide. cbn [g_length g_ng g_neff g_wl0 g_loss]. f_equal; [f_equal; field; lra|ring]. }
  assert (T1 : (sqrt transmission < 1)%R) by (rewrite <- sqrt_1; apply sqrt_lt_1; lra).
  assert (Er : (1 - (1 - transmission) = transmission)%R) by ring.
  pose proof (attenuates Hl) as Ha.
  assert (Hk : (0 <= 1 - transmission <= 1)%R) by lra.
  pose proof (@C118_formula _ _ _ _ _ _ _ s b e s0 src outs w col Hk SS P B Fr Hn Hw Ho) as E. cbv zeta in E. rewrite Er, Ez in E.
  rewrite E; [|apply subunit; [apply sqrt_pos|exact T1|rewrite power_polar; nra]].
  rewrite !power_mul. unfold factor. rewrite !power_polar, !lossless_guide by reflexivity. unfold frequency. cbv zeta. ring.
Qed.
(** The signal of a source of constant amplitude in the time domain: nothing before the light has crossed the two guides, then a staircase
    with one step per round trip, which approaches the value of the frequency domain by the same factor with each round. *)
Theorem C118_build_up (gi gt gr : guide) (pi pt pr k : R) s b e s0 src outs w col (x : C) : (0 <= k <= 1)%R -> solver_sound 0%R Rplus Rmult solve ->
  performed (network gi pi k gt pt gr pr) s -> ns_buf s = Built b -> w < e_num_wl e -> forward e b s0 src = Ok outs -> (forall t, at_ (src t) w 0 col = x) ->
  let tau := (sqrt (1 - k), 0)%R in let z := factor gr pr w in let D := steps e (guide_delay c gi) + steps e (guide_delay c gt) in let L := steps e (guide_delay c gr) in
  let U := cmul (cmul (factor gi pi w) (factor gt pt w)) x in let lim := cmul (cdiv (csub tau z) (csub 1c (cmul tau z))) U in
  csub 1c (cmul tau z) <> 0c -> L <> 0 ->
  (forall t, t < e_num_t e -> t < D -> at_ (nth t outs (zero_field 0%R)) w 0 col = 0c) /\
  forall n r, r < L -> D + n * L + r < e_num_t e ->
    at_ (nth (D + n * L + r) outs (zero_field 0%R)) w 0 col = cadd lim (cmul (rounds (cmul tau z) n) (csub (cmul tau U) lim)).
Proof.
  intros Hk SS P B Hw Ho Hx tau z D L U lim Nz HL. destruct (@C118_allpass gi gt gr pi pt pr k Hk SS) as (s' & b' & P' & B' & H).
  assert (s = s') by (eapply performed_once; eassumption). subst s'. rewrite B in B'. injection B' as <-.
  destruct (H e s0 src outs w col Hw Ho) as [_ RR].
  apply (@ring_build_up tau z L D U lim _ (fun t => at_ (nth t outs (zero_field 0%R)) w 0 col) (e_num_t e) RR); [lia| |].
  - intros t _. fold D. unfold later. destruct (t <? D); [ring|]. rewrite Hx. reflexivity.
  - unfold lim, cdiv. transitivity (cmul (cmul (cmul (cinv (csub 1c (cmul tau z))) (csub 1c (cmul tau z))) (csub tau z)) U); [ring|rewrite (Finv_l c_field _ Nz); ring].
Qed.
End Filters.

Print Assumptions C118_allpass.
Print Assumptions C118_runs.
Print Assumptions C118_formula.
Print Assumptions C118_power.
Print Assumptions C118_all_pass.
Print Assumptions C118_critical.
Print Assumptions C118_notebook.
Print Assumptions C118_build_up.

(** ** Examples *)
(** A filter as in the notebook, without loss, in the frequency domain: simulations exist, and all power arrives. *)
Definition notebook_guide (len : Q) : guide := {| g_length := len; g_ng := (86 # 25)%Q; g_neff := 2.34; g_wl0 := 1.55; g_loss := 0 |}.
Definition one_shot : env := {| e_freq := true; e_dt := None; e_num_t := 1; e_num_wl := 1 |}.
Example C118_ex (lambda : R) (src : nat -> field R) : exists s b outs,
  performed (allpass (waveguide 300%Q (fun _ => lambda) (notebook_guide 25) 0) (directional_coupler (3 / 10)) (waveguide 300%Q (fun _ => lambda) (notebook_guide 25) 0)
    (waveguide 300%Q (fun _ => lambda) (notebook_guide 100) 0)) s /\ ns_buf s = Built b /\
  forward 0%R 1%R Rplus Rmult Rminus Ropp PropEnergy.rsolve PropEnergy.ract one_shot b tt src = Ok outs /\
  norm2 Rplus Rmult (at_ (nth 0 outs (zero_field 0%R)) 0 0 0) = norm2 Rplus Rmult (at_ (src 0) 0 0 0).
Proof.
  assert (SS : solver_sound 0%R Rplus Rmult PropEnergy.rsolve) by exact (gauss_sound Rfield PropEnergy.reqb_eq).
  assert (SC : solver_complete 0%R Rplus Rmult PropEnergy.rsolve) by exact (gauss_complete Rfield PropEnergy.reqb_eq).
  set (g := notebook_guide 25). set (r := notebook_guide 100).
  destruct (@C118_allpass 300%Q (fun _ => lambda) PropEnergy.rsolve unit PropEnergy.ract g g r 0%R 0%R 0%R (3/10)%R ltac:(lra) SS) as (s & b & P & B & _).
  assert (Q : forall w, w < e_num_wl one_shot -> steps one_shot (guide_delay 300 r) <> 0 \/ csub 1c (cmul (sqrt (1 - 3 / 10), 0%R) (factor (fun _ => lambda) r 0 w)) <> 0c).
  { intros w _. right. intros E. assert (E' : cmul (sqrt (1 - 3 / 10), 0%R) (factor (fun _ => lambda) r 0 w) = 1c)
      by (transitivity (csub 1c (csub 1c (cmul (sqrt (1 - 3 / 10), 0%R) (factor (fun _ => lambda) r 0 w)))); [ring|rewrite E; ring]).
    apply (f_equal (norm2 Rplus Rmult)) in E'. rewrite power_mul in E'. unfold factor in E'. rewrite power_polar in E'.
    assert (A1 : attenuation r = 1%R) by (apply lossless_guide; reflexivity).
    rewrite A1 in E'. unfold norm2, c1 in E'. cbn [fst snd] in E'. pose proof (sqrt_sqrt (1 - 3 / 10) ltac:(lra)) as E2. rewrite E2 in E'. lra. }
  destruct (@C118_runs 300%Q (fun _ => lambda) PropEnergy.rsolve unit PropEnergy.ract g g r 0%R 0%R 0%R (3/10)%R s b one_shot tt src SC P B (or_introl eq_refl) Q) as (outs & Ho).
  exists s, b, outs. split; [exact P|]. split; [exact B|]. split; [exact Ho|].
  exact (@C118_all_pass 300%Q (fun _ => lambda) PropEnergy.rsolve unit PropEnergy.ract g g r 0%R 0%R 0%R (3/10)%R s b one_shot tt src outs 0 0 ltac:(lra) SS P B eq_refl ltac:(discriminate) ltac:(cbn; lia) Ho eq_refl eq_refl eq_refl).
Qed.
(** The same filter in the time domain: light needs 6 steps to the detector and 11 for a round. *)
Definition forty_steps : env := {| e_freq := false; e_dt := Some (1 # 10)%Q; e_num_t := 40; e_num_wl := 1 |}.
Definition constant_one : field R := (fun _ _ _ => 1%R, fun _ _ _ => 0%R).
Example C118_build_up_ex (lambda : R) : exists s b outs,
  performed (allpass (waveguide 300%Q (fun _ => lambda) (notebook_guide 25) 0) (directional_coupler (3 / 10)) (waveguide 300%Q (fun _ => lambda) (notebook_guide 25) 0)
    (waveguide 300%Q (fun _ => lambda) (notebook_guide 100) 0)) s /\ ns_buf s = Built b /\
  forward 0%R 1%R Rplus Rmult Rminus Ropp PropEnergy.rsolve PropEnergy.ract forty_steps b tt (fun _ => constant_one) = Ok outs /\
  (forall t, t < 6 -> at_ (nth t outs (zero_field 0%R)) 0 0 0 = 0c) /\
  forall t, 6 <= t -> t < 17 -> norm2 Rplus Rmult (at_ (nth t outs (zero_field 0%R)) 0 0 0) = (7 / 10)%R.
Proof.
  assert (SS : solver_sound 0%R Rplus Rmult PropEnergy.rsolve) by exact (gauss_sound Rfield PropEnergy.reqb_eq).
  assert (SC : solver_complete 0%R Rplus Rmult PropEnergy.rsolve) by exact (gauss_complete Rfield PropEnergy.reqb_eq).
  set (g := notebook_guide 25). set (r := notebook_guide 100).
  destruct (@C118_allpass 300%Q (fun _ => lambda) PropEnergy.rsolve unit PropEnergy.ract g g r 0%R 0%R 0%R (3/10)%R ltac:(lra) SS) as (s & b & P & B & _).
  assert (EL : steps forty_steps (guide_delay 300 r) = 11) by reflexivity. assert (ED : steps forty_steps (guide_delay 300 g) = 3) by reflexivity.
  destruct (@C118_runs 300%Q (fun _ => lambda) PropEnergy.rsolve unit PropEnergy.ract g g r 0%R 0%R 0%R (3/10)%R s b forty_steps tt (fun _ => constant_one) SC P B) as (outs & Ho).
  { right. exists (1 # 10)%Q. split; reflexivity. }
  { intros w _. left. rewrite EL. discriminate. }
  assert (Hx : forall t : nat, at_ ((fun _ : nat => constant_one) t) 0 0 0 = 1c) by reflexivity.
  destruct (@C118_build_up 300%Q (fun _ => lambda) PropEnergy.rsolve unit PropEnergy.ract g g r 0%R 0%R 0%R (3/10)%R s b forty_steps tt (fun _ => constant_one) outs 0 0 1c
    ltac:(lra) SS P B ltac:(cbn; lia) Ho Hx) as [H0 H1].
  { apply subunit; [apply sqrt_pos|rewrite <- sqrt_1 at 2; apply sqrt_lt_1; lra|]. unfold factor. rewrite power_polar, lossless_guide by reflexivity. lra. }
  { rewrite EL. discriminate. }
  rewrite EL, ED in H1. rewrite ED in H0.
  exists s, b, outs. split; [exact P|]. split; [exact B|]. split; [exact Ho|]. split.
  - intros t Ht. apply H0; [cbn; lia|exact Ht].
  - intros t Ha Hb. specialize (H1 0 (t - 6) ltac:(lia) ltac:(cbn; lia)). replace (3 + 3 + 0 * 11 + (t - 6)) with t in H1 by lia. rewrite H1. cbn [rounds].
    match goal with |- norm2 _ _ (cadd ?l (cmul 1c (csub ?q ?l))) = _ => replace (cadd l (cmul 1c (csub q l))) with q by ring end.
    rewrite !power_mul. unfold factor. rewrite !power_polar, !lossless_guide by reflexivity. unfold norm2, c1. cbn [fst snd].
    pose proof (sqrt_sqrt (1 - 3 / 10) ltac:(lra)) as E. rewrite E. lra.
Qed.
