(** Property C84: passive circuits settle to the frequency-domain response. *)
From Coq Require Import QArith Ring Reals Lra Permutation.
From Verif Require Import Base PyStr NetModel NetSpec NetProofs WireProofs NetBuild OrderProofs SimModel SimAlg SimSpec SimNodes SimProofs SimMore SimDelay
  SimRegular Gauss CircuitSpec CircuitProofs EnergyProofs EnergyNet CompModel CompSpec CompProofs CompMore RingExample PropEnergy Settle.
Set Implicit Arguments.
Unset Strict Implicit.
Local Open Scope string_scope.
Local Open Scope list_scope.
Local Open Scope nat_scope.

Notation norm2R := (norm2 Rplus Rmult).
Notation csubR := (csub Rminus).
Notation buildR := (@build (nat -> R * R) Q (fun _ => (0%R, 0%R)) 0%Q).

Section Props.
Variable solve : nat -> nat -> mat R -> mat R -> option (mat R).
Variables (A : Type) (act : A -> nat -> field R -> A * field R).
Notation forward := (forward 0%R 1%R Rplus Rmult Rminus Ropp solve act).
Notation "l !! t" := (nth t l (zero_field 0%R)) (at level 20).

(** Sources that are constant from step [t1] on: the detected fields get and stay as close as wanted
    to the ones of the frequency-domain simulation with that constant, however long the simulation is. *)
Theorem C84_settles (term : string -> bool) (mods : list (string * net R)) conns (b : net R) e s0 s1 source source' outs0 outs' w c t1 :
  solver_sound 0%R Rplus Rmult solve ->
  buildR mods conns = Ok b ->
  (forall n d, In (n, d) mods -> if term n then dark 0%R d w else passive d w /\ plain d) ->
  sym_C b -> one_partner b -> flags_ok b -> num_act b = 0 -> w < e_num_wl e -> unmixed 0%R e b w -> unmixed 0%R (freq_env e) b w ->
  (forall t k, t1 <= t -> k < num_src b -> at_ (source t) w k c = at_ (source' 0) w k c) ->
  forward (freq_env e) b s1 source' = Ok outs' -> forward e b s0 source = Ok outs0 ->
  forall eps, (0 < eps)%R -> exists T0, forall n outs, forward (with_steps e n) b s0 source = Ok outs ->
  forall t k, T0 <= t -> t < n -> k < num_det b ->
  (norm2R (csubR (at_ (outs !! t) w k c) (at_ (outs' !! 0) w k c)) < eps)%R.
Proof. exact (fun SS => @settles solve A act SS term mods conns b e s0 s1 source source' outs0 outs' w c t1). Qed.

(** All circuits of built-in passive components, nested in any way. *)
Theorem C84_builtin cc wl (term : string -> bool) mods conns (b : net R) e s0 s1 source source' outs0 outs' w c t1 :
  solver_sound 0%R Rplus Rmult solve ->
  made_of (builtin cc wl) term mods -> buildR mods conns = Ok b -> one_partner b -> w < e_num_wl e ->
  (forall t k, t1 <= t -> k < num_src b -> at_ (source t) w k c = at_ (source' 0) w k c) ->
  forward (freq_env e) b s1 source' = Ok outs' -> forward e b s0 source = Ok outs0 ->
  forall eps, (0 < eps)%R -> exists T0, forall n outs, forward (with_steps e n) b s0 source = Ok outs ->
  forall t k, T0 <= t -> t < n -> k < num_det b ->
  (norm2R (csubR (at_ (outs !! t) w k c) (at_ (outs' !! 0) w k c)) < eps)%R.
Proof.
  intros SS HM HB OP Lw. destruct (made_facts (P := builtin cc wl) (fun d H => H) HM HB) as (SY & FL & NA & U).
  eapply (C84_settles (term := term)); eauto.
  intros n d I. destruct (made_sub (P := builtin cc wl) (fun d H => H) HM I) as (_ & _ & G). specialize (HM n d I).
  destruct (term n); [apply ending_dark, HM|]. split; [|exact G].
  destruct HM as (ct & He & Hc). eapply compile_passive; [|exact Hc]. eapply every_leaf_impl; [|exact He]. intros d' Hd'. eapply builtin_passive, Hd'.
Qed.
End Props.
Print Assumptions C84_settles.
Print Assumptions C84_builtin.

(** ** A ring: coupler with amplitudes [r] and [i k], waveguide of one time step with amplitude [u]. *)
Notation z0 := (c0 0%R).
Notation zadd := (cadd Rplus).
Notation zmul := (cmul Rplus Rmult Rminus).
Notation z1 := (c1 0%R 1%R).
Notation zsum := (lsum z0 zadd).
Definition ZR84 := CircuitProofs.CR RTheory.
Add Ring Zring84 : ZR84.
Section Ring.
Variables (r k : R) (u : R * R).
Definition rr_parts : list (string * net R) :=
  [("s", rleaf 1 yes no (fun _ _ _ => (0%R, 0%R)) 0%Q);
   ("dc", rleaf 4 no no (fun i j _ => match i, j with
      | 0, 1 | 1, 0 | 2, 3 | 3, 2 => (r, 0%R) | 0, 2 | 2, 0 | 1, 3 | 3, 1 => (0%R, k) | _, _ => (0%R, 0%R) end) 0%Q);
   ("wg", rleaf 2 no no (fun i j _ => match i, j with 0, 1 | 1, 0 => u | _, _ => (0%R, 0%R) end) 1%Q);
   ("d", rleaf 1 no yes (fun _ _ _ => (0%R, 0%R)) 0%Q)].
Definition rring : net R := match buildR rr_parts ring_wires with Ok b => b | Err _ => rleaf 0 no no (fun _ _ _ => (0%R, 0%R)) 0%Q end.
Lemma rring_built : buildR rr_parts ring_wires = Ok rring.
Proof. vm_compute. reflexivity. Qed.
Definition rtable (i j : nat) : R * R :=
  match i, j with
  | 1, 2 | 2, 1 | 3, 4 | 4, 3 => (r, 0%R) | 1, 3 | 3, 1 | 2, 4 | 4, 2 => (0%R, k)
  | 5, 6 | 6, 5 => u | _, _ => (0%R, 0%R) end.
Lemma rring_S i j w : i < 8 -> j < 8 -> b_S rring i j w = rtable i j.
Proof.
  intros Li Lj. do 8 (destruct i as [|i]; [do 8 (destruct j as [|j]; [vm_compute; reflexivity|]); lia|]). lia.
Qed.
Lemma rring_np : b_np rring = 8. Proof. vm_compute. reflexivity. Qed.
Lemma rring_C i j : i < 8 -> j < 8 -> b_C rring i j = qpair i j 0 1 || qpair i j 3 5 || qpair i j 6 4 || qpair i j 2 7.
Proof. intros Li Lj. do 8 (destruct i as [|i]; [do 8 (destruct j as [|j]; [vm_compute; reflexivity|]); lia|]). lia. Qed.
Lemma rring_lag n i : i < 8 -> lag (tenv n) rring i = match i with 0 | 5 | 6 | 7 => 1 | _ => 0 end.
Proof. intros Li. do 8 (destruct i as [|i]; [vm_compute; reflexivity|]). lia. Qed.
Lemma rring_lag_f i : i < 8 -> lag (freq_env (tenv 1)) rring i = match i with 0 | 7 => 1 | _ => 0 end.
Proof. intros Li. do 8 (destruct i as [|i]; [vm_compute; reflexivity|]). lia. Qed.

Definition partner (i : nat) : nat := match i with 0 => 1 | 1 => 0 | 2 => 7 | 3 => 5 | 4 => 6 | 5 => 3 | 6 => 4 | _ => 2 end.
Lemma wire f i : i < 8 -> zsum (fun j => if b_C rring i j then f j else z0) (seq 0 (b_np rring)) = f (partner i).
Proof.
  intros Li. rewrite rring_np. cbn [seq]. rewrite !lsum_cons, lsum_nil, !rring_C by lia.
  do 8 (destruct i as [|i]; [cbn [qpair Nat.eqb andb orb partner]; ring|]). lia.
Qed.
Definition scattered (y : nat -> R * R) (i : nat) : R * R :=
  match i with
  | 1 => zadd (zmul (r, 0%R) (y 2)) (zmul (0%R, k) (y 3)) | 2 => zadd (zmul (r, 0%R) (y 1)) (zmul (0%R, k) (y 4))
  | 3 => zadd (zmul (r, 0%R) (y 4)) (zmul (0%R, k) (y 1)) | 4 => zadd (zmul (r, 0%R) (y 3)) (zmul (0%R, k) (y 2))
  | 5 => zmul u (y 6) | 6 => zmul u (y 5) | _ => z0 end.
Lemma scat y i w : i < 8 -> zsum (fun j => zmul (b_S rring i j w) (y j)) (seq 0 (b_np rring)) = scattered y i.
Proof.
  intros Li. rewrite rring_np. cbn [seq]. rewrite !lsum_cons, lsum_nil, !rring_S by lia. change (0%R, 0%R) with z0.
  do 8 (destruct i as [|i]; [cbn [rtable scattered]; change (0%R, 0%R) with z0; ring|]). lia.
Qed.
Lemma scat0 (z : nat -> bool) y i w : i < 8 ->
  zsum (fun j => if z j then zmul (b_S rring i j w) (y j) else z0) (seq 0 (b_np rring)) = scattered (fun j => if z j then y j else z0) i.
Proof. intros Li. rewrite <- (scat _ w Li). apply lsum_ext. intros j _. destruct (z j); [reflexivity|ring]. Qed.

Lemma rring_terminated : terminated rring = true. Proof. vm_compute. reflexivity. Qed.
Lemma rring_flags : flags_ok rring.
Proof. destruct (build_inv rring_built) as (cs & _ & Hn). unfold net_buf in Hn. inv_res. eapply check_flags; eassumption. Qed.
Lemma rring_unmixed e w : unmixed 0%R e rring w.
Proof.
  eapply build_unmixed; [exact rring_built|]. intros n d [E|[E|[E|[E|[]]]]]; injection E as _ <-; intros i j Li Lj N; contradiction N; reflexivity.
Qed.
Lemma rring_det : num_det rring = 1. Proof. vm_compute. reflexivity. Qed.
Lemma rring_src : num_src rring = 1. Proof. vm_compute. reflexivity. Qed.
Lemma rring_act : num_act rring = 0. Proof. vm_compute. reflexivity. Qed.
Lemma rring_sym : sym_C rring. Proof. apply symb_ok. vm_compute. reflexivity. Qed.
Lemma rring_partner : one_partner rring. Proof. apply partnerb_ok. vm_compute. reflexivity. Qed.

Lemma rring_quiet n w : no_resonance 0%R Rplus Rmult Rminus (tenv n) rring w.
Proof.
  intros x H. assert (H' : forall i, i < 8 -> lag (tenv n) rring i = 0 -> x i = scattered (fun j => if lag (tenv n) rring j =? 0 then x j else z0) (partner i)).
  { intros i Li Lg. rewrite H by (rewrite ?rring_np; assumption). rewrite (wire _ Li). apply scat0. do 8 (destruct i as [|i]; [cbn; lia|]). lia. }
  intros i Li Hi. rewrite rring_np in Li. rewrite H' by assumption. rewrite rring_lag in Hi by exact Li.
  do 8 (destruct i as [|i]; [try discriminate Hi; cbn [partner scattered]; rewrite ?rring_lag by lia; cbn [Nat.eqb]; ring|]). lia.
Qed.
(** The ring has a steady state unless light comes back unchanged. *)
Hypothesis HU : forall z : R * R, z = zmul (zmul (r, 0%R) u) z -> z = z0.
Lemma rring_quiet_f w : no_resonance 0%R Rplus Rmult Rminus (freq_env (tenv 1)) rring w.
Proof.
  intros x H. assert (H' : forall i, i < 8 -> lag (freq_env (tenv 1)) rring i = 0 -> x i = scattered (fun j => if lag (freq_env (tenv 1)) rring j =? 0 then x j else z0) (partner i)).
  { intros i Li Lg. rewrite H by (rewrite ?rring_np; assumption). rewrite (wire _ Li). apply scat0. do 8 (destruct i as [|i]; [cbn; lia|]). lia. }
  assert (E : forall i, 1 <= i -> i < 7 -> x i = scattered (fun j => if lag (freq_env (tenv 1)) rring j =? 0 then x j else z0) (partner i)).
  { intros i L1 L7. apply H'; [lia|]. rewrite rring_lag_f by lia. do 7 (destruct i as [|i]; [lia || reflexivity|]). lia. }
  pose proof (E 1 ltac:(lia) ltac:(lia)) as E1. pose proof (E 2 ltac:(lia) ltac:(lia)) as E2. pose proof (E 3 ltac:(lia) ltac:(lia)) as E3.
  pose proof (E 4 ltac:(lia) ltac:(lia)) as E4. pose proof (E 5 ltac:(lia) ltac:(lia)) as E5. pose proof (E 6 ltac:(lia) ltac:(lia)) as E6.
  cbn [partner scattered] in *. rewrite (rring_lag_f (i := 6)) in E3 by lia. rewrite (rring_lag_f (i := 5)) in E4 by lia. rewrite (rring_lag_f (i := 4)), (rring_lag_f (i := 1)) in E5 by lia. rewrite (rring_lag_f (i := 3)), (rring_lag_f (i := 2)) in E6 by lia. cbn [Nat.eqb] in *.
  rewrite E1 in E5. rewrite E2 in E6.
  assert (Z5 : x 5 = z0) by (apply HU; rewrite E5 at 1; rewrite E4; ring).
  assert (Z6 : x 6 = z0) by (apply HU; rewrite E6 at 1; rewrite E3; ring).
  rewrite Z6 in E3. rewrite Z5 in E4.
  intros i Li Hi. rewrite rring_np in Li. rewrite rring_lag_f in Hi by exact Li.
  do 8 (destruct i as [|i]; [try discriminate Hi; (assumption || (rewrite E3; ring) || (rewrite E4; ring))|]). lia.
Qed.
Definition onR (t : nat) : field R := (fun _ _ _ => 1%R, fun _ _ _ => 0%R).
Notation forwardR := (forward 0%R 1%R Rplus Rmult Rminus Ropp rsolve ract).
Lemma rring_runs n : exists outs, forwardR (tenv n) rring tt onR = Ok outs.
Proof.
  destruct (@forward_succeeds R 0%R 1%R Rplus Rmult Rminus Ropp RTheory rsolve unit ract (tenv n) rring tt onR) as (outs & HO & _); [..|now exists outs].
  - exact (gauss_complete Rfield reqb_eq).
  - right. exists 1%Q. split; reflexivity.
  - apply flags_separate, rring_flags.
  - exact rring_terminated.
  - rewrite rring_det. discriminate.
  - intros w _. split; [apply rring_unmixed|apply rring_quiet].
Qed.
Lemma rring_runs_f : exists outs, forwardR (freq_env (tenv 1)) rring tt onR = Ok outs.
Proof.
  destruct (@forward_succeeds R 0%R 1%R Rplus Rmult Rminus Ropp RTheory rsolve unit ract (freq_env (tenv 1)) rring tt onR) as (outs & HO & _); [..|now exists outs].
  - exact (gauss_complete Rfield reqb_eq).
  - left. reflexivity.
  - apply flags_separate, rring_flags.
  - exact rring_terminated.
  - rewrite rring_det. discriminate.
  - intros w _. split; [apply rring_unmixed|apply rring_quiet_f].
Qed.
End Ring.

(** C84 applies to the all-pass ring, whose light circulates forever: coupling 16/25, no loss. *)
Definition ring84 : net R := rring (3 / 5) (4 / 5) (1%R, 0%R).
Lemma ring84_parts : forall n d, In (n, d) (rr_parts (3 / 5) (4 / 5) (1%R, 0%R)) -> if is_term n then dark 0%R d 0 else passive d 0 /\ plain d.
Proof.
  intros n d [E|[E|[E|[E|[]]]]]; injection E as <- <-; cbn [is_term String.eqb Ascii.eqb Bool.eqb orb].
  - intros i j _ _. reflexivity.
  - split; [|intros i _; auto]. intros x. unfold power_all, scatter, norm2. cbn [b_np rleaf seq].
    rewrite !lsum_cons, !lsum_nil. cbn [b_S rleaf]. unfold cmul, cadd, c0. cbn [fst snd].
    destruct (x 0) as [x0 y0], (x 1) as [x1 y1], (x 2) as [x2 y2], (x 3) as [x3 y3]. cbn [fst snd].
    apply Req_le. match goal with |- _ = ?s => transitivity ((9 / 25 + 16 / 25) * s)%R; field end.
  - split; [|intros i _; auto]. intros x. unfold power_all, scatter, norm2. cbn [b_np rleaf seq].
    rewrite !lsum_cons, !lsum_nil. cbn [b_S rleaf]. unfold cmul, cadd, c0. cbn [fst snd].
    destruct (x 0) as [x0 y0], (x 1) as [x1 y1]. cbn [fst snd]. apply Req_le. ring.
  - intros i j _ _. reflexivity.
Qed.
Notation forwardR := (forward 0%R 1%R Rplus Rmult Rminus Ropp rsolve ract).
Notation "l !! t" := (nth t l (zero_field 0%R)) (at level 20).
Example C84_ex : exists outs', forwardR (freq_env (tenv 1)) ring84 tt onR = Ok outs'
  /\ (forall n, exists outs, forwardR (tenv n) ring84 tt onR = Ok outs)
  /\ forall eps, (0 < eps)%R -> exists T0, forall n outs, forwardR (tenv n) ring84 tt onR = Ok outs ->
     forall t, T0 <= t -> t < n -> (norm2R (csubR (at_ (outs !! t) 0 0 0) (at_ (outs' !! 0) 0 0 0)) < eps)%R.
Proof.
  destruct (rring_runs_f (r := (3 / 5)%R) (4 / 5)%R (u := (1%R, 0%R))) as (outs' & HF').
  { intros [x y] E. unfold cmul in E. cbn [fst snd] in E. injection E as E1 E2. unfold c0. f_equal; lra. }
  exists outs'. split; [exact HF'|]. split; [intros n; apply rring_runs|]. intros eps He.
  destruct (rring_runs (3 / 5)%R (4 / 5)%R (1%R, 0%R) 1) as (outs0 & HF0).
  destruct (@C84_settles rsolve unit ract is_term _ _ ring84 (tenv 1) tt tt onR onR outs0 outs' 0 0 0 (gauss_sound Rfield reqb_eq) (@rring_built _ _ _) ring84_parts
    (@rring_sym _ _ _) (@rring_partner _ _ _) (@rring_flags _ _ _) (@rring_act _ _ _) ltac:(cbn; lia) (@rring_unmixed _ _ _ _ 0) (@rring_unmixed _ _ _ _ 0)
    ltac:(reflexivity) HF' HF0 eps He) as (T0 & HT).
  exists T0. intros n outs HF t Ht Lt. apply (HT n outs HF t 0 Ht Lt). unfold ring84. rewrite rring_det. lia.
Qed.

(** Passivity is needed: with an amplifier of 10/3 in the ring the frequency-domain simulation gives
    a response that the time-domain simulation never gets near. *)
Definition amp84 : net R := rring (3 / 5) (4 / 5) ((10 / 3)%R, 0%R).
Theorem C84_passivity_needed : exists outs', forwardR (freq_env (tenv 1)) amp84 tt onR = Ok outs'
  /\ forall n, exists outs, forwardR (tenv n) amp84 tt onR = Ok outs
  /\ forall t, t < n -> (1 <= norm2R (csubR (at_ (outs !! t) 0 0 0) (at_ (outs' !! 0) 0 0 0)))%R.
Proof.
  set (r := (3 / 5)%R). set (k := (4 / 5)%R). set (u := ((10 / 3)%R, 0%R)).
  destruct (rring_runs_f (r := r) k (u := u)) as (outs' & HF').
  { intros [x y] E. unfold cmul, r, u in E. cbn [fst snd] in E. injection E as E1 E2. unfold c0. f_equal; lra. }
  exists outs'. split; [exact HF'|]. intros n. destruct (rring_runs r k u n) as (outs & HF). exists outs. split; [exact HF|].
  assert (Sep : separate (rring r k u)) by apply flags_separate, rring_flags.
  destruct (@forward_sound _ _ _ _ _ _ _ RTheory _ (gauss_sound Rfield reqb_eq) (rring r k u) _ ract (tenv n) tt onR outs 0 0 Sep (@rring_act r k u) ltac:(cbn; lia) (@rring_unmixed _ _ _ _ 0) HF) as (a & o & W & RD).
  destruct (@forward_sound _ _ _ _ _ _ _ RTheory _ (gauss_sound Rfield reqb_eq) (rring r k u) _ ract (freq_env (tenv 1)) tt onR outs' 0 0 Sep (@rring_act r k u) ltac:(cbn; lia) (@rring_unmixed _ _ _ _ 0) HF') as (a' & o' & W' & RD').
  assert (E : forall t i, t < n -> i < 8 -> a t i = o t (partner i) /\ o t i = zadd (injected 0%R (rring r k u) onR 0 0 t i)
      (scattered r k u (fun j => past 0%R a (lag (tenv n) (rring r k u) j) t j) i)).
  { intros t i Lt Li. destruct (W t i Lt ltac:(rewrite rring_np; exact Li)) as [H1 H2]. rewrite wire in H1 by exact Li. rewrite scat in H2 by exact Li. auto. }
  assert (E' : forall i, i < 8 -> a' 0 i = o' 0 (partner i) /\ o' 0 i = zadd (injected 0%R (rring r k u) onR 0 0 0 i)
      (scattered r k u (fun j => past 0%R a' (lag (freq_env (tenv 1)) (rring r k u) j) 0 j) i)).
  { intros i Li. destruct (W' 0 i ltac:(cbn; lia) ltac:(rewrite rring_np; exact Li)) as [H1 H2]. rewrite wire in H1 by exact Li. rewrite scat in H2 by exact Li. auto. }
  assert (IJ : forall t i, i < 8 -> injected 0%R (rring r k u) onR 0 0 t i = if i =? 0 then (1%R, 0%R) else (0%R, 0%R)).
  { intros t i Li. do 8 (destruct i as [|i]; [vm_compute; reflexivity|]). lia. }
  (* the loop, in steady state and in time *)
  destruct (E' 1 ltac:(lia)) as [A1 _], (E' 0 ltac:(lia)) as [_ O0], (E' 4 ltac:(lia)) as [A4 _], (E' 6 ltac:(lia)) as [_ O6], (E' 5 ltac:(lia)) as [A5 _],
    (E' 3 ltac:(lia)) as [_ O3], (E' 7 ltac:(lia)) as [A7 _], (E' 2 ltac:(lia)) as [_ O2].
  rewrite IJ in O0, O6, O3, O2 by lia. cbn [partner scattered Nat.eqb] in *.
  unfold past in O0, O6, O3, O2. rewrite (rring_lag_f r k u (i := 5)) in O6 by lia. rewrite (rring_lag_f r k u (i := 4)), (rring_lag_f r k u (i := 1)) in O3 by lia.
  rewrite (rring_lag_f r k u (i := 4)), (rring_lag_f r k u (i := 1)) in O2 by lia. cbn [Nat.ltb Nat.leb Nat.sub] in *.
  assert (F : forall t, t < n -> a t 4 = match t with 0 => z0 | S t' => zmul u (zadd (0%R, k) (zmul (r, 0%R) (a t' 4))) end /\ a t 7 = zadd (r, 0%R) (zmul (0%R, k) (a t 4))).
  { intros t Lt. destruct (E t 1 Lt ltac:(lia)) as [B1 _], (E t 0 Lt ltac:(lia)) as [_ P0], (E t 4 Lt ltac:(lia)) as [B4 _], (E t 6 Lt ltac:(lia)) as [_ P6],
      (E t 7 Lt ltac:(lia)) as [B7 _], (E t 2 Lt ltac:(lia)) as [_ P2]. rewrite IJ in P0, P6, P2 by lia. cbn [partner scattered Nat.eqb] in *.
    unfold past in P6, P2. rewrite (rring_lag r k u n (i := 5)) in P6 by lia. rewrite (rring_lag r k u n (i := 4)), (rring_lag r k u n (i := 1)) in P2 by lia.
    change (1%R, 0%R) with z1 in *. change (0%R, 0%R) with z0 in *. cbn [Nat.ltb Nat.leb] in P2. rewrite Nat.sub_0_r in P2. split.
    - rewrite B4, P6. destruct t as [|t]; cbn [Nat.ltb Nat.leb]; [ring|]. replace (S t - 1) with t by lia.
      destruct (E t 5 ltac:(lia) ltac:(lia)) as [B5 _], (E t 3 ltac:(lia) ltac:(lia)) as [_ P3], (E t 1 ltac:(lia) ltac:(lia)) as [C1 _], (E t 0 ltac:(lia) ltac:(lia)) as [_ Q0].
      rewrite IJ in P3, Q0 by lia. cbn [partner scattered Nat.eqb] in *. change (1%R, 0%R) with z1 in *. change (0%R, 0%R) with z0 in *.
      unfold past in P3. rewrite (rring_lag r k u n (i := 4)), (rring_lag r k u n (i := 1)) in P3 by lia. cbn [Nat.ltb Nat.leb] in P3. rewrite Nat.sub_0_r in P3.
      rewrite B5, P3, C1, Q0. ring.
    - rewrite B7, P2, B1, P0. ring. }
  assert (Y' : a' 0 4 = (0%R, (- (8 / 3))%R)).
  { assert (E4 : a' 0 4 = zmul u (zadd (0%R, k) (zmul (r, 0%R) (a' 0 4)))).
    { rewrite A4 at 1. rewrite O6, A5, O3, A1, O0. change (1%R, 0%R) with z1. change (0%R, 0%R) with z0. ring. }
    destruct (a' 0 4) as [x y]. unfold cmul, cadd, u, r, k in E4. cbn [fst snd] in E4. injection E4 as E5 E6. f_equal; lra. }
  assert (D' : a' 0 7 = zadd (r, 0%R) (zmul (0%R, k) (a' 0 4))).
  { rewrite A7, O2, A1, O0. change (1%R, 0%R) with z1. change (0%R, 0%R) with z0. ring. }
  assert (Y : forall t, t < n -> fst (a t 4) = 0%R /\ (0 <= snd (a t 4%nat))%R).
  { induction t as [|t IH]; intros Lt; destruct (F _ Lt) as [-> _]; [cbn; lra|]. destruct (IH ltac:(lia)) as [Y1 Y2].
    unfold cmul, cadd, u, r, k. cbn [fst snd]. rewrite Y1. lra. }
  intros t Lt. destruct RD as [_ RD], RD' as [_ RD']. assert (Dp : b_det (rring r k u) 7 = true) by (vm_compute; reflexivity).
  assert (Rk : rank (b_det (rring r k u)) 7 = 0) by (vm_compute; reflexivity). unfold amp84. fold r k u.
  pose proof (RD t 7 Lt ltac:(rewrite rring_np; lia) Dp) as G. pose proof (RD' 0 7 ltac:(cbn; lia) ltac:(rewrite rring_np; lia) Dp) as G'.
  rewrite Rk in G, G'. rewrite G, G'.
  destruct (F t Lt) as [_ ->]. rewrite D', Y'. destruct (Y t Lt) as [Y1 Y2]. destruct (a t 4) as [x y]. cbn [fst snd] in Y1, Y2. subst x.
  unfold norm2, csub, cmul, cadd, r, k. cbn [fst snd]. nra.
Qed.
Print Assumptions C84_passivity_needed.
