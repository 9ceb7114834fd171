(** Properties C23 (reals), C25, C26, C27 and C67: energy, reciprocity, and the wave equations of
    circuits built from parts. *)
From Coq Require Import QArith Qcanon Ring Permutation Reals Lra.
From Verif Require Import Base PyStr NetModel NetSpec NetProofs WireProofs NetBuild OrderProofs SimModel SimAlg SimSpec SimNodes SimProofs SimMore SimDelay
  SimRegular Gauss CircuitSpec CircuitProofs EnergyProofs EnergyNet RingExample.
Set Implicit Arguments.
Unset Strict Implicit.
Local Open Scope string_scope.
Local Open Scope list_scope.
Local Open Scope nat_scope.

Section Props.
Variables (K : Type) (k0 k1 : K) (kadd kmul ksub : K -> K -> K) (kopp : K -> K).
Variable solve : nat -> nat -> mat K -> mat K -> option (mat K).
Variables (A : Type) (act : A -> nat -> field K -> A * field K).
Hypothesis KR : ring_theory k0 k1 kadd kmul ksub kopp (@eq K).
Notation "0" := (c0 k0).
Notation forward := (forward k0 k1 kadd kmul ksub kopp solve act).
Notation waves := (waves k0 kadd kmul ksub).
Notation build := (@build (nat -> K * K) Q (fun _ => 0) 0%Q).
Notation compile := (@compile (nat -> K * K) Q (fun _ => 0) 0%Q).
Notation "l !! t" := (nth t l (zero_field k0)) (at level 20).

(** * C25 *)
(** The parts called terminators by [term] absorb everything, the others are lossless.  At every
    time what was sent in has either reached a terminator or is still inside; in the frequency
    domain ([e_dt e = None]) all of it has. *)
Theorem C25_conservation (term : string -> bool) (mods : list (string * net K)) conns (b : net K) e s0 source outs w c :
  solver_sound k0 kadd kmul solve ->
  build mods conns = Ok b ->
  (forall n d, In (n, d) mods -> if term n then dark k0 d w else lossless k0 kadd kmul ksub d w /\ plain d) ->
  sym_C b -> one_partner b -> flags_ok b -> num_act b = O -> w < e_num_wl e -> unmixed k0 e b w ->
  forward e b s0 source = Ok outs ->
  exists cs a o, sub_components mods conns cs /\
    waves e b w (e_num_t e) (injected k0 b source w c) a o /\ reads k0 b outs w c (e_num_t e) a /\
    (forall T, T <= e_num_t e ->
      kadd (energy_on k0 kadd kmul (term_ports term cs) (b_np b) T a)
           (stored k0 kadd kmul e b (fun i => negb (term_ports term cs i)) T a)
      = sent k0 kadd kmul (num_src b) T source w c) /\
    (e_dt e = None -> energy_on k0 kadd kmul (term_ports term cs) (b_np b) (e_num_t e) a
      = sent k0 kadd kmul (num_src b) (e_num_t e) source w c).
Proof.
  exact (fun SS => @forward_conserves K k0 k1 kadd kmul ksub kopp KR solve A act SS term mods conns b e s0 source outs w c).
Qed.

Theorem C25_nested w c b : every_leaf (fun d => lossless k0 kadd kmul ksub d w) c -> compile c = Ok b ->
  lossless k0 kadd kmul ksub b w.
Proof. exact (@compile_lossless K k0 k1 kadd kmul ksub kopp KR w c b). Qed.

(** * C27 *)
Theorem C27_reciprocity e (b b' : net K) s0 s0' source source' outs outs' w c P P' (f : nat -> K * K) :
  solver_sound k0 kadd kmul solve ->
  same_circuit b b' w -> sym_C b -> reciprocal b w -> uniform k0 e b w ->
  flags_ok b -> flags_ok b' -> num_act b = O -> num_act b' = O -> w < e_num_wl e ->
  unmixed k0 e b w -> P < b_np b -> P' < b_np b ->
  b_src b P = true -> b_det b P' = true -> b_src b' P' = true -> b_det b' P = true ->
  (forall t k, t < e_num_t e -> k < num_src b -> at_ (source t) w k c = if k =? rank (b_src b) P then f t else 0) ->
  (forall t k, t < e_num_t e -> k < num_src b' -> at_ (source' t) w k c = if k =? rank (b_src b') P' then f t else 0) ->
  forward e b s0 source = Ok outs -> forward e b' s0' source' = Ok outs' ->
  forall t, t < e_num_t e ->
  at_ (outs !! t) w (rank (b_det b) P') c = at_ (outs' !! t) w (rank (b_det b') P) c.
Proof.
  exact (fun SS => @forward_reciprocal K k0 k1 kadd kmul ksub kopp KR solve A act SS e b b' s0 s0' source source' outs outs' w c P P' f).
Qed.

Theorem C27_nested e w c b : every_leaf (fun d => reciprocal d w /\ uniform k0 e d w) c -> compile c = Ok b ->
  reciprocal b w /\ uniform k0 e b w.
Proof.
  exact (fun H Hc => conj (@compile_reciprocal K k0 w c b (every_leaf_and1 H) Hc) (@compile_uniform K k0 e w c b (every_leaf_and2 H) Hc)).
Qed.

(** * C67 *)
Theorem C67_circuit (mods : list (string * net K)) conns (b : net K) : build mods conns = Ok b ->
  exists cs, sub_components mods conns cs /\
  forall e w T src a o, waves e b w T src a o ->
    (forall t pre n c post q, t < T -> cs = pre ++ (n, c) :: post -> q < b_np c ->
       o t (ports_before pre + q) = cadd kadd (src t (ports_before pre + q))
         (lsum 0 (cadd kadd) (fun q' => cmul kadd kmul ksub (b_S c q q' w) (past k0 a (lag e c q') t (ports_before pre + q'))) (seq O (b_np c)))) /\
    (at_most_one_partner b -> orders_ok cs ->
     forall t conn i j, t < T -> In conn (map clean_conn conns) -> wires cs conn i j ->
       a t i = o t j /\ a t j = o t i) /\
    (forall t p, t < T -> p < b_np b -> unconnected b p -> a t p = 0).
Proof. exact (@waves_parts K k0 k1 kadd kmul ksub kopp KR mods conns b). Qed.
End Props.

Print Assumptions C25_conservation.
Print Assumptions C25_nested.
Print Assumptions C27_reciprocity.
Print Assumptions C27_nested.
Print Assumptions C67_circuit.

(** * C26 and C23 over the real numbers *)
Section Reals.
Variable solve : nat -> nat -> mat R -> mat R -> option (mat R).
Variables (A : Type) (act : A -> nat -> field R -> A * field R).
Local Open Scope R_scope.

Theorem C26_passive (term : string -> bool) (mods : list (string * net R)) conns (b : net R) e s0 source outs w c :
  solver_sound 0 Rplus Rmult solve ->
  @build (nat -> R * R) Q (fun _ => (0, 0)) 0%Q mods conns = Ok b ->
  (forall n d, In (n, d) mods -> if term n then dark 0 d w else passive d w /\ plain d) ->
  sym_C b -> one_partner b -> flags_ok b -> num_act b = 0%nat -> (w < e_num_wl e)%nat -> unmixed 0 e b w ->
  forward 0 1 Rplus Rmult Rminus Ropp solve act e b s0 source = Ok outs ->
  forall T, (T <= e_num_t e)%nat ->
  sent 0 Rplus Rmult (num_det b) T (fun t => nth t outs (zero_field 0)) w c <= sent 0 Rplus Rmult (num_src b) T source w c.
Proof. exact (fun SS => @forward_passive solve A act SS term mods conns b e s0 source outs w c). Qed.

Theorem C26_nested w c b : every_leaf (fun c => passive c w) c ->
  @compile (nat -> R * R) Q (fun _ => (0, 0)) 0%Q c = Ok b -> passive b w.
Proof. exact (@compile_passive w c b). Qed.

Theorem C23_nonnegative e (b : net R) s0 source ps :
  forward_power 0 1 Rplus Rmult Rminus Ropp solve act e b s0 source = Ok ps ->
  forall t w k c, 0 <= nth t ps (fun _ _ _ => 0) w k c.
Proof. exact (@power_nonneg solve A act e b s0 source ps). Qed.
End Reals.
Print Assumptions C26_passive.
Print Assumptions C26_nested.
Print Assumptions C23_nonnegative.

(** * Examples *)
Definition symb {X D} (b : buf X D) : bool :=
  forallb (fun i => forallb (fun j => Bool.eqb (b_C b i j) (b_C b j i)) (seq 0 (b_np b))) (seq 0 (b_np b)).
Lemma symb_ok X D (b : buf X D) : symb b = true -> sym_C b.
Proof.
  intros H i j Li Lj. unfold symb in H. rewrite forallb_forall in H. specialize (H i ltac:(apply in_seq; lia)).
  rewrite forallb_forall in H. specialize (H j ltac:(apply in_seq; lia)). apply eqb_prop in H. exact H.
Qed.
Definition partnerb {X D} (b : buf X D) : bool :=
  forallb (fun i => length (filter (b_C b i) (seq 0 (b_np b))) =? 1) (seq 0 (b_np b)).
Lemma partnerb_ok X D (b : buf X D) : partnerb b = true -> one_partner b.
Proof.
  intros H i Li. unfold partnerb in H. rewrite forallb_forall in H. specialize (H i ltac:(apply in_seq; lia)).
  apply Nat.eqb_eq in H. destruct (filter (b_C b i) (seq 0 (b_np b))) as [|j [|]] eqn:E; try discriminate.
  assert (I : forall k, In k [j] <-> k < b_np b /\ b_C b i k = true).
  { intros k. rewrite <- E, filter_In, in_seq. intuition lia. }
  exists j. destruct (proj1 (I j) (or_introl eq_refl)) as [Lj Cj]. split; [exact Lj|]. split; [exact Cj|].
  intros k Lk Ck. destruct (proj2 (I k) (conj Lk Ck)) as [->|[]]. reflexivity.
Qed.

(** C25: the ring of [RingExample], built from its parts. *)
Definition is_term (n : string) : bool := String.eqb n "s" || String.eqb n "d".
Add Ring qcR : qc_ring.
Example C25_ex : exists b, qbuild ring_parts ring_wires = Ok b
  /\ (forall n d, In (n, d) ring_parts -> if is_term n then dark qc0 d 0 else lossless qc0 Qcplus Qcmult Qcminus d 0 /\ plain d)
  /\ sym_C b /\ one_partner b /\ flags_ok b /\ num_act b = 0 /\ unmixed qc0 (tenv 3) b 0.
Proof.
  assert (H : match qbuild ring_parts ring_wires with Ok b => symb b && partnerb b && flagsb b && (num_act b =? 0) && unmixedb (tenv 3) b 0 | Err _ => false end = true)
    by (vm_compute; reflexivity).
  destruct (qbuild ring_parts ring_wires) as [b|]; [|discriminate]. exists b. split; [reflexivity|].
  repeat (apply andb_true_iff in H as [H ?]).
  split; [|split; [apply symb_ok; auto|split; [apply partnerb_ok; auto|split; [apply flagsb_ok; auto|split; [apply Nat.eqb_eq; auto|apply unmixedb_ok; auto]]]]].
  intros n d [E|[E|[E|[E|[]]]]]; injection E as <- <-; cbn [is_term String.eqb Ascii.eqb Bool.eqb orb].
  - intros i j _ _. reflexivity.
  - split; [|intros i _; auto]. intros x. unfold power_all, scatter, norm2. cbn [b_np q_dc leaf seq].
    rewrite !lsum_cons, !lsum_nil. cbn [b_S q_dc leaf]. unfold cmul, cadd, c0, cst, zs, cst. cbn [fst snd].
    destruct (x 0) as [x0 y0], (x 1) as [x1 y1], (x 2) as [x2 y2], (x 3) as [x3 y3]. cbn [fst snd].
    assert (E : forall z : Qc, ((q2 3 5 * q2 3 5 + q2 4 5 * q2 4 5) * z = z)%Qc).
    { intros z. replace (q2 3 5 * q2 3 5 + q2 4 5 * q2 4 5)%Qc with qc1 by (apply Qc_is_canon; vm_compute; reflexivity). ring. }
    set (P := q2 3 5) in *. set (R := q2 4 5) in *.
    match goal with |- _ = ?s => transitivity (Qcmult (P * P + R * R)%Qc s); [ring|apply E] end.
  - split; [|intros i _; auto]. intros x. unfold power_all, scatter, norm2. cbn [b_np q_wg leaf seq].
    rewrite !lsum_cons, !lsum_nil. cbn [b_S q_wg leaf]. unfold cmul, cadd, c0, cst, zs, cst. cbn [fst snd].
    destruct (x 0) as [x0 y0], (x 1) as [x1 y1]. cbn [fst snd]. ring.
  - intros i j _ _. reflexivity.
Qed.

(** C27: a phase shifter and a delay, in both directions. *)
Definition qpath (s d : nat) : net Qc :=
  {| b_np := 4; b_C := fun i j => qpair i j 0 1 || qpair i j 2 3;
     b_src := fun i => i =? s; b_det := fun i => i =? d; b_act := no; b_order := seq 0 4;
     b_S := fun i j => if qpair i j 1 2 then cst (q2 3 5) (q2 4 5) else zs;
     b_del := fun i => if (1 <=? i) && (i <=? 2) then 1%Q else 0%Q |}.
Example C27_ex : same_circuit (qpath 0 3) (qpath 3 0) 0 /\ sym_C (qpath 0 3) /\ reciprocal (qpath 0 3) 0
  /\ uniform qc0 (tenv 3) (qpath 0 3) 0 /\ flags_ok (qpath 0 3) /\ flags_ok (qpath 3 0) /\ unmixed qc0 (tenv 3) (qpath 0 3) 0
  /\ show 0 0 (qforward (tenv 3) (qpath 0 3) always) = [(0, 0); (3 # 5, 4 # 5); (3 # 5, 4 # 5)]%Q
  /\ show 0 0 (qforward (tenv 3) (qpath 3 0) always) = [(0, 0); (3 # 5, 4 # 5); (3 # 5, 4 # 5)]%Q.
Proof.
  split; [|split; [apply symb_ok; reflexivity|split; [|split; [|split; [|split; [|split; [|split]]]]]]].
  - split; [reflexivity|]. intros i Li. split; [reflexivity|]. split; [|auto].
    cbn in *. destruct i as [|[|[|[|]]]]; try lia; reflexivity.
  - intros i j Li Lj. cbn in *. destruct i as [|[|[|[|]]]]; try lia; destruct j as [|[|[|[|]]]]; try lia; reflexivity.
  - intros i j Li Lj. cbn in Li, Lj. destruct i as [|[|[|[|]]]]; try lia; destruct j as [|[|[|[|]]]]; try lia;
      ((left; reflexivity) || (right; reflexivity)).
  - apply flagsb_ok; vm_compute; reflexivity.
  - apply flagsb_ok; vm_compute; reflexivity.
  - apply unmixedb_ok; vm_compute; reflexivity.
  - vm_compute. reflexivity.
  - vm_compute. reflexivity.
Qed.

(** C26: a waveguide with half the amplitude lost, over the reals, with Gauss elimination. *)
Definition rleaf (n : nat) (s d : nat -> bool) (S : nat -> nat -> nat -> R * R) (del : Q) : net R :=
  {| b_np := n; b_C := fun _ _ => false; b_src := s; b_det := d; b_act := no; b_order := seq 0 n; b_S := S; b_del := fun _ => del |}.
Definition r_parts : list (string * net R) :=
  [("s", rleaf 1 yes no (fun _ _ _ => (0%R, 0%R)) 0%Q);
   ("wg", rleaf 2 no no (fun i j _ => if i =? j then (0%R, 0%R) else ((1 / 2)%R, 0%R)) 1%Q);
   ("d", rleaf 1 no yes (fun _ _ _ => (0%R, 0%R)) 0%Q)].
Definition reqb (x y : R) : bool := if Req_EM_T x y then true else false.
Lemma reqb_eq x y : reqb x y = true <-> x = y.
Proof. unfold reqb. destruct (Req_EM_T x y); split; congruence. Qed.
Definition rsolve := gauss_solve 0%R Rplus Rmult Rminus Rdiv reqb.
Definition ract (s : unit) (t : nat) (x : field R) := (s, x).
Example C26_ex source : exists b outs, solver_sound 0%R Rplus Rmult rsolve
  /\ @build (nat -> R * R) Q (fun _ => (0%R, 0%R)) 0%Q r_parts ["s:0:wg:0"; "wg:1:d:0"] = Ok b
  /\ (forall n d, In (n, d) r_parts -> if is_term n then dark 0%R d 0 else passive d 0 /\ plain d)
  /\ sym_C b /\ one_partner b /\ flags_ok b /\ num_act b = 0 /\ num_src b = 1 /\ num_det b = 1 /\ unmixed 0%R (tenv 3) b 0
  /\ forward 0%R 1%R Rplus Rmult Rminus Ropp rsolve ract (tenv 3) b tt source = Ok outs.
Proof.
  assert (H : match @build (nat -> R * R) Q (fun _ => (0%R, 0%R)) 0%Q r_parts ["s:0:wg:0"; "wg:1:d:0"] with
    | Ok b => symb b && partnerb b && (num_act b =? 0) && (num_src b =? 1) && (num_det b =? 1) && terminated b
              && (length (ml_nodes (tenv 3) b) =? 0)
              && forallb (fun i => (b_np b <=? 4) && ((lag (tenv 3) b i =? 0) || true)) (seq 0 4) | Err _ => false end = true)
    by (vm_compute; reflexivity).
  destruct (@build (nat -> R * R) Q (fun _ => (0%R, 0%R)) 0%Q r_parts ["s:0:wg:0"; "wg:1:d:0"]) as [b|] eqn:EB; [|discriminate].
  repeat (apply andb_true_iff in H as [H ?]).
  apply Nat.eqb_eq in H1, H3, H4, H5.
  assert (SS : forall w, 0 < S w -> unmixed 0%R (tenv 3) b w).
  { intros w _. eapply build_unmixed; [exact EB|]. intros n c [E|[E|[E|[]]]]; injection E as _ <-; intros i j Li Lj N; contradiction N; reflexivity. }
  assert (FL : flags_ok b) by (destruct (build_inv EB) as (cs' & _ & Hn); unfold net_buf in Hn; inv_res; eapply check_flags; eassumption).
  assert (LG : forall i, i < b_np b -> lag (tenv 3) b i <> 0).
  { intros i Li E. assert (I : In i (ml_nodes (tenv 3) b)).
    { apply filter_In. split; [apply in_seq; lia|]. rewrite mc_lag, E. reflexivity. }
    destruct (ml_nodes (tenv 3) b); [destruct I|discriminate H1]. }
  destruct (@forward_succeeds R 0%R 1%R Rplus Rmult Rminus Ropp RTheory rsolve unit ract (tenv 3) b tt source) as (outs & HO & _); auto.
  - exact (gauss_complete Rfield reqb_eq).
  - right. exists 1%Q. split; reflexivity.
  - apply flags_separate. exact FL.
  - congruence.
  - intros w _. split; [apply SS; lia|]. intros x _ i Li Hi. contradiction (LG i Li Hi).
  - exists b, outs. split; [exact (gauss_sound Rfield reqb_eq)|]. split; [reflexivity|].
    split; [|split; [apply symb_ok; auto|split; [apply partnerb_ok; auto|split; [exact FL|do 3 (split; [assumption|]); split; [apply SS; lia|exact HO]]]]].
    intros n d [E|[E|[E|[]]]]; injection E as <- <-; cbn [is_term String.eqb Ascii.eqb Bool.eqb orb].
    + intros i j _ _. reflexivity.
    + split; [|intros i _; auto]. intros x. unfold power_all, scatter, norm2. cbn [b_np rleaf seq].
      rewrite !lsum_cons, !lsum_nil. cbn [b_S rleaf Nat.eqb]. unfold cmul, cadd, c0. cbn [fst snd].
      destruct (x 0) as [x0 y0], (x 1) as [x1 y1]. cbn [fst snd]. nra.
    + intros i j _ _. reflexivity.
Qed.

(** C67: in the ring, connection "dc:2:wg:0" joins ports 3 and 5. *)
Example C67_ex : exists b, qbuild ring_parts ring_wires = Ok b /\ at_most_one_partner b /\ orders_ok ring_parts
  /\ wires ring_parts "dc:2:wg:0" 3 5.
Proof.
  destruct C25_ex as (b & Hb & _ & _ & OP & _). exists b. split; [exact Hb|]. split; [|split].
  - intros i j k Li Lj Lk H1 H2. destruct (OP i Li) as (m & _ & _ & U). rewrite (U j Lj H1), (U k Lk H2). reflexivity.
  - intros n c [E|[E|[E|[E|[]]]]]; injection E as _ <-; apply Permutation_refl.
  - apply parse_Some. vm_compute. reflexivity.
Qed.
