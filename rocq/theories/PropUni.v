(** Property C63: Clements and Reck meshes realise unitary matrices, for every size. *)
From Coq Require Import Ring QArith Qcanon Reals Lra Permutation.
From Verif Require Import Base PyStr NetModel NetSpec NetProofs TypedNet TermProofs NetBuild SimModel SimAlg SimSpec CircuitSpec CircuitProofs CompModel CompSpec CompProofs UniSpec UniProofs MeshModel MeshNet MeshBuild MeshLayers MeshChain MeshTop MeshFlow MeshActs MeshSim MeshQuiet PropMesh RingExample.
Set Implicit Arguments.
Unset Strict Implicit.
Local Open Scope string_scope.
Local Open Scope list_scope.
Local Open Scope nat_scope.

Section Props.
Variables (K : Type) (k0 k1 : K) (kadd kmul ksub : K -> K -> K) (kopp : K -> K).
Hypothesis KR : ring_theory k0 k1 kadd kmul ksub kopp (@eq K).
Notation cx := (prod K K).
Notation c0 := (c0 k0).
Notation cadd := (cadd kadd).
Notation cmul := (cmul kadd kmul ksub).
Notation csum := (lsum c0 cadd).
Notation net := (net K).
Notation x0 := (fun _ : nat => c0).
Notation unitary := (unitary k0 k1 kadd kmul ksub kopp).
Notation mixes := (mixes k0 k1 kadd kmul ksub kopp).
Notation guides := (guides k0 k1 kadd kmul ksub kopp).

(** What every frequency-domain simulation of [b] gives at wavelength [w]: the waves at the N
    detectors are [T] times the waves of the N sources. *)
Definition realises (N : nat) (b : net) (w : nat) (T : nat -> nat -> cx) : Prop :=
  forall solve (A : Type) (act : A -> nat -> field K -> A * field K) (s0 : A) e source outs,
  solver_sound k0 kadd kmul solve -> e_freq e = true -> w < e_num_wl e ->
  forward k0 k1 kadd kmul ksub kopp solve act e b s0 source = Ok outs ->
  forall t k c, t < e_num_t e -> k < N ->
  at_ (nth t outs (zero_field k0)) w k c = csum (fun j => cmul (T k j) (at_ (source t) w j c)) (seq 0 N).

Lemma realises_any (name : string) N (b s d : net) w M M' : usable_name name -> ending true s -> ending false d ->
  absorbs k0 s w -> absorbs k0 d w -> 1 <= N -> part_ok b -> silent b -> fd b = 2 * N ->
  acts k0 kadd kmul ksub N b w M -> uni k0 kadd kmul ksub kopp N M M' ->
  exists b' T, mesh_terminate x0 0%Q None name N s d b = Ok b' /\ unitary N T /\ realises N b' w T.
Proof.
  intros (Hn1 & Hn2 & Hn3 & Hn4) Hs Hd As Ad HN Hp Hsil Hf HA HU.
  destruct (ending_one Hs) as (S1 & S2 & S3), (ending_one Hd) as (D1 & D2 & D3).
  destruct (@mesh_closed _ _ x0 0%Q name N b s d) as (b' & Hb & _); auto.
  exists b', (mat_of k0 k1 M). split; [rewrite mesh_terminate_unnamed by exact Hn4; exact Hb|]. split; [exact (uni_unitary KR HU)|].
  intros solve A act s0 e source outs SS He Lw HF t k c Lt Lk.
  assert (Fs : flagged true false s) by (destruct Hs as (_ & _ & _ & E1 & E2 & E3); repeat split; assumption).
  assert (Fd : flagged false true d) by (destruct Hd as (_ & _ & _ & E1 & E2 & E3); repeat split; assumption).
  rewrite (closed_transfer KR Hn1 Hn2 Hn3 S1 D1 Fs Fd As Ad HN Hp Hsil Hf Hb He c HA HU SS Lw HF Lt Lk).
  apply (mat_of_spec KR _ HU Lk).
Qed.

(** Frequency-domain simulations of [b] succeed. *)
Definition runs (b : net) : Prop :=
  forall solve (A : Type) (act : A -> nat -> field K -> A * field K) (s0 : A) e source,
  solver_complete k0 kadd kmul solve -> e_freq e = true ->
  exists outs, forward k0 k1 kadd kmul ksub kopp solve act e b s0 source = Ok outs /\ length outs = e_num_t e.

Lemma runs_any (name : string) N (b s d b' : net) : usable_name name -> ending true s -> ending false d ->
  (forall w, absorbs k0 s w) -> (forall w, absorbs k0 d w) -> 1 <= N -> part_ok b -> silent b -> fd b = 2 * N ->
  (forall w, quiet k0 kadd kmul ksub b w) -> mesh_terminate x0 0%Q None name N s d b = Ok b' -> runs b'.
Proof.
  intros (Hn1 & Hn2 & Hn3 & Hn4) Hs Hd As Ad HN Hp Hsil Hf HQ Hb solve A act s0 e source SC He. rewrite mesh_terminate_unnamed in Hb by exact Hn4.
  destruct (ending_one Hs) as (S1 & S2 & S3), (ending_one Hd) as (D1 & D2 & D3).
  assert (Fs : flagged true false s) by (destruct Hs as (_ & _ & _ & E1 & E2 & E3); repeat split; assumption).
  assert (Fd : flagged false true d) by (destruct Hd as (_ & _ & _ & E1 & E2 & E3); repeat split; assumption).
  apply (closed_succeeds KR Hn1 Hn2 Hn3 S1 D1 Fs Fd HN Hp Hsil Hf Hb He); [exact SC|]. intros w _. split; [apply As|]. split; [apply Ad|apply HQ].
Qed.

Section Runs.
Variables (wg mzi : nat -> nat -> net) (s d : net).
Hypothesis Hwg : forall l i, element 2 (wg l i) /\ forall w, two_way k0 (wg l i) w.
Hypothesis Hmzi : forall l i, element 4 (mzi l i) /\ forall w, two_way k0 (mzi l i) w.
Hypothesis Hs : ending true s /\ forall w, absorbs k0 s w.
Hypothesis Hd : ending false d /\ forall w, absorbs k0 d w.
Theorem C63_clements_runs N c name b b' : 2 <= N -> 2 <= c -> usable_name name ->
  clements x0 0%Q N c wg mzi = Ok b -> mesh_terminate x0 0%Q None name N s d b = Ok b' -> runs b'.
Proof.
  intros HN Hc Hn Hb Hb'.
  destruct (@clements_ok _ _ x0 0%Q wg mzi (fun l i => element_leaf (proj1 (Hwg l i))) (fun l i => element_leaf (proj1 (Hmzi l i))) N c HN Hc)
    as (b2 & Hb2 & H1 & H2 & H3). rewrite Hb in Hb2. injection Hb2 as <-.
  apply (@runs_any name N b s d b'); auto; [apply Hs|apply Hd|apply Hs|apply Hd|lia|]. intros w.
  exact (@clements_quiet _ _ _ _ _ _ _ KR wg mzi w (fun l i => proj1 (element_leaf (proj1 (Hwg l i)))) (fun l i => proj1 (element_leaf (proj1 (Hmzi l i))))
    (fun l i => proj2 (Hwg l i) w) (fun l i => proj2 (Hmzi l i) w) N c b HN Hc Hb).
Qed.
Theorem C63_reck_runs N name b b' : 2 <= N -> usable_name name ->
  reck x0 0%Q N wg mzi = Ok b -> mesh_terminate x0 0%Q None name N s d b = Ok b' -> runs b'.
Proof.
  intros HN Hn Hb Hb'.
  destruct (@reck_ok _ _ x0 0%Q wg mzi (fun l i => element_leaf (proj1 (Hwg l i))) (fun l i => element_leaf (proj1 (Hmzi l i))) N HN)
    as (b2 & Hb2 & H1 & H2 & H3). rewrite Hb in Hb2. injection Hb2 as <-.
  apply (@runs_any name N b s d b'); auto; [apply Hs|apply Hd|apply Hs|apply Hd|lia|]. intros w.
  exact (@reck_quiet _ _ _ _ _ _ _ KR wg mzi w (fun l i => proj1 (element_leaf (proj1 (Hwg l i)))) (fun l i => proj1 (element_leaf (proj1 (Hmzi l i))))
    (fun l i => proj2 (Hwg l i) w) (fun l i => proj2 (Hmzi l i) w) N b HN Hb).
Qed.
End Runs.

Section Factories.
Variables (wg mzi : nat -> nat -> net) (s d : net) (w : nat).
Hypothesis Hwg : forall l i, element 2 (wg l i) /\ guides (wg l i) w.
Hypothesis Hmzi : forall l i, element 4 (mzi l i) /\ mixes (mzi l i) w.
Hypothesis Hs : ending true s /\ absorbs k0 s w.
Hypothesis Hd : ending false d /\ absorbs k0 d w.

(** * C63 *)
Theorem C63_clements N c name : 2 <= N -> 2 <= c -> usable_name name ->
  exists b b' T, clements x0 0%Q N c wg mzi = Ok b /\ mesh_terminate x0 0%Q None name N s d b = Ok b'
    /\ unitary N T /\ realises N b' w T.
Proof.
  intros HN Hc Hn.
  destruct (@clements_ok _ _ x0 0%Q wg mzi (fun l i => element_leaf (proj1 (Hwg l i))) (fun l i => element_leaf (proj1 (Hmzi l i))) N c HN Hc)
    as (b & Hb & H1 & H2 & H3).
  destruct (clements_acts KR (w := w) (fun l i => proj1 (element_leaf (proj1 (Hwg l i)))) (fun l i => proj1 (element_leaf (proj1 (Hmzi l i))))
    (fun l i => proj2 (Hwg l i)) (fun l i => proj2 (Hmzi l i)) HN Hc Hb) as (M & M' & HA & HU).
  destruct Hs as (Hs1 & Hs2), Hd as (Hd1 & Hd2).
  destruct (@realises_any name N b s d w M M') as (b' & T & Hb' & HT & HR); auto; [lia|]. exists b, b', T. auto.
Qed.
Theorem C63_reck N name : 2 <= N -> usable_name name ->
  exists b b' T, reck x0 0%Q N wg mzi = Ok b /\ mesh_terminate x0 0%Q None name N s d b = Ok b'
    /\ unitary N T /\ realises N b' w T.
Proof.
  intros HN Hn.
  destruct (@reck_ok _ _ x0 0%Q wg mzi (fun l i => element_leaf (proj1 (Hwg l i))) (fun l i => element_leaf (proj1 (Hmzi l i))) N HN)
    as (b & Hb & H1 & H2 & H3).
  destruct (reck_mesh_acts KR (w := w) (fun l i => proj1 (element_leaf (proj1 (Hwg l i)))) (fun l i => proj1 (element_leaf (proj1 (Hmzi l i))))
    (fun l i => proj2 (Hwg l i)) (fun l i => proj2 (Hmzi l i)) HN Hb) as (M & M' & HA & HU).
  destruct Hs as (Hs1 & Hs2), Hd as (Hd1 & Hd2).
  destruct (@realises_any name N b s d w M M') as (b' & T & Hb' & HT & HR); auto; [lia|]. exists b, b', T. auto.
Qed.
End Factories.
End Props.

(** ** The default components (clements.py:26-36, reck.py:20-28) *)
Section Default.
Variables (c : Q) (wl : nat -> R).
Notation guidesR := (guides 0%R 1%R Rplus Rmult Rminus Ropp).
Notation mixesR := (mixes 0%R 1%R Rplus Rmult Rminus Ropp).

Lemma waveguide_guides (g : guide) ph w : (g_loss g = 0)%R -> element 2 (waveguide c wl g ph) /\ guidesR (waveguide c wl g ph) w.
Proof.
  intros HL. split; [repeat split|]. split.
  - reflexivity.
  - unfold waveguide, guide_amp. rewrite HL. set (a := (guide_phase wl g w + ph)%R).
    cbn. replace (- 0 * Q2R (g_length g) / 20)%R with 0%R by lra.
    assert (E : Rpower 10 0 = 1%R) by (apply Rpower_O; lra). rewrite E. fold a.
    unfold cbar, SimAlg.cmul, SimAlg.c1, SimAlg.c0. cbn. pose proof (sin2_cos2 a) as H. unfold Rsqr in H.
    apply pair_equal_spec; split; nra.
Qed.
Lemma mzi_mixes (g : guide) phi theta w : element 4 (mzi c wl g phi theta) /\ mixesR (mzi c wl g phi theta) w.
Proof.
  split; [repeat split|]. split.
  - intros i j Hi Hj. assert (i = 1 \/ i = 2) as [->| ->] by lia; assert (j = 1 \/ j = 2) as [->| ->] by lia; reflexivity.
  - unfold mzi. set (p0 := guide_phase wl g w). set (p1 := (p0 + phi)%R).
    assert (HS : forall a, (sin a * sin a = 1 - cos a * cos a)%R) by (intros a; pose proof (sin2_cos2 a) as H; unfold Rsqr in H; lra).
    pose proof (HS p0) as H0. pose proof (HS p1) as H1. pose proof (HS theta) as Ht.
    intros i j Li Lj. assert (i = 0 \/ i = 1) as [->| ->] by lia; assert (j = 0 \/ j = 1) as [->| ->] by lia;
      unfold transfer; cbn; fold p0; fold p1; unfold cbar, SimAlg.cmul, SimAlg.cadd, SimAlg.c1, SimAlg.c0; cbn;
      split; apply pair_equal_spec; split; ring [H0 H1 Ht].
Qed.

Lemma waveguide_two_way (g : guide) ph w : two_way 0%R (waveguide c wl g ph) w.
Proof.
  intros i j Li Lj E. change (i < 2) in Li. change (j < 2) in Lj.
  assert (i = 0 \/ i = 1) as [->| ->] by lia; assert (j = 0 \/ j = 1) as [->| ->] by lia; try discriminate E; reflexivity.
Qed.
Lemma mzi_two_way (g : guide) phi theta w : two_way 0%R (mzi c wl g phi theta) w.
Proof.
  intros i j Li Lj E. change (i < 4) in Li. change (j < 4) in Lj.
  assert (i = 0 \/ i = 1 \/ i = 2 \/ i = 3) as [->|[->|[->| ->]]] by lia; assert (j = 0 \/ j = 1 \/ j = 2 \/ j = 3) as [->|[->|[->| ->]]] by lia; try discriminate E; reflexivity.
Qed.

Notation runsR := (runs 0%R 1%R Rplus Rmult Rminus Ropp).
Notation xR := (fun _ : nat => (0%R, 0%R)).
Notation unitaryR := (unitary 0%R 1%R Rplus Rmult Rminus Ropp).
Notation realisesR := (realises 0%R 1%R Rplus Rmult Rminus Ropp).
(** Whatever the phases, lengths and indices of the components are. *)
Theorem C63_clements_default N cap name (gw gm : nat -> nat -> guide) (ph phi theta : nat -> nat -> R) :
  2 <= N -> 2 <= cap -> usable_name name -> (forall l i, g_loss (gw l i) = 0%R) ->
  exists b b', clements xR 0%Q N cap (fun l i => waveguide c wl (gw l i) (ph l i)) (fun l i => mzi c wl (gm l i) (phi l i) (theta l i)) = Ok b
    /\ mesh_terminate xR 0%Q None name N source detector b = Ok b' /\ runsR b'
    /\ forall w, exists T, unitaryR N T /\ realisesR N b' w T.
Proof.
  intros HN Hc Hn HL.
  assert (H : forall w, exists b b' T, clements xR 0%Q N cap (fun l i => waveguide c wl (gw l i) (ph l i)) (fun l i => mzi c wl (gm l i) (phi l i) (theta l i)) = Ok b
    /\ mesh_terminate xR 0%Q None name N source detector b = Ok b' /\ unitaryR N T /\ realisesR N b' w T).
  { intros w. apply (C63_clements RTheory); auto.
    - intros l i. now apply waveguide_guides.
    - intros l i. apply mzi_mixes.
    - split; [repeat split|reflexivity].
    - split; [repeat split|reflexivity]. }
  destruct (H 0) as (b & b' & _ & E1 & E2 & _). exists b, b'. split; [exact E1|]. split; [exact E2|]. split.
  { refine (C63_clements_runs RTheory _ _ _ _ HN Hc Hn E1 E2); [intros l i; split; [apply (@waveguide_guides _ _ 0); apply HL|intros; apply waveguide_two_way]
     |intros l i; split; [apply (mzi_mixes _ _ _ 0)|intros; apply mzi_two_way] | split; [repeat split|reflexivity] | split; [repeat split|reflexivity]]. }
  intros w. destruct (H w) as (b2 & b2' & T & F1 & F2 & F3 & F4).
  assert (b2 = b) by congruence. subst b2. assert (b2' = b') by congruence. subst b2'. exists T. auto.
Qed.
Theorem C63_reck_default N name (gw gm : nat -> nat -> guide) (ph phi theta : nat -> nat -> R) :
  2 <= N -> usable_name name -> (forall l i, g_loss (gw l i) = 0%R) ->
  exists b b', reck xR 0%Q N (fun l i => waveguide c wl (gw l i) (ph l i)) (fun l i => mzi c wl (gm l i) (phi l i) (theta l i)) = Ok b
    /\ mesh_terminate xR 0%Q None name N source detector b = Ok b' /\ runsR b'
    /\ forall w, exists T, unitaryR N T /\ realisesR N b' w T.
Proof.
  intros HN Hn HL.
  assert (H : forall w, exists b b' T, reck xR 0%Q N (fun l i => waveguide c wl (gw l i) (ph l i)) (fun l i => mzi c wl (gm l i) (phi l i) (theta l i)) = Ok b
    /\ mesh_terminate xR 0%Q None name N source detector b = Ok b' /\ unitaryR N T /\ realisesR N b' w T).
  { intros w. apply (C63_reck RTheory); auto.
    - intros l i. now apply waveguide_guides.
    - intros l i. apply mzi_mixes.
    - split; [repeat split|reflexivity].
    - split; [repeat split|reflexivity]. }
  destruct (H 0) as (b & b' & _ & E1 & E2 & _). exists b, b'. split; [exact E1|]. split; [exact E2|]. split.
  { refine (C63_reck_runs RTheory _ _ _ _ HN Hn E1 E2); [intros l i; split; [apply (@waveguide_guides _ _ 0); apply HL|intros; apply waveguide_two_way]
     |intros l i; split; [apply (mzi_mixes _ _ _ 0)|intros; apply mzi_two_way] | split; [repeat split|reflexivity] | split; [repeat split|reflexivity]]. }
  intros w. destruct (H w) as (b2 & b2' & T & F1 & F2 & F3 & F4).
  assert (b2 = b) by congruence. subst b2. assert (b2' = b') by congruence. subst b2'. exists T. auto.
Qed.
End Default.

(** Executable: guides without phase and 3-4-5 couplers. *)
Definition qmesh : res (net Qc) :=
  bind (clements zs 0%Q 2 2 (fun _ _ => q_wg 0) (fun _ _ => q_dc)) (mesh_terminate zs 0%Q None "clementsnxn" 2 q_src q_det).
Lemma q_guides : element 2 (q_wg 0) /\ guides qc0 qc1 Qcplus Qcmult Qcminus Qcopp (q_wg 0) 0.
Proof. split; [repeat split|]. split; [reflexivity|]. apply pair_equal_spec; split; apply Qc_is_canon; vm_compute; reflexivity. Qed.
Lemma q_mixes : element 4 q_dc /\ mixes qc0 qc1 Qcplus Qcmult Qcminus Qcopp q_dc 0.
Proof.
  split; [repeat split|]. split.
  - intros i j Hi Hj. assert (i = 1 \/ i = 2) as [->| ->] by lia; assert (j = 1 \/ j = 2) as [->| ->] by lia; reflexivity.
  - intros i j Li Lj. assert (i = 0 \/ i = 1) as [->| ->] by lia; assert (j = 0 \/ j = 1) as [->| ->] by lia; split; apply pair_equal_spec; split; apply Qc_is_canon; vm_compute; reflexivity.
Qed.
Example C63_ex : exists b b' T, clements zs 0%Q 2 2 (fun _ _ => q_wg 0) (fun _ _ => q_dc) = Ok b
  /\ mesh_terminate zs 0%Q None "clementsnxn" 2 q_src q_det b = Ok b'
  /\ unitary qc0 qc1 Qcplus Qcmult Qcminus Qcopp 2 T
  /\ realises qc0 qc1 Qcplus Qcmult Qcminus Qcopp 2 b' 0 T.
Proof.
  apply (C63_clements qc_ring); auto using name_usable; try (split; [repeat split|reflexivity]); intros.
  - apply q_guides.
  - apply q_mixes.
Qed.
Definition beam (t : nat) : field Qc := (fun _ j c => if (j =? 0) && (c =? 0) then qc1 else qc0, fun _ _ _ => qc0).
Example C63_runs : exists b' o, qmesh = Ok b' /\ qforward fenv b' beam = Ok o
  /\ map (fun k => let z := at_ (nth 0 o (zero_field qc0)) 0 k 0 in (this (fst z), this (snd z))) (seq 0 2) = [(3 # 5, 0); (0, 4 # 5)]%Q.
Proof.
  assert (H : match qmesh with Ok b' => match qforward fenv b' beam with Ok o =>
     map (fun k => let z := at_ (nth 0 o (zero_field qc0)) 0 k 0 in (this (fst z), this (snd z))) (seq 0 2) | _ => [] end | _ => [] end = [(3 # 5, 0); (0, 4 # 5)]%Q) by (vm_compute; reflexivity).
  destruct qmesh as [b'|]; [|discriminate]. exists b'. destruct (qforward fenv b' beam) as [o|]; [|discriminate]. exists o. auto.
Qed.

Print Assumptions C63_clements_runs.
Print Assumptions C63_reck_runs.
Print Assumptions C63_clements.
Print Assumptions C63_reck.
Print Assumptions C63_clements_default.
Print Assumptions C63_reck_default.
