(** Property C100: meshes in the time domain.  With constant inputs, Clements and Reck meshes deliver
    exactly their matrix times the input after finitely many steps. *)
From Coq Require Import Ring QArith Qcanon Reals Lra Permutation.
From Verif Require Import Base PyStr NetModel NetSpec NetProofs WireProofs TypedNet TermProofs NetBuild SimModel SimAlg SimSpec SimDelay SimRegular Settle CircuitSpec CircuitProofs
  CompModel CompSpec CompProofs UniSpec UniProofs MeshModel MeshNet MeshBuild MeshLayers MeshChain MeshTop MeshFlow MeshActs MeshSim MeshQuiet FeedForward MeshRank
  PropMesh RingExample PropUni UnivAlg PropUniv.
From Verif Require SoaProofs.
Set Implicit Arguments.
Unset Strict Implicit.
Local Open Scope string_scope.
Local Open Scope list_scope.
Local Open Scope nat_scope.

Section Props.
Variables (K : Type) (k0 k1 : K) (kadd kmul ksub : K -> K -> K) (kopp : K -> K).
Hypothesis KR : ring_theory k0 k1 kadd kmul ksub kopp (@eq K).
Notation cx := (prod K K).
Notation c0 := (c0 k0).
Notation cadd := (cadd kadd).
Notation cmul := (cmul kadd kmul ksub).
Notation csum := (lsum c0 cadd).
Notation net := (net K).
Notation comps := (list (string * net)).
Notation x0 := (fun _ : nat => c0).
Notation d0 := 0%Q.
Notation realises := (realises k0 k1 kadd kmul ksub kopp).

(** All ports of a component have the same delay, of at most [L] time steps. *)
Definition evenly (c : net) : Prop := forall i j, i < b_np c -> j < b_np c -> b_del c i = b_del c j.
Definition within (e : env) (L : nat) (c : net) : Prop := forall i, i < b_np c -> steps e (b_del c i) <= L.

(** Time-domain simulations of [b] whose sources are constant from step [t1] on: they succeed, and
    [settled] steps later all detectors show [T] times the sources, exactly. *)
Definition delivers (N : nat) (b : net) (w : nat) (T : nat -> nat -> cx) (e : env) (settled : nat) : Prop :=
  forall solve (A : Type) (act : A -> nat -> field K -> A * field K) (s0 : A) source c t1 (x : nat -> cx),
  solver_sound k0 kadd kmul solve -> solver_complete k0 kadd kmul solve ->
  (forall t j, t1 <= t -> j < N -> at_ (source t) w j c = x j) ->
  exists outs, forward k0 k1 kadd kmul ksub kopp solve act e b s0 source = Ok outs /\ length outs = e_num_t e /\
  forall t k, t1 + settled <= t -> t < e_num_t e -> k < N ->
  at_ (nth t outs (zero_field k0)) w k c = csum (fun j => cmul (T k j) (x j)) (seq 0 N).

(** Properties that networks inherit from their components. *)
Section Hereditary.
Variable Q : net -> Prop.
Hypothesis HQ : forall cs conns b, net_buf x0 d0 cs conns = Ok b -> (forall n c, In (n, c) cs -> Q c) -> Q b.
Lemma built_inherits mods ts m b : built x0 d0 mods ts m b -> (forall n c, In (n, c) mods -> Q c) -> Q b.
Proof. intros (cs & H) Hs. apply (HQ (fo_buf H)). intros n c Hin. apply (Hs n c). now apply (fo_mods H). Qed.
Variables wg mzi : nat -> nat -> net.
Hypothesis Hwg : forall l i, leaf_ok 2 (wg l i) /\ Q (wg l i).
Hypothesis Hmzi : forall l i, leaf_ok 4 (mzi l i) /\ Q (mzi l i).
Ltac cases H := repeat match type of H with
  | In _ (_ ++ _) => apply in_app_or in H; destruct H as [H|H]
  | In _ (many _ _ _) => apply many_In in H; destruct H as (? & _ & _ & ->)
  | In _ (_ :: _) => destruct H as [[= <- <-]|H]
  | In _ [] => destruct H
  | In _ (if ?c then _ else _) => destruct c
  end.
Lemma clements_inherits N c b : 2 <= N -> 2 <= c -> clements x0 d0 N c wg mzi = Ok b -> Q b.
Proof.
  intros HN Hc E. destruct (@clements_builds _ _ x0 d0 wg mzi (fun l i => proj1 (Hwg l i)) (fun l i => proj1 (Hmzi l i)) N c HN Hc) as (b2 & L & Hb & HL & Hl & Hw).
  rewrite E in Hb. injection Hb as <-.
  apply (HQ (wo_buf Hw)). intros n p H. apply many_In in H. destruct H as (i & Hi & -> & ->).
  destruct (Nat.eq_dec i (c / 2)) as [->|Hne].
  - unfold clements_last in Hl. destruct (odd_n c); apply (built_inherits Hl); intros n' c' H'; unfold mixc_mods, phase_mods in H'; cases H'; first [apply Hwg|apply Hmzi].
  - apply (built_inherits (HL i ltac:(lia))). intros n' c' H'. unfold cap2_mods in H'. cases H'; first [apply Hwg|apply Hmzi].
Qed.
Lemma reck_inherits N b : 2 <= N -> reck x0 d0 N wg mzi = Ok b -> Q b.
Proof.
  intros HN E. destruct (@reck_builds _ _ x0 d0 wg mzi (fun l i => proj1 (Hwg l i)) (fun l i => proj1 (Hmzi l i)) N HN) as (b2 & L & Hb & HL & Hw).
  rewrite E in Hb. injection Hb as <-.
  apply (HQ (wo_buf Hw)). intros n p H. unfold reck_mods in H. apply in_app_or in H. destruct H as [H|[[= <- <-]|[]]]; [|apply Hwg].
  apply many_In in H. destruct H as (i & Hi & -> & ->).
  apply (built_inherits (HL i Hi)). intros n' c' H'. unfold reck1_mods in H'. cases H'; first [apply Hwg|apply Hmzi].
Qed.
Lemma closed_inherits name N (b s d b' : net) : good_name name -> (forall i, name <> ("s" ++ di i)%string) -> (forall i, name <> ("d" ++ di i)%string) ->
  one_port s -> one_port d -> flagged true false s -> flagged false true d -> 1 <= N -> part_ok b -> silent b -> fd b = 2 * N ->
  mesh_close x0 d0 name N s d b = Ok b' -> Q b -> Q s -> Q d -> Q b'.
Proof.
  intros Hn Hns Hnd Hs Hd Fs Fd HN Hp Hsil Hf Hb' Qb Qs Qd.
  destruct (@mesh_closed _ _ x0 d0 name N b s d) as (b2 & H1 & _ & _ & _ & _ & _ & _ & _ & _ & H10); auto.
  { unfold num_src. rewrite (op_np Hs). cbn [seq filter]. destruct Fs as (-> & _). reflexivity. }
  { unfold num_det. rewrite (op_np Hs). cbn [seq filter]. destruct Fs as (_ & -> & _). reflexivity. }
  { unfold num_src. rewrite (op_np Hd). cbn [seq filter]. destruct Fd as (-> & _). reflexivity. }
  { unfold num_det. rewrite (op_np Hd). cbn [seq filter]. destruct Fd as (_ & -> & _). reflexivity. }
  rewrite Hb' in H1. injection H1 as <-. apply (HQ H10). intros n c I.
  assert (HT : forall m p, In (m, p) (mesh_terms N s d) -> Q p).
  { intros m p J. unfold mesh_terms in J. cases J; assumption. }
  destruct (mesh_terms N s d) as [|t r]; [destruct I|]. destruct I as [->|[[= <- <-]|I]]; [eapply HT; now left|exact Qb|eapply HT; right; exact I].
Qed.
End Hereditary.

Lemma silent_unmixed e (c : net) w : silent c -> evenly c -> unmixed k0 e c w.
Proof.
  intros HS HE i j Li Lj HN. exfalso. apply HN. f_equal. unfold lag. destruct (HS i Li) as (-> & -> & ->), (HS j Lj) as (-> & -> & ->). cbn.
  now rewrite (HE i j Li Lj).
Qed.
Lemma one_unmixed e (c : net) w : b_np c = 1 -> unmixed k0 e c w.
Proof. intros E i j Li Lj HN. exfalso. apply HN. rewrite E in *. now replace i with j by lia. Qed.

Lemma delivers_any (name : string) N (b s d b' : net) w T B (e : env) L : usable_name name -> ending true s -> ending false d ->
  (forall v, absorbs k0 s v) -> (forall v, absorbs k0 d v) -> 1 <= N -> part_ok b -> silent b -> fd b = 2 * N ->
  (forall v, pass k0 N b v B) -> (forall v, unmixed k0 e b v) -> (forall v, unmixed k0 (freq_env e) b v) ->
  within e L b -> within e L s -> within e L d -> 1 <= L ->
  mesh_terminate x0 d0 None name N s d b = Ok b' -> realises N b' w T -> timed e -> w < e_num_wl e ->
  delivers N b' w T e (S B * L).
Proof.
  intros (Hn1 & Hn2 & Hn3 & Hn4) Hs Hd As Ad HN Hp Hsil Hf HB U U' Wb Ws Wd L1 Hb HR HT Lw solve A act s0 source c t1 x SS SC Hx.
  rewrite mesh_terminate_unnamed in Hb by exact Hn4.
  destruct (ending_one Hs) as (S1 & S2 & S3), (ending_one Hd) as (D1 & D2 & D3).
  assert (Fs : flagged true false s) by (destruct Hs as (_ & _ & _ & E1 & E2 & E3); repeat split; assumption).
  assert (Fd : flagged false true d) by (destruct Hd as (_ & _ & _ & E1 & E2 & E3); repeat split; assumption).
  assert (FF : forall v, feed_forward k0 b' v (S B)) by (intros v; apply (closed_ff Hn1 Hn2 Hn3 S1 D1 Fs Fd HN Hp Hsil Hf Hb (As v) (Ad v)), HB).
  assert (UU : forall e v, (forall w, unmixed k0 e b w) -> unmixed k0 e b' v).
  { intros e' v HU. refine (@closed_inherits (fun c => unmixed k0 e' c v) _ name N b s d b' Hn1 Hn2 Hn3 S1 D1 Fs Fd HN Hp Hsil Hf Hb (HU v) _ _).
    - intros cs conns b0 H0 H1. exact (net_unmixed H0 H1).
    - apply one_unmixed, (op_np S1).
    - apply one_unmixed, (op_np D1). }
  assert (LL : forall i, i < b_np b' -> lag e b' i <= L).
  { refine (@closed_inherits (fun c => forall i, i < b_np c -> lag e c i <= L) _ name N b s d b' Hn1 Hn2 Hn3 S1 D1 Fs Fd HN Hp Hsil Hf Hb _ _ _).
    - intros cs conns b0 H0 H1 i Li. destruct (net_buf_inv H0) as (_ & _ & En & _). rewrite En in Li. destruct (located_exists Li) as (n & p & q & HL).
      rewrite (lag_located H0 e HL). destruct HL as (pre & post & E & _ & Lq). apply (H1 n p); [rewrite E; apply in_elt|exact Lq].
    - intros i Li. unfold lag. destruct (Hsil i Li) as (-> & -> & ->). now apply Wb.
    - intros i Li. unfold lag. specialize (Ws i Li). destruct (_ || _); lia.
    - intros i Li. unfold lag. specialize (Wd i Li). destruct (_ || _); lia. }
  assert (ED : ends_dark k0 b' w) by exact (closed_dark Hn1 Hn2 Hn3 S1 D1 Fs Fd HN Hp Hsil Hf Hb (As w) (Ad w)).
  assert (Sep : separate b') by (exact (mesh_separate (k0 := k0) 0 Hn1 Hn2 Hn3 S1 D1 Fs Fd HN Hp Hsil Hf Hb (e := freq_env e) eq_refl)).
  assert (NA : num_act b' = 0) by exact (mesh_act (k0 := k0) 0 Hn1 Hn2 Hn3 S1 D1 Fs Fd HN Hp Hsil Hf Hb (e := freq_env e) eq_refl).
  destruct (mesh_facts 0 Hn1 Hn2 Hn3 S1 D1 Fs Fd HN Hp Hsil Hf Hb) as (En & OP & _).
  assert (TM : terminated b' = true).
  { unfold terminated. apply negb_true_iff. apply not_true_is_false. intros HX. apply existsb_exists in HX. destruct HX as (p & Ip & Fp).
    apply in_seq in Ip. apply free_at_spec in Fp. destruct (OP p) as (j & Lj & Hj & _); [lia|]. destruct (Fp j Lj) as [E _]. congruence. }
  assert (NS : num_src b' = N /\ num_det b' = N).
  { destruct (@mesh_closed _ _ x0 d0 name N b s d) as (b2 & H1 & _ & H3 & H4 & _); auto. rewrite Hb in H1. injection H1 as <-. auto. }
  destruct NS as [NS ND].
  assert (ND0 : num_det b' <> 0) by lia.
  destruct (@forward_succeeds _ _ _ _ _ _ _ KR solve _ act e b' s0 source SC HT Sep TM ND0) as (outs & HF & Ln).
  { intros v _. split; [apply UU, U|]. eapply (ff_no_resonance KR), FF. }
  exists outs. split; [exact HF|]. split; [exact Ln|]. intros t k Lt LT Lk.
  set (src' := (fun _ => (fun _ j _ => fst (x j), fun _ j _ => snd (x j))) : nat -> field K).
  destruct (@forward_succeeds _ _ _ _ _ _ _ KR solve _ act (freq_env e) b' s0 src' SC (or_introl eq_refl) Sep TM ND0) as (outs' & HF' & Ln').
  { intros v _. split; [apply UU, U'|]. eapply (ff_no_resonance KR), FF. }
  assert (EX : forall j c', at_ (src' 0) w j c' = x j) by (intros j c'; unfold at_, src'; cbn; now destruct (x j)).
  rewrite (@ff_settles _ _ _ _ _ _ _ KR solve _ act SS b' e s0 s0 source src' outs outs' w c t1 (S B) L (FF w) ED Sep NA Lw); [| | | |exact LL|exact HF'|exact HF|exact Lt|exact LT|rewrite ND; exact Lk].
  - rewrite (HR solve A act s0 (freq_env e) src' outs' SS eq_refl Lw HF' 0 k c); [|cbn; lia|exact Lk]. apply lsum_ext. intros j _. now rewrite EX.
  - apply UU, U.
  - apply UU, U'.
  - intros t' j Lt' Lj. rewrite NS in Lj. rewrite EX. now apply Hx.
Qed.

(** * C100 *)
(** Circuits in which light only goes forward, one way: whatever the state at the beginning and the
    earlier inputs are, [t1 + B * L] steps later the time domain shows the frequency response. *)
Theorem C100_feed_forward solve (A : Type) (act : A -> nat -> field K -> A * field K) (b : net) e s0 s1 source source' outs outs' w c t1 B L :
  solver_sound k0 kadd kmul solve ->
  feed_forward k0 b w B -> ends_dark k0 b w -> separate b -> num_act b = 0 -> w < e_num_wl e -> unmixed k0 e b w -> unmixed k0 (freq_env e) b w ->
  (forall t k, t1 <= t -> k < num_src b -> at_ (source t) w k c = at_ (source' 0) w k c) ->
  (forall i, i < b_np b -> lag e b i <= L) ->
  forward k0 k1 kadd kmul ksub kopp solve act (freq_env e) b s1 source' = Ok outs' ->
  forward k0 k1 kadd kmul ksub kopp solve act e b s0 source = Ok outs ->
  forall t k, t1 + B * L <= t -> t < e_num_t e -> k < num_det b ->
  at_ (nth t outs (zero_field k0)) w k c = at_ (nth 0 outs' (zero_field k0)) w k c.
Proof.
  intros SS H1 H2 H3 H4 H5 H6 H7 H8 H9 H10 H11 t k.
  exact (@ff_settles _ _ _ _ _ _ _ KR solve _ act SS b e s0 s1 source source' outs outs' w c t1 B L H1 H2 H3 H4 H5 H6 H7 H8 H9 H10 H11 t k).
Qed.

Section Factories.
Variables (wg mzi : nat -> nat -> net) (s d : net) (e : env) (L : nat).
Hypothesis Hwg : forall l i, element 2 (wg l i) /\ (forall w, two_way k0 (wg l i) w) /\ evenly (wg l i) /\ within e L (wg l i).
Hypothesis Hmzi : forall l i, element 4 (mzi l i) /\ (forall w, two_way k0 (mzi l i) w) /\ evenly (mzi l i) /\ within e L (mzi l i).
Hypothesis Hs : ending true s /\ (forall w, absorbs k0 s w) /\ within e L s.
Hypothesis Hd : ending false d /\ (forall w, absorbs k0 d w) /\ within e L d.
Hypothesis HL : 1 <= L.
Hypothesis He : timed e.

Let lwg l i : leaf_ok 2 (wg l i) := proj1 (element_leaf (proj1 (Hwg l i))).
Let lmzi l i : leaf_ok 4 (mzi l i) := proj1 (element_leaf (proj1 (Hmzi l i))).
Let iun e' w : forall cs conns b, net_buf x0 d0 cs conns = Ok b -> (forall n c, In (n, c) cs -> unmixed k0 e' c w) -> unmixed k0 e' b w.
Proof. intros cs conns b H0 H1. exact (net_unmixed H0 H1). Qed.
Let iwi : forall cs conns b, net_buf x0 d0 cs conns = Ok b -> (forall n c, In (n, c) cs -> within e L c) -> within e L b.
Proof.
  intros cs conns b H0 H1 i Li. destruct (net_buf_inv H0) as (_ & _ & En & _ & _ & _ & _ & ->). rewrite En in Li. destruct (located_exists Li) as (n & p & q & HL').
  rewrite (block_vec_located _ _ HL'). destruct HL' as (pre & post & E & _ & Lq). apply (H1 n p); [rewrite E; apply in_elt|exact Lq].
Qed.

Theorem C100_clements N c name b b' w T : 2 <= N -> 2 <= c -> usable_name name ->
  clements x0 d0 N c wg mzi = Ok b -> mesh_terminate x0 d0 None name N s d b = Ok b' ->
  realises N b' w T -> w < e_num_wl e -> delivers N b' w T e ((4 * (c / 2) + 4) * L).
Proof.
  intros HN Hc Hn Hb Hb' HR Lw.
  destruct (@clements_ok _ _ x0 0%Q wg mzi (fun l i => element_leaf (proj1 (Hwg l i))) (fun l i => element_leaf (proj1 (Hmzi l i))) N c HN Hc)
    as (b2 & Hb2 & H1 & H2 & H3). rewrite Hb in Hb2. injection Hb2 as <-.
  assert (UU : forall e' v, unmixed k0 e' b v).
  { intros e' v. refine (@clements_inherits (fun c => unmixed k0 e' c v) (@iun e' v) wg mzi _ _ N c b HN Hc Hb); intros l i; (split; [auto|]);
    [destruct (Hwg l i) as (E & _ & Ev & _)|destruct (Hmzi l i) as (E & _ & Ev & _)]; apply silent_unmixed; auto; apply (element_leaf E). }
  replace (4 * (c / 2) + 4) with (S (4 * (c / 2) + 3)) by lia.
  apply (@delivers_any name N b s d b' w T (4 * (c / 2) + 3) e L Hn (proj1 Hs) (proj1 Hd) (proj1 (proj2 Hs)) (proj1 (proj2 Hd))); auto; try apply Hs; try apply Hd; [lia| |].
  - intros v. exact (clements_pass lwg lmzi (fun l i => proj1 (proj2 (Hwg l i)) v) (fun l i => proj1 (proj2 (Hmzi l i)) v) HN Hc Hb).
  - refine (@clements_inherits (within e L) iwi wg mzi _ _ N c b HN Hc Hb); intros l i; (split; [auto|]); [apply Hwg|apply Hmzi].
Qed.
Theorem C100_reck N name b b' w T : 2 <= N -> usable_name name ->
  reck x0 d0 N wg mzi = Ok b -> mesh_terminate x0 d0 None name N s d b = Ok b' ->
  realises N b' w T -> w < e_num_wl e -> delivers N b' w T e ((N * N + N) * L).
Proof.
  intros HN Hn Hb Hb' HR Lw.
  destruct (@reck_ok _ _ x0 0%Q wg mzi (fun l i => element_leaf (proj1 (Hwg l i))) (fun l i => element_leaf (proj1 (Hmzi l i))) N HN)
    as (b2 & Hb2 & H1 & H2 & H3). rewrite Hb in Hb2. injection Hb2 as <-.
  assert (UU : forall e' v, unmixed k0 e' b v).
  { intros e' v. refine (@reck_inherits (fun c => unmixed k0 e' c v) (@iun e' v) wg mzi _ _ N b HN Hb); intros l i; (split; [auto|]);
    [destruct (Hwg l i) as (E & _ & Ev & _)|destruct (Hmzi l i) as (E & _ & Ev & _)]; apply silent_unmixed; auto; apply (element_leaf E). }
  replace (N * N + N) with (S (N * N + N - 1)) by lia.
  apply (@delivers_any name N b s d b' w T (N * N + N - 1) e L Hn (proj1 Hs) (proj1 Hd) (proj1 (proj2 Hs)) (proj1 (proj2 Hd))); auto; try apply Hs; try apply Hd; [lia| |].
  - intros v. exact (reck_passes lwg lmzi (fun l i => proj1 (proj2 (Hwg l i)) v) (fun l i => proj1 (proj2 (Hmzi l i)) v) HN Hb).
  - refine (@reck_inherits (within e L) iwi wg mzi _ _ N b HN Hb); intros l i; (split; [auto|]); [apply Hwg|apply Hmzi].
Qed.
End Factories.
End Props.

(** ** The default components (clements.py:26-36, reck.py:20-28) *)
Section Default.
Variables (c : Q) (wl : nat -> R) (gw gm : nat -> nat -> guide) (e : env) (L : nat).
Hypothesis Hloss : forall l i, (g_loss (gw l i) = 0)%R.
Hypothesis Hgw : forall l i, steps e (guide_delay c (gw l i)) <= L.
Hypothesis Hgm : forall l i, steps e (guide_delay c (gm l i)) <= L.
Hypothesis HL : 1 <= L.
Hypothesis He : timed e.
Notation xR := (fun _ : nat => (0%R, 0%R)).
Notation unitaryR := (unitary 0%R 1%R Rplus Rmult Rminus Ropp).
Notation deliversR := (delivers 0%R 1%R Rplus Rmult Rminus Ropp).

Let Dw ph l i : element 2 (guides_of c wl gw ph l i) /\ (forall w, two_way 0%R (guides_of c wl gw ph l i) w) /\ evenly (guides_of c wl gw ph l i) /\ within e L (guides_of c wl gw ph l i).
Proof.
  split; [exact (proj1 (waveguide_guides c wl (ph l i) 0 (Hloss l i)))|]. split; [intros w; apply waveguide_two_way|].
  split; [intros a b _ _; reflexivity|intros a _; apply Hgw].
Qed.
Let Dm phi theta l i : element 4 (mzis_of c wl gm phi theta l i) /\ (forall w, two_way 0%R (mzis_of c wl gm phi theta l i) w) /\ evenly (mzis_of c wl gm phi theta l i) /\ within e L (mzis_of c wl gm phi theta l i).
Proof.
  split; [exact (proj1 (mzi_mixes c wl (gm l i) (phi l i) (theta l i) 0))|]. split; [intros w; apply mzi_two_way|].
  split; [intros a b _ _; reflexivity|intros a _; apply Hgm].
Qed.
Let Ds : ending true source /\ (forall w, absorbs 0%R source w) /\ within e L source.
Proof. split; [exact source_ending|]. split; [intros w; reflexivity|]. intros i _. change (b_del source i) with 0%Q. rewrite SoaProofs.steps_0. lia. Qed.
Let Dd : ending false detector /\ (forall w, absorbs 0%R detector w) /\ within e L detector.
Proof. split; [exact detector_ending|]. split; [intros w; reflexivity|]. intros i _. change (b_del detector i) with 0%Q. rewrite SoaProofs.steps_0. lia. Qed.

(** Whatever the phases are, at every wavelength a unitary matrix is delivered; and every unitary
    matrix is delivered for some phases. *)
Theorem C100_clements_default N cap name ph phi theta : 2 <= N -> 2 <= cap -> usable_name name ->
  exists b b', clements xR 0%Q N cap (guides_of c wl gw ph) (mzis_of c wl gm phi theta) = Ok b
    /\ mesh_terminate xR 0%Q None name N source detector b = Ok b'
    /\ forall w, w < e_num_wl e -> exists T, unitaryR N T /\ deliversR N b' w T e ((4 * (cap / 2) + 4) * L).
Proof.
  intros HN Hc Hn. destruct (C63_clements_default c wl gm ph phi theta HN Hc Hn Hloss) as (b & b' & Hb & Hb' & _ & HT).
  exists b, b'. split; [exact Hb|]. split; [exact Hb'|]. intros w Lw. destruct (HT w) as (T & HU & HR). exists T. split; [exact HU|].
  exact (C100_clements RTheory (Dw ph) (Dm phi theta) Ds Dd HL He HN Hc Hn Hb Hb' HR Lw).
Qed.
Theorem C100_reck_default N name ph phi theta : 2 <= N -> usable_name name ->
  exists b b', reck xR 0%Q N (guides_of c wl gw ph) (mzis_of c wl gm phi theta) = Ok b
    /\ mesh_terminate xR 0%Q None name N source detector b = Ok b'
    /\ forall w, w < e_num_wl e -> exists T, unitaryR N T /\ deliversR N b' w T e ((N * N + N) * L).
Proof.
  intros HN Hn. destruct (C63_reck_default c wl gm ph phi theta HN Hn Hloss) as (b & b' & Hb & Hb' & _ & HT).
  exists b, b'. split; [exact Hb|]. split; [exact Hb'|]. intros w Lw. destruct (HT w) as (T & HU & HR). exists T. split; [exact HU|].
  exact (C100_reck RTheory (Dw ph) (Dm phi theta) Ds Dd HL He HN Hn Hb Hb' HR Lw).
Qed.
Theorem C100_clements_universal N cap name w T : 2 <= N -> N <= cap -> usable_name name -> w < e_num_wl e -> unitaryR N T ->
  exists ph phi theta b b', clements xR 0%Q N cap (guides_of c wl gw ph) (mzis_of c wl gm phi theta) = Ok b
    /\ mesh_terminate xR 0%Q None name N source detector b = Ok b' /\ deliversR N b' w T e ((4 * (cap / 2) + 4) * L).
Proof.
  intros HN Hc Hn Lw HU. destruct (C83_clements_universal c wl w gm Hloss HN Hc Hn HU) as (ph & phi & theta & b & b' & Hb & Hb' & _ & HR).
  exists ph, phi, theta, b, b'. split; [exact Hb|]. split; [exact Hb'|]. refine (C100_clements RTheory (Dw ph) (Dm phi theta) Ds Dd HL He HN _ Hn Hb Hb' HR Lw). lia.
Qed.
Theorem C100_reck_universal N name w T : 2 <= N -> usable_name name -> w < e_num_wl e -> unitaryR N T ->
  exists ph phi theta b b', reck xR 0%Q N (guides_of c wl gw ph) (mzis_of c wl gm phi theta) = Ok b
    /\ mesh_terminate xR 0%Q None name N source detector b = Ok b' /\ deliversR N b' w T e ((N * N + N) * L).
Proof.
  intros HN Hn Lw HU. destruct (C82_reck_universal c wl w gm Hloss HN Hn HU) as (ph & phi & theta & b & b' & Hb & Hb' & _ & HR).
  exists ph, phi, theta, b, b'. split; [exact Hb|]. split; [exact Hb'|]. exact (C100_reck RTheory (Dw ph) (Dm phi theta) Ds Dd HL He HN Hn Hb Hb' HR Lw).
Qed.
End Default.

(** Guides with a delay of one step and 3-4-5 couplers. *)
Example C100_ex : exists b b', clements zs 0%Q 2 2 (fun _ _ => q_wg 1) (fun _ _ => q_dc) = Ok b
  /\ mesh_terminate zs 0%Q None "clementsnxn" 2 q_src q_det b = Ok b'
  /\ exists T, unitary qc0 qc1 Qcplus Qcmult Qcminus Qcopp 2 T /\ delivers qc0 qc1 Qcplus Qcmult Qcminus Qcopp 2 b' 0 T (tenv 20) 8.
Proof.
  destruct (@C63_clements _ qc0 qc1 Qcplus Qcmult Qcminus Qcopp qc_ring (fun _ _ => q_wg 1) (fun _ _ => q_dc) q_src q_det 0) with (N := 2) (c := 2) (name := "clementsnxn") as (b & b' & T & Hb & Hb' & HU & HR);
    auto using name_usable; try (split; [repeat split|reflexivity]).
  { intros. split; [repeat split|]. split; [reflexivity|]. apply pair_equal_spec; split; apply Qc_is_canon; vm_compute; reflexivity. }
  { intros. apply q_mixes. }
  exists b, b'. split; [exact Hb|]. split; [exact Hb'|]. exists T. split; [exact HU|].
  refine (@C100_clements _ qc0 qc1 Qcplus Qcmult Qcminus Qcopp qc_ring (fun _ _ => q_wg 1) (fun _ _ => q_dc) q_src q_det (tenv 20) 1 _ _ _ _ (le_n 1) _ 2 2 "clementsnxn" b b' 0 T _ _ _ Hb Hb' HR _); auto using name_usable.
  - intros l i. split; [repeat split|]. split; [|split].
    + intros w a d La Ld E. change (a < 2) in La. change (d < 2) in Ld.
      assert (a = 0 \/ a = 1) as [->| ->] by lia; assert (d = 0 \/ d = 1) as [->| ->] by lia; try discriminate E; reflexivity.
    + intros a d _ _. reflexivity.
    + intros a _. vm_compute. lia.
  - intros l i. split; [repeat split|]. split; [|split].
    + intros w a d La Ld E. change (a < 4) in La. change (d < 4) in Ld.
      assert (a = 0 \/ a = 1 \/ a = 2 \/ a = 3) as [->|[->|[->| ->]]] by lia; assert (d = 0 \/ d = 1 \/ d = 2 \/ d = 3) as [->|[->|[->| ->]]] by lia; try discriminate E; reflexivity.
    + intros a d _ _. reflexivity.
    + intros a _. vm_compute. lia.
  - split; [repeat split|]. split; [reflexivity|]. intros a _. vm_compute. lia.
  - split; [repeat split|]. split; [reflexivity|]. intros a _. vm_compute. lia.
  - right. exists 1%Q. split; reflexivity.
  - cbn. lia.
Qed.
Print Assumptions C100_feed_forward.
Print Assumptions C100_clements.
Print Assumptions C100_reck.
Print Assumptions C100_clements_default.
Print Assumptions C100_reck_default.
Print Assumptions C100_clements_universal.
Print Assumptions C100_reck_universal.
