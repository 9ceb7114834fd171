(** Properties C82 and C83: Reck meshes, and Clements meshes with enough columns, realise every
    unitary matrix; Clements meshes with too few columns do not. *)
From Coq Require Import Ring QArith Reals Lra Permutation.
From Verif Require Import Base PyStr NetModel NetSpec NetProofs TypedNet TermProofs NetBuild SimModel SimAlg SimSpec CircuitSpec CircuitProofs CompModel CompSpec CompProofs UniSpec UniProofs MeshModel MeshNet MeshBuild MeshLayers MeshChain MeshTop MeshFlow MeshActs MeshSim MeshQuiet PropMesh PropUni UnivAlg UnivReck UnivClem Gauss.
Set Implicit Arguments.
Unset Strict Implicit.
Local Open Scope string_scope.
Local Open Scope list_scope.
Local Open Scope nat_scope.
Add Ring Zring : zcr.

Notation runsR := (runs 0%R 1%R Rplus Rmult Rminus Ropp).
Notation xR := (fun _ : nat => (0%R, 0%R)).
Notation realisesR := (realises 0%R 1%R Rplus Rmult Rminus Ropp).
Notation actsR := (acts 0%R Rplus Rmult Rminus).

Lemma source_ending : ending true source. Proof. repeat split. Qed.
Lemma detector_ending : ending false detector. Proof. repeat split. Qed.

Lemma realises_op (name : string) N (b : net R) w M M' T : usable_name name -> 1 <= N -> part_ok b -> silent b -> fd b = 2 * N ->
  actsR N b w M -> zuni N M M' -> (forall x k, k < N -> M x k = zsum (fun j => zmul (T k j) (x j)) (seq 0 N)) ->
  forall b', mesh_terminate xR 0%Q None name N source detector b = Ok b' -> realisesR N b' w T.
Proof.
  intros (Hn1 & Hn2 & Hn3 & Hn4) HN Hp Hsil Hf HA HU HT b' Hb solve A act s0 e src outs SS He Lw HF t k c Lt Lk. rewrite mesh_terminate_unnamed in Hb by exact Hn4.
  destruct (ending_one source_ending) as (S1 & S2 & S3), (ending_one detector_ending) as (D1 & D2 & D3).
  assert (Fs : @flagged R true false source) by (repeat split).
  assert (Fd : @flagged R false true detector) by (repeat split).
  rewrite (closed_transfer RTheory Hn1 Hn2 Hn3 S1 D1 Fs Fd eq_refl eq_refl HN Hp Hsil Hf Hb He c HA HU SS Lw HF Lt Lk).
  now apply HT.
Qed.

(** An operator taking the conjugate rows of [T] to the unit vectors is [T]. *)
Lemma op_target N M M' T : zuni N M M' -> (forall k j, k < N -> j < N -> M (fun i => zbar (T k i)) j = zunit k j) ->
  forall x k, k < N -> M x k = zsum (fun j => zmul (T k j) (x j)) (seq 0 N).
Proof.
  intros HM HT x k Lk. rewrite <- (dot_unit_l RTheory (N := N) (M x) Lk).
  transitivity (zdot N (M (fun i => zbar (T k i))) (M x)).
  - apply dot_ext; [|auto]. intros j Lj. symmetry. now apply HT.
  - rewrite (u_adj HM). unfold dot. apply lsum_ext. intros j Hj. apply in_seq in Hj. rewrite (u_left HM) by lia. now rewrite (bar_bar RTheory).
Qed.
Lemma rows_ortho N T : zunitary N T -> ortho N (fun k j => zbar (T k j)).
Proof.
  intros HT k l Lk Ll. destruct (HT k l Lk Ll) as [_ H]. unfold dot. rewrite <- H. apply lsum_ext. intros j _.
  now rewrite (bar_bar RTheory).
Qed.
Lemma cols_ortho N T : zunitary N T -> forall k l, k < N -> l < N ->
  zsum (fun r => zmul (zbar (zbar (T r k))) (zbar (T r l))) (seq 0 N) = if k =? l then z1 else z0.
Proof.
  intros HT k l Lk Ll. destruct (HT l k Ll Lk) as [H _]. rewrite Nat.eqb_sym, <- H. apply lsum_ext. intros j _. rewrite (bar_bar RTheory). ring.
Qed.

Section Default.
Variables (c : Q) (wl : nat -> R) (w : nat) (gw gm : nat -> nat -> guide).
Hypothesis HL : forall l i, (g_loss (gw l i) = 0)%R.
Notation gp g := (guide_phase wl g w).
Definition guides_of (ph : nat -> nat -> R) (l i : nat) : net R := waveguide c wl (gw l i) (ph l i).
Definition mzis_of (phi theta : nat -> nat -> R) (l i : nat) : net R := mzi c wl (gm l i) (phi l i) (theta l i).

Lemma gain_cis ph l i : gain (guides_of ph l i) w = cis (gp (gw l i) + ph l i).
Proof.
  unfold gain, guides_of, waveguide, guide_amp. rewrite HL. cbn. replace (- 0 * Q2R (g_length (gw l i)) / 20)%R with 0%R by lra.
  rewrite Rpower_O by lra. unfold cis. f_equal; ring.
Qed.
Lemma transfer_mixm phi theta l i a d : transfer (mzis_of phi theta l i) w a d = mixm (cis (gp (gm l i))) (gp (gm l i) + phi l i) (theta l i) a d.
Proof.
  unfold transfer, mixm, mzis_of, mzi. destruct (a =? 0), (d =? 0); cbn; zz; f_equal; ring.
Qed.
Lemma cis_is_unit a : is_unit (cis a). Proof. apply cis_unit. Qed.
Lemma guides_ok ph l i : element 2 (guides_of ph l i) /\ guides 0%R 1%R Rplus Rmult Rminus Ropp (guides_of ph l i) w.
Proof. apply waveguide_guides, HL. Qed.
Lemma mzis_ok phi theta l i : element 4 (mzis_of phi theta l i) /\ mixes 0%R 1%R Rplus Rmult Rminus Ropp (mzis_of phi theta l i) w.
Proof. apply mzi_mixes. Qed.

Lemma leaf_guides ph l i : leaf_ok 2 (guides_of ph l i). Proof. exact (proj1 (element_leaf (proj1 (guides_ok ph l i)))). Qed.
Lemma leaf_mzis phi theta l i : leaf_ok 4 (mzis_of phi theta l i). Proof. exact (proj1 (element_leaf (proj1 (mzis_ok phi theta l i)))). Qed.

(** * C82: Reck *)
Lemma sweep_swp (a b : nat -> net R) i d : forall x k,
  sweep 0%R 1%R Rplus Rmult Rminus a b w i d x k = swp (gain (a 0) w) (fun j => transfer (b j) w) i d x k.
Proof.
  revert i. induction d as [|d IH]; intros i x k; [reflexivity|]. cbn [sweep swp]. apply mix2_ext; [reflexivity|]. intros j _. unfold lift. destruct (j <? 1); [reflexivity|apply IH].
Qed.

Theorem C82_reck_universal N name T : 2 <= N -> usable_name name -> zunitary N T ->
  exists ph phi theta b b', reck xR 0%Q N (guides_of ph) (mzis_of phi theta) = Ok b
    /\ mesh_terminate xR 0%Q None name N source detector b = Ok b' /\ runsR b' /\ realisesR N b' w T.
Proof.
  intros HN Hn HT.
  destruct (@cascade_focus N (fun m i => cis (gp (gm m i))) (fun m i => cis_is_unit _) (N - 1) 0 (fun k j => zbar (T k j))) as (p0 & g & al & th & Hp & Hg & HF); [lia|lia| |].
  { replace (S (N - 1)) with N by lia. now apply rows_ortho. }
  destruct (unit_cis Hp) as (a0 & Ea0).
  destruct (@finite_choice R 0%R N (fun m a => g m = cis a)) as (ag & Hag); [intros m _; apply unit_cis, Hg|].
  set (ph := fun m (_ : nat) => ((if m =? N - 1 then a0 else ag m) - gp (gw m 0))%R). set (phi := fun m i => (al m i - gp (gm m i))%R).
  assert (HE : forall m, 0 <= m -> forall x k, swps N (fun m i => cis (gp (gm m i))) (fun m => gain (guides_of ph m 0) w) al th m x k
     = sweep 0%R 1%R Rplus Rmult Rminus (guides_of ph m) (mzis_of phi th m) w 0 (N - m - 1) x k).
  { intros m _ x k. rewrite sweep_swp. unfold swps. apply swp_ext. intros j a d _. rewrite transfer_mixm. f_equal. unfold phi. ring. }
  destruct (C63_reck_default c wl (N := N) gm ph phi th HN Hn HL) as (b & b' & Hb & Hb' & Hr & _).
  exists ph, phi, th, b, b'. split; [exact Hb|]. split; [exact Hb'|]. split; [exact Hr|].
  destruct (@reck_ok _ _ xR 0%Q (guides_of ph) (mzis_of phi th) (fun l i => element_leaf (proj1 (guides_ok ph l i))) (fun l i => element_leaf (proj1 (mzis_ok phi th l i))) N HN)
    as (b2 & Hb2 & H1 & H2 & H3). change (reck xR 0%Q N (guides_of ph) (mzis_of phi th) = Ok b) in Hb. rewrite Hb in Hb2. injection Hb2 as <-.
  destruct (reck_does RTheory (leaf_guides ph) (leaf_mzis phi th) (fun l i => proj2 (guides_ok ph l i)) (fun l i => proj2 (mzis_ok phi th l i)) HN Hb) as (HA & M' & HM).
  refine (@realises_op name N b w _ M' T Hn _ H1 H2 H3 HA HM _ b' Hb'); [lia|]. apply (op_target HM). intros k j Lk Lj.
  rewrite <- HF by lia. unfold reck_op.
  assert (Eph : gain (guides_of ph (N - 1) 0) w = p0).
  { rewrite gain_cis, Ea0. unfold ph. rewrite Nat.eqb_refl. f_equal. ring. }
  rewrite Eph. symmetry.
  assert (HU : forall j, 0 <= j -> j < 0 + (N - 1) -> exists M', zuni (S (0 + (N - 1) - j)) (swps N (fun m i => cis (gp (gm m i))) (fun m => gain (guides_of ph m 0) w) al th j) M').
  { intros i _ Li. replace (S (0 + (N - 1) - i)) with (N - i) by lia. apply swps_uni; [intros; apply cis_is_unit|lia|]. rewrite gain_cis. apply cis_is_unit. }
  rewrite <- (cascade_ext HE HU Hp) by lia.
  (* the gains of the first N - 1 layers are the wanted ones *)
  assert (HG : forall m, m < N - 1 -> gain (guides_of ph m 0) w = g m).
  { intros m Hm. rewrite gain_cis, Hag by lia. unfold ph. destruct (Nat.eqb_spec m (N - 1)); [lia|]. f_equal. ring. }
  assert (HC : forall d m x i, m + d = N - 1 -> i <= d ->
    zcascade (swps N (fun m i => cis (gp (gm m i))) g al th) p0 m d x i
    = zcascade (swps N (fun m i => cis (gp (gm m i))) (fun m => gain (guides_of ph m 0) w) al th) p0 m d x i).
  { induction d as [|d IH]; intros m x i Em Li; [reflexivity|]. cbn [cascade].
    assert (ES : swps N (fun m i => cis (gp (gm m i))) (fun m => gain (guides_of ph m 0) w) al th m = swps N (fun m i => cis (gp (gm m i))) g al th m).
    { unfold swps. now rewrite HG by lia. }
    rewrite ES. unfold lift. destruct (Nat.ltb_spec i 1); [reflexivity|]. apply IH; lia. }
  apply HC; lia.
Qed.

(** * C83: Clements *)
Lemma column_ext s N U U' e e' x x' : (forall h a d, s + 2 * h + 1 < N -> U (s + 2 * h) a d = U' (s + 2 * h) a d) -> (forall k, k < N -> e k = e' k) ->
  (forall k, k < N -> x k = x' k) -> forall k, k < N -> zcolumn s N U e x k = zcolumn s N U' e' x' k.
Proof.
  intros HU He Hx k Lk. destruct (@lines s N k Lk) as [H|[(h & E & H)|[(h & E & H)|(h & E)]]].
  - rewrite !column_low by exact H. now rewrite He, Hx.
  - rewrite !(column_even _ _ _ _ _ _ E H). subst k. rewrite !HU, !Hx by lia. reflexivity.
  - rewrite !(column_end _ _ _ _ _ _ E H). now rewrite He, Hx.
  - replace k with (s + 2 * h + 1) in * by lia. rewrite !(column_odd RTheory _ _ _ _ (h := h) (eq_refl (s + 2 * h))). rewrite !HU, !Hx by lia. reflexivity.
Qed.

Lemma in_row_pred (A : nat -> vecR -> vecR) n x : 1 <= n -> in_row A n x = A n (in_row A (n - 1) x).
Proof. intros H. destruct n as [|n]; [lia|]. cbn [in_row Nat.sub]. now rewrite Nat.sub_0_r. Qed.

Lemma start2 l : start (2 * l) = 0. Proof. unfold start. now rewrite even2. Qed.
Lemma start21 l : start (2 * l + 1) = 1. Proof. unfold start. now rewrite odd2. Qed.
Lemma half2 l : 2 * l / 2 = l. Proof. rewrite <- (Nat.add_0_r (2 * l)). apply half. lia. Qed.
Lemma half21 l : (2 * l + 1) / 2 = l. Proof. apply half. lia. Qed.

Section Clements.
Variables (N cap n r : nat) (ph phi theta : nat -> nat -> R).
Hypothesis Hcap : cap = 2 * n + r.
Hypothesis Hr : r < 2.
(** The columns of a Clements mesh as alternating columns. *)
Definition cb (t : nat) (j : nat) : cR := if t <? 2 * n then cis (gp (gm (t / 2) j)) else cis (gp (gm n (j / 2))).
Definition ce (t : nat) : cR := if t <? 2 * n then gain (guides_of ph (t / 2) 0) w else gain (guides_of ph n N) w.
Definition ca (t j : nat) : R := if t <? 2 * n then (gp (gm (t / 2) j) + phi (t / 2) j)%R else (gp (gm n (j / 2)) + phi n (j / 2)%nat)%R.
Definition ct (t j : nat) : R := if t <? 2 * n then theta (t / 2) j else theta n (j / 2).

Lemma ncol_even l x k : l < n -> k < N -> ncol N cb ce ca ct (2 * l) x k
  = zcolumn 0 N (fun j => transfer (mzis_of phi theta l j) w) (fun _ => gain (guides_of ph l 0) w) x k.
Proof.
  intros Hl Lk. unfold ncol. rewrite start2. apply column_ext; auto.
  - intros h a d _. rewrite transfer_mixm. unfold cb, ca, ct. rewrite (proj2 (Nat.ltb_lt (2 * l) (2 * n))), half2 by lia. reflexivity.
  - intros _ _. unfold ce. rewrite (proj2 (Nat.ltb_lt (2 * l) (2 * n))), half2 by lia. reflexivity.
Qed.
Lemma ncol_odd l x k : l < n -> k < N -> ncol N cb ce ca ct (2 * l + 1) x k
  = zcolumn 1 N (fun j => transfer (mzis_of phi theta l j) w) (fun _ => gain (guides_of ph l 0) w) x k.
Proof.
  intros Hl Lk. unfold ncol. rewrite start21. apply column_ext; auto.
  - intros h a d _. rewrite transfer_mixm. unfold cb, ca, ct. rewrite (proj2 (Nat.ltb_lt (2 * l + 1) (2 * n))), half21 by lia. reflexivity.
  - intros _ _. unfold ce. rewrite (proj2 (Nat.ltb_lt (2 * l + 1) (2 * n))), half21 by lia. reflexivity.
Qed.
Lemma ncol_last x k : k < N -> ncol N cb ce ca ct (2 * n) x k
  = zcolumn 0 N (fun j => transfer (mzis_of phi theta n (j / 2)) w) (fun _ => gain (guides_of ph n N) w) x k.
Proof.
  intros Lk. unfold ncol. rewrite start2. apply column_ext; auto.
  - intros h a d _. rewrite transfer_mixm. unfold cb, ca, ct. rewrite (proj2 (Nat.ltb_ge (2 * n) (2 * n))) by lia. reflexivity.
  - intros _ _. unfold ce. rewrite (proj2 (Nat.ltb_ge (2 * n) (2 * n))) by lia. reflexivity.
Qed.
Lemma ce_unit t : is_unit (ce t).
Proof. unfold ce. destruct (t <? 2 * n); rewrite gain_cis; apply cis_is_unit. Qed.
Lemma cb_unit t j : is_unit (cb t j).
Proof. unfold cb. destruct (t <? 2 * n); apply cis_is_unit. Qed.

Lemma clements_run : 1 <= N -> 1 <= n -> forall x k, k < N ->
  clements_op Rplus Rmult Rminus (guides_of ph) (mzis_of phi theta) w N cap x k = zmul (gain (guides_of ph n k) w) (run (ncol N cb ce ca ct) cap x k).
Proof.
  intros HN Hn1. pose proof (half n Hr) as Eh. rewrite <- Hcap in Eh.
  assert (HR : forall i, i < n -> forall x k, k < N -> in_row (clements_layer Rplus Rmult Rminus (guides_of ph) (mzis_of phi theta) w N cap) i x k = run (ncol N cb ce ca ct) (2 * i + 2) x k).
  { assert (HB : forall i, i < n -> forall y z, (forall k, k < N -> y k = z k) -> forall k, k < N ->
      clements_layer Rplus Rmult Rminus (guides_of ph) (mzis_of phi theta) w N cap i y k = ncol N cb ce ca ct (2 * i + 1) (ncol N cb ce ca ct (2 * i) z) k).
    { intros i Hi y z Hyz k Lk. rewrite ncol_odd by assumption. unfold clements_layer. rewrite Eh, (proj2 (Nat.ltb_lt i n)) by exact Hi.
      apply column_ext; auto. intros j Lj. rewrite ncol_even by assumption. apply column_ext; auto. }
    induction i as [|i IH]; intros Hi x k Lk.
    - cbn [in_row]. change (2 * 0 + 2) with 2. cbn [run]. rewrite (HB 0 Hi x x) by auto. reflexivity.
    - cbn [in_row]. replace (2 * S i + 2) with (S (S (2 * S i))) by lia. cbn [run]. replace (2 * S i) with (2 * i + 2) by lia.
      rewrite (HB (S i) Hi _ _ (IH ltac:(lia) x) k Lk). replace (2 * S i + 1) with (S (2 * i + 2)) by lia. replace (2 * S i) with (2 * i + 2) by lia. reflexivity. }
  intros x k Lk. unfold clements_op. rewrite Eh, in_row_pred by exact Hn1.
  set (y := in_row (clements_layer Rplus Rmult Rminus (guides_of ph) (mzis_of phi theta) w N cap) (n - 1) x).
  assert (Hy : forall j, j < N -> y j = run (ncol N cb ce ca ct) (2 * n) x j).
  { intros j Lj. unfold y. rewrite HR by (exact Lj || lia). now replace (2 * (n - 1) + 2) with (2 * n) by lia. }
  unfold clements_layer. rewrite Eh, (proj2 (Nat.ltb_ge n n)) by lia.
  destruct (parity cap) as (h' & r' & E1 & E2 & _ & _ & ->). destruct (Nat.eqb_spec r' 1) as [Er|Er].
  - unfold phases. f_equal. replace cap with (S (2 * n)) by lia. cbn [run]. rewrite ncol_last by exact Lk. apply column_ext; auto.
  - unfold phases. f_equal. rewrite Hy by exact Lk. replace cap with (2 * n) by lia. reflexivity.
Qed.
End Clements.

Lemma run_ext_lines N C C' T : (forall t, t < T -> forall y z, (forall k, k < N -> y k = z k) -> forall k, k < N -> C t y k = C' t z k) ->
  forall x k, k < N -> run C T x k = run C' T x k.
Proof.
  intros H. induction T as [|T IH]; intros x k Lk; [reflexivity|]. cbn [run]. apply H; [lia| |exact Lk]. apply IH. intros t Ht. apply H. lia.
Qed.

Theorem C83_clements_universal N cap name T : 2 <= N -> N <= cap -> usable_name name -> zunitary N T ->
  exists ph phi theta b b', clements xR 0%Q N cap (guides_of ph) (mzis_of phi theta) = Ok b
    /\ mesh_terminate xR 0%Q None name N source detector b = Ok b' /\ runsR b' /\ realisesR N b' w T.
Proof.
  intros HN HC Hn HT. destruct (parity cap) as (n & r & Hcap & Hr & _ & _ & _). assert (Hn1 : 1 <= n) by lia.
  set (e0 := ce N n (fun _ _ => 0%R)). set (Y := fun k j => zbar (T k j)).
  assert (Hb : forall t j, is_unit (cb n t j)) by (intros; apply cb_unit). assert (He : forall t, is_unit (e0 t)) by (intros; apply ce_unit).
  destruct (@run_focus N (cb n) e0 Hb He Y cap) as (al & th & HF); [lia|exact HC|now apply rows_ortho|now apply cols_ortho|].
  set (R0 := run (ncol N (cb n) e0 al th) cap) in *.
  assert (HD : forall k, k < N -> is_unit (R0 (Y k) k)).
  { intros k Lk. pose proof (run_ortho Hb He al th cap (N := N) (Y := Y) ltac:(lia) (rows_ortho HT) Lk Lk) as H. cbv beta in H. fold R0 in H. rewrite Nat.eqb_refl in H.
    rewrite <- H. unfold dot. rewrite (@lsum_ext _ z0 zadd _ _ (fun i => if i =? k then zmul (zbar (R0 (Y k) i)) (R0 (Y k) i) else z0)).
    - rewrite (lsum_one zcr). destruct (Nat.ltb_spec k N); [reflexivity|lia].
    - intros i Hi. apply in_seq in Hi. destruct (Nat.eqb_spec i k); [reflexivity|]. rewrite HF by lia. ring. }
  destruct (@finite_choice R 0%R N (fun k a => zbar (R0 (Y k) k) = cis a)) as (ang & Hang); [intros k Lk; apply unit_cis, unit_bar, HD, Lk|].
  set (ph := fun l i => if (l =? n) && (i <? N) then (ang i - gp (gw n i))%R else 0%R).
  set (phi := fun l i => if l <? n then (al (if Nat.even i then 2 * l else 2 * l + 1)%nat i - gp (gm l i))%R else (al (2 * n)%nat (2 * i)%nat - gp (gm n i))%R).
  set (theta := fun l i => if l <? n then th (if Nat.even i then 2 * l else 2 * l + 1)%nat i else th (2 * n) (2 * i)).
  assert (HE : forall x k, k < N -> run (ncol N (cb n) (ce N n ph) (ca n phi) (ct n theta)) cap x k = R0 x k).
  { apply run_ext_lines. intros t Ht y z Hyz k Lk. unfold ncol. apply column_ext; [| |exact Hyz|exact Lk].
    - intros h a d Hh. destruct (parity t) as (l & q & Et & Hq & El & _ & _). unfold cb, ca, ct, phi, theta.
      destruct (Nat.ltb_spec t (2 * n)) as [Lt|Lt]; rewrite ?El.
      + rewrite (proj2 (Nat.ltb_lt l n)) by lia. destruct q as [|[|q]]; [| |lia].
        * rewrite Nat.add_0_r in Et. subst t. rewrite start2. cbn [Nat.add]. rewrite even2. f_equal; ring.
        * subst t. rewrite start21. replace (1 + 2 * h) with (2 * h + 1) by lia. rewrite odd2. f_equal; ring.
      + assert (Etn : t = 2 * n) by lia. clear Et El. subst t. rewrite start2. cbn [Nat.add]. rewrite half2, (proj2 (Nat.ltb_ge n n)) by lia. f_equal; ring.
    - intros i _. unfold e0, ce. destruct (Nat.ltb_spec t (2 * n)) as [Lt|Lt]; rewrite !gain_cis; f_equal; f_equal; unfold ph.
      + destruct (parity t) as (l & q & Et & Hq & El & _ & _). rewrite El. destruct (Nat.eqb_spec l n); [lia|reflexivity].
      + rewrite (proj2 (Nat.ltb_ge N N)) by lia. now rewrite andb_false_r. }
  destruct (C63_clements_default c wl (N := N) (cap := cap) gm ph phi theta HN ltac:(lia) Hn HL) as (b & b' & Hbb & Hb' & Hrun & _).
  exists ph, phi, theta, b, b'. split; [exact Hbb|]. split; [exact Hb'|]. split; [exact Hrun|].
  destruct (@clements_ok _ _ xR 0%Q (guides_of ph) (mzis_of phi theta) (fun l i => element_leaf (proj1 (guides_ok ph l i))) (fun l i => element_leaf (proj1 (mzis_ok phi theta l i))) N cap HN ltac:(lia))
    as (b2 & Hb2 & H1 & H2 & H3). change (clements xR 0%Q N cap (guides_of ph) (mzis_of phi theta) = Ok b) in Hbb. rewrite Hbb in Hb2. injection Hb2 as <-.
  assert (Hc2 : 2 <= cap) by lia.
  destruct (clements_does RTheory (leaf_guides ph) (leaf_mzis phi theta) (fun l i => proj2 (guides_ok ph l i)) (fun l i => proj2 (mzis_ok phi theta l i)) HN Hc2 Hbb) as (HA & M' & HM).
  refine (@realises_op name N b w _ M' T Hn _ H1 H2 H3 HA HM _ b' Hb'); [lia|]. apply (op_target HM). intros k j Lk Lj.
  rewrite (clements_run ph phi theta Hcap Hr) by (exact Lj || lia). rewrite HE by exact Lj. fold (Y k). unfold unit_vec. destruct (Nat.eqb_spec j k) as [->|Hne].
  - rewrite gain_cis. unfold ph at 1. rewrite Nat.eqb_refl, (proj2 (Nat.ltb_lt k N)) by exact Lk. cbn [andb].
    replace (gp (gw n k) + (ang k - gp (gw n k)))%R with (ang k) by ring. rewrite <- Hang by exact Lk. now apply HD.
  - rewrite HF by auto. ring.
Qed.
End Default.

(** ** Too few columns *)
Section Narrow.
Variable N : nat.
(** Light on the first [m] lines only. *)
Definition upto (m : nat) (x : vecR) : Prop := forall k, m <= k -> k < N -> x k = z0.
Lemma upto_column s U e m x : upto m x -> upto (m + 1) (zcolumn s N U e x).
Proof.
  intros H k Hk Lk. destruct (@lines s N k Lk) as [E|[(h & E & L)|[(h & E & L)|(h & E)]]].
  - rewrite column_low by exact E. rewrite H by lia. ring.
  - rewrite (column_even _ _ _ _ _ _ E L). rewrite !H by lia. ring.
  - rewrite (column_end _ _ _ _ _ _ E L). rewrite H by lia. ring.
  - replace k with (s + 2 * h + 1) in * by lia. rewrite (column_odd RTheory _ _ _ _ (h := h) (eq_refl (s + 2 * h))). rewrite !H by lia. ring.
Qed.
Lemma upto_phases g m x : upto m x -> upto m (zphases g x).
Proof. intros H k Hk Lk. unfold phases. rewrite H by assumption. ring. Qed.
Lemma upto_clements wg mzi w cap m x : upto m x -> upto (m + cap) (clements_op Rplus Rmult Rminus wg mzi w N cap x).
Proof.
  intros H. destruct (parity cap) as (n & r & Hcap & Hr & E2 & _ & Eo). unfold clements_op. rewrite E2.
  set (L := clements_layer Rplus Rmult Rminus wg mzi w N cap).
  assert (HL : forall i y q, i < n -> upto q y -> upto (q + 2) (L i y)).
  { intros i y q Hi Hy. unfold L, clements_layer. rewrite E2, (proj2 (Nat.ltb_lt i n)) by exact Hi.
    replace (q + 2) with (q + 1 + 1) by lia. now do 2 apply upto_column. }
  assert (HE : forall y q, upto q y -> upto (q + r) (L n y)).
  { intros y q Hy. unfold L, clements_layer. rewrite E2, (proj2 (Nat.ltb_ge n n)) by lia. rewrite Eo.
    destruct r as [|[|r]]; [|now apply upto_phases, upto_column|lia]. rewrite Nat.add_0_r. now apply upto_phases. }
  assert (HR : forall i, i < n -> upto (m + (2 * i + 2)) (in_row L i x)).
  { induction i as [|i IH]; intros Hi; [now apply HL|]. replace (m + (2 * S i + 2)) with (m + (2 * i + 2) + 2) by lia. apply HL; [exact Hi|]. apply IH. lia. }
  destruct n as [|n']; [apply HE in H; now replace (m + cap) with (m + r) by lia|]. replace (m + cap) with (m + (2 * n' + 2) + r) by lia. apply HE, HR. lia.
Qed.

(** From the other end. *)
Definition downto (m : nat) (x : vecR) : Prop := forall k, k < m -> k < N -> x k = z0.
Lemma downto_column s U e m x : downto (m + 1) x -> downto m (zcolumn s N U e x).
Proof.
  intros H k Hk Lk. destruct (@lines s N k Lk) as [E|[(h & E & L)|[(h & E & L)|(h & E)]]].
  - rewrite column_low by exact E. rewrite H by lia. ring.
  - rewrite (column_even _ _ _ _ _ _ E L). rewrite !H by lia. ring.
  - rewrite (column_end _ _ _ _ _ _ E L). rewrite H by lia. ring.
  - replace k with (s + 2 * h + 1) in * by lia. rewrite (column_odd RTheory _ _ _ _ (h := h) (eq_refl (s + 2 * h))). rewrite !H by lia. ring.
Qed.
Lemma column_linear s U e a b x y z k : k < N -> (forall j, j < N -> z j = zadd (zmul a (x j)) (zmul b (y j))) ->
  zcolumn s N U e z k = zadd (zmul a (zcolumn s N U e x k)) (zmul b (zcolumn s N U e y k)).
Proof.
  intros Lk H. destruct (@lines s N k Lk) as [E|[(h & E & L)|[(h & E & L)|(h & E)]]].
  - rewrite !column_low by exact E. rewrite H by lia. ring.
  - rewrite !(column_even _ _ _ _ _ _ E L). rewrite !H by lia. ring.
  - rewrite !(column_end _ _ _ _ _ _ E L). rewrite H by lia. ring.
  - replace k with (s + 2 * h + 1) in * by lia. rewrite !(column_odd RTheory _ _ _ _ (h := h) (eq_refl (s + 2 * h))). rewrite !H by lia. ring.
Qed.

(** Alternating columns. *)
Section Columns.
Variables (U : nat -> nat -> nat -> nat -> cR) (e : nat -> cR).
Let C t := zcolumn (start t) N (U t) (fun _ => e t).
(** Columns [t0], ..., [t0 + T - 1]. *)
Let R t0 T x := run (fun t => C (t0 + t)) T x.
Lemma R_linear t0 T a b x y z : (forall j, j < N -> z j = zadd (zmul a (x j)) (zmul b (y j))) -> forall k, k < N ->
  R t0 T z k = zadd (zmul a (R t0 T x k)) (zmul b (R t0 T y k)).
Proof. intros H. induction T as [|T IH]; intros k Lk; [now apply H|]. unfold R in *. cbn [run]. apply column_linear; [exact Lk|exact IH]. Qed.
Lemma R_first t0 T x : R t0 (S T) x = R (S t0) T (C t0 x).
Proof. induction T as [|T IH]; [unfold R; cbn [run]; now rewrite Nat.add_0_r|]. unfold R in *. cbn [run] in *. rewrite IH. now replace (t0 + S T) with (S t0 + T) by lia. Qed.
Lemma R_upto t0 T m x : upto m x -> upto (m + T) (R t0 T x).
Proof. intros H. induction T as [|T IH]; [now rewrite Nat.add_0_r|]. unfold R in *. cbn [run]. replace (m + S T) with (m + T + 1) by lia. now apply upto_column. Qed.
Lemma R_downto t0 T m x : downto (m + T) x -> downto m (R t0 T x).
Proof.
  intros H. enough (HI : forall q, q <= T -> downto (m + (T - q)) (R t0 q x)) by (specialize (HI T (le_n T)); now rewrite Nat.sub_diag, Nat.add_0_r in HI).
  induction q as [|q IH]; intros Hq; [now rewrite Nat.sub_0_r|]. unfold R in *. cbn [run]. apply downto_column. replace (m + (T - S q) + 1) with (m + (T - q)) by lia. apply IH. lia.
Qed.
(** Fewer columns than lines never reverse the lines. *)
Lemma no_reversal T : 2 <= T -> T < N -> ~ (forall j, j < N -> run C T (zunit j) (N - 1 - j) <> z0 /\ forall k, k < N -> k <> N - 1 - j -> run C T (zunit j) k = z0).
Proof.
  intros HT HN H. change (run C T) with (R 0 T) in H.
  assert (He0 : forall j m, j < m -> upto m (zunit j)) by (intros j m Hj k Hk _; unfold unit_vec; destruct (Nat.eqb_spec k j); [lia|reflexivity]).
  destruct (Nat.eq_dec (T + 1) N) as [EN|EN].
  2:{ destruct (H 0 ltac:(lia)) as [H0 _]. apply H0. apply (@R_upto 0 T 1 (zunit 0)); [apply He0|..]; lia. }
  destruct T as [|T]; [lia|]. destruct (parity N) as (h & r & EN' & Hr & _ & _ & _). destruct r as [|[|r]]; [| |lia].
  - destruct T as [|T]; [lia|].
    set (V := fun a d => U 0 0 a d).
    assert (HC : forall j, j < 2 -> forall k, k < N -> C 0 (zunit j) k = zadd (zmul (V 0 j) (zunit 0 k)) (zmul (V 1 j) (zunit 1 k))).
    { intros j Hj k Lk. unfold C. change (start 0) with 0. destruct (@lines 0 N k Lk) as [E|[(q & E & L)|[(q & E & L)|(q & E)]]]; [lia| |lia|].
      - rewrite (column_even _ _ _ _ _ _ E L). unfold unit_vec. destruct q as [|q].
        + assert (k = 0) by lia. subst k. destruct j as [|[|j]]; [| |lia]; cbn [Nat.eqb]; unfold V; change (2 * 0) with 0; cbn [Nat.eqb Nat.add]; ring.
        + destruct (Nat.eqb_spec k j), (Nat.eqb_spec (k + 1) j), (Nat.eqb_spec k 0), (Nat.eqb_spec k 1); try lia. ring.
      - replace k with (0 + 2 * q + 1) in * by lia. rewrite (column_odd RTheory _ _ _ _ (h := q) (eq_refl (0 + 2 * q))). unfold unit_vec. destruct q as [|q].
        + cbn [Nat.add Nat.mul Nat.eqb]. destruct j as [|[|j]]; [| |lia]; cbn [Nat.eqb]; unfold V; ring.
        + destruct (Nat.eqb_spec (0 + 2 * S q) j), (Nat.eqb_spec (0 + 2 * S q + 1) j), (Nat.eqb_spec (0 + 2 * S q + 1) 0), (Nat.eqb_spec (0 + 2 * S q + 1) 1); try lia. ring. }
    assert (HR : forall j, j < 2 -> forall k, N - 2 <= k -> k < N -> R 0 (S (S T)) (zunit j) k = zmul (V 1 j) (R 1 (S T) (zunit 1) k)).
    { intros j Hj k Hk Lk. rewrite R_first. rewrite (R_linear 1 (S T) (HC j Hj) Lk).
      assert (E : R 1 (S T) (zunit 0) k = z0).
      { rewrite R_first. apply (@R_upto 2 T 1 (C 1 (zunit 0))); [|lia|exact Lk]. intros i Hi Li. unfold C. change (start 1) with 1.
        destruct (@lines 1 N i Li) as [E|[(q & E & L)|[(q & E & L)|(q & E)]]]; [lia| | |].
        - rewrite (column_even _ _ _ _ _ _ E L). unfold unit_vec. destruct (Nat.eqb_spec i 0), (Nat.eqb_spec (i + 1) 0); try lia. ring.
        - rewrite (column_end _ _ _ _ _ _ E L). unfold unit_vec. destruct (Nat.eqb_spec i 0); try lia. ring.
        - replace i with (1 + 2 * q + 1) in * by lia. rewrite (column_odd RTheory _ _ _ _ (h := q) (eq_refl (1 + 2 * q))). unfold unit_vec.
          destruct (Nat.eqb_spec (1 + 2 * q) 0), (Nat.eqb_spec (1 + 2 * q + 1) 0); try lia. ring. }
      rewrite E. ring. }
    destruct (H 0 ltac:(lia)) as [A1 _], (H 1 ltac:(lia)) as [B1 B2].
    rewrite HR in A1 by lia. rewrite HR in B1 by lia. specialize (B2 (N - 1) ltac:(lia) ltac:(lia)). rewrite HR in B2 by lia. rewrite Nat.sub_0_r in A1.
    apply zmul_0 in B2. destruct B2 as [B2|B2]; [apply B1|apply A1]; rewrite B2; ring.
  - destruct (H (N - 1) ltac:(lia)) as [H0 _]. apply H0. rewrite Nat.sub_diag, R_first. apply (@R_downto 1 T 1); [|lia|lia].
    intros k Hk Lk. unfold C. change (start 0) with 0. destruct (@lines 0 N k Lk) as [E|[(q & E & L)|[(q & E & L)|(q & E)]]]; [lia| |lia|].
    + rewrite (column_even _ _ _ _ _ _ E L). unfold unit_vec. destruct (Nat.eqb_spec k (N - 1)), (Nat.eqb_spec (k + 1) (N - 1)); try lia. ring.
    + replace k with (0 + 2 * q + 1) in * by lia. rewrite (column_odd RTheory _ _ _ _ (h := q) (eq_refl (0 + 2 * q))). unfold unit_vec.
      destruct (Nat.eqb_spec (0 + 2 * q) (N - 1)), (Nat.eqb_spec (0 + 2 * q + 1) (N - 1)); try lia. ring.
Qed.
End Columns.

(** A permutation of order two. *)
Definition perm (s : nat -> nat) (i j : nat) : cR := if i =? s j then z1 else z0.
Lemma perm_unitary s : (forall k, k < N -> s k < N) -> (forall k, k < N -> s (s k) = k) -> zunitary N (perm s).
Proof.
  intros H1 H2 i j Li Lj. unfold perm. split.
  - rewrite (@lsum_ext _ z0 zadd _ _ (fun k => if k =? s i then (if i =? j then z1 else z0) else z0)).
    + rewrite (lsum_one zcr), (proj2 (Nat.ltb_lt (s i) N)) by (apply H1; exact Li). reflexivity.
    + intros k _. destruct (Nat.eqb_spec k (s i)) as [->|]; [|rewrite (bar_0 RTheory); ring]. rewrite (bar_1 RTheory).
      destruct (Nat.eqb_spec (s i) (s j)) as [E|E], (Nat.eqb_spec i j) as [->|E']; try ring; [|contradiction].
      exfalso. apply E'. now rewrite <- (H2 i), <- (H2 j), E.
  - rewrite (@lsum_ext _ z0 zadd _ _ (fun k => if k =? s i then (if i =? j then z1 else z0) else z0)).
    + rewrite (lsum_one zcr), (proj2 (Nat.ltb_lt (s i) N)) by (apply H1; exact Li). reflexivity.
    + intros k Hk. apply in_seq in Hk. destruct (Nat.eqb_spec k (s i)) as [->|E].
      * rewrite H2, Nat.eqb_refl by exact Li. rewrite Nat.eqb_sym. destruct (i =? j); rewrite ?(bar_1 RTheory), ?(bar_0 RTheory); ring.
      * destruct (Nat.eqb_spec i (s k)) as [->|]; [|ring]. exfalso. apply E. symmetry. apply H2. lia.
Qed.
End Narrow.

(** The reals have an exact solver. *)
Definition Reqb (x y : R) : bool := if Req_EM_T x y then true else false.
Lemma Reqb_eq x y : Reqb x y = true <-> x = y.
Proof. unfold Reqb. destruct (Req_EM_T x y); split; congruence. Qed.
Definition solveR := gauss_solve 0%R Rplus Rmult Rminus Rdiv Reqb.
Definition env1 (w : nat) : env := {| e_freq := true; e_dt := None; e_num_t := 1; e_num_wl := S w |}.
(** Light of amplitude 1 at the first source. *)
Definition one_source (i : nat) (t : nat) : field R := (fun _ j _ => if j =? i then 1%R else 0%R, fun _ _ _ => 0%R).

(** Both operators of a mesh agree. *)
Lemma realises_same N (b' : net R) w T T' : runsR b' -> realisesR N b' w T -> realisesR N b' w T' -> forall i k, i < N -> k < N -> T k i = T' k i.
Proof.
  intros Hrun H H' i k Li Lk.
  assert (SS : solver_sound 0%R Rplus Rmult solveR) by (apply (gauss_sound Rfield); exact Reqb_eq).
  assert (SC : solver_complete 0%R Rplus Rmult solveR) by (apply (gauss_complete Rfield); exact Reqb_eq).
  destruct (Hrun solveR unit (fun s _ f => (s, f)) tt (env1 w) (one_source i) SC eq_refl) as (outs & HF & _).
  pose proof (H solveR unit _ tt (env1 w) (one_source i) outs SS eq_refl ltac:(cbn; lia) HF 0 k 0 ltac:(cbn; lia) Lk) as E.
  pose proof (H' solveR unit _ tt (env1 w) (one_source i) outs SS eq_refl ltac:(cbn; lia) HF 0 k 0 ltac:(cbn; lia) Lk) as E'.
  rewrite E in E'. assert (HS : forall V : nat -> nat -> cR, zsum (fun j => zmul (V k j) (at_ (one_source i 0) w j 0)) (seq 0 N) = V k i).
  { intros V. rewrite (@lsum_ext _ z0 zadd _ _ (fun j => if j =? i then V k j else z0)).
    - rewrite (lsum_one zcr). destruct (Nat.ltb_spec i N); [reflexivity|lia].
    - intros j _. unfold one_source, at_. cbn [fst snd]. destruct (j =? i); [change (1%R, 0%R) with z1|change (0%R, 0%R) with z0]; ring. }
  now rewrite !HS in E'.
Qed.

(** Parameters of a Clements mesh with fewer columns than lines never realise the reversal of the lines. *)
Definition mirror (N k : nat) : nat := N - 1 - k.
Lemma mirror_unitary N : zunitary N (perm (mirror N)).
Proof. apply perm_unitary; intros k Lk; unfold mirror; lia. Qed.
Theorem C83_narrow c wl w gw gm N cap name ph phi theta b b' : 2 <= cap -> cap < N -> usable_name name -> (forall l i, (g_loss (gw l i) = 0)%R) ->
  clements xR 0%Q N cap (guides_of c wl gw ph) (mzis_of c wl gm phi theta) = Ok b -> mesh_terminate xR 0%Q None name N source detector b = Ok b' ->
  ~ realisesR N b' w (perm (mirror N)).
Proof.
  intros Hc HN Hn HL Hb Hb' HT. assert (HN2 : 2 <= N) by lia.
  pose proof (C63_clements_default c wl (N := N) (cap := cap) gm ph phi theta HN2 Hc Hn HL) as (b1 & b1' & Eb & Eb' & Hrun & _).
  change (clements xR 0%Q N cap (guides_of c wl gw ph) (mzis_of c wl gm phi theta) = Ok b1) in Eb. rewrite Hb in Eb. injection Eb as <-. rewrite Hb' in Eb'. injection Eb' as <-.
  destruct (@clements_ok _ _ xR 0%Q (guides_of c wl gw ph) (mzis_of c wl gm phi theta) (fun l i => element_leaf (proj1 (guides_ok c wl w HL ph l i))) (fun l i => element_leaf (proj1 (mzis_ok c wl w gm phi theta l i))) N cap HN2 Hc)
    as (b2 & Hb2 & H1 & H2 & H3). rewrite Hb in Hb2. injection Hb2 as <-.
  destruct (clements_does RTheory (w := w) (leaf_guides c wl w HL ph) (leaf_mzis c wl w gm phi theta) (fun l i => proj2 (guides_ok c wl w HL ph l i)) (fun l i => proj2 (mzis_ok c wl w gm phi theta l i)) HN2 Hc Hb) as (HA & M' & HM).
  assert (HM' : realisesR N b' w (mat_of 0%R 1%R (clements_op Rplus Rmult Rminus (guides_of c wl gw ph) (mzis_of c wl gm phi theta) w N cap))).
  { refine (@realises_op name N b w _ M' _ Hn _ H1 H2 H3 HA HM _ b' Hb'); [lia|]. intros x q Lq. apply (mat_of_spec RTheory _ HM Lq). }
  pose proof (realises_same Hrun HT HM') as E. unfold mat_of in E.
  destruct (parity cap) as (n & r & Hcap & Hr & _ & _ & _). assert (Hn1 : 1 <= n) by lia.
  refine (@no_reversal N (fun t j => mixm (cb wl w gm n t j) (ca wl w gm n phi t j) (ct n theta t j)) (ce c wl w gw N n ph) cap Hc HN _).
  intros j Lj. assert (EQ : forall k, k < N -> perm (mirror N) k j = zmul (gain (guides_of c wl gw ph n k) w) (run (ncol N (cb wl w gm n) (ce c wl w gw N n ph) (ca wl w gm n phi) (ct n theta)) cap (zunit j) k)).
  { intros k Lk. rewrite E by assumption. eapply clements_run; try eassumption; lia. }
  unfold ncol in EQ. split.
  - intros E0. specialize (EQ (N - 1 - j) ltac:(lia)). rewrite E0 in EQ. unfold perm, mirror in EQ. rewrite Nat.eqb_refl in EQ. apply z1_neq. rewrite EQ. ring.
  - intros k Lk Hk. specialize (EQ k Lk). unfold perm, mirror in EQ. rewrite (proj2 (Nat.eqb_neq k (N - 1 - j))) in EQ by exact Hk.
    symmetry in EQ. apply zmul_0 in EQ. destruct EQ as [EQ|EQ]; [|exact EQ]. exfalso. rewrite (gain_cis c wl w HL) in EQ. now apply cis_neq in EQ.
Qed.
Theorem C83_capacity_refuted N cap : 2 <= cap -> cap < N -> exists T, zunitary N T /\
  forall c wl w gw gm name ph phi theta b b', usable_name name -> (forall l i, (g_loss (gw l i) = 0)%R) ->
  clements xR 0%Q N cap (guides_of c wl gw ph) (mzis_of c wl gm phi theta) = Ok b -> mesh_terminate xR 0%Q None name N source detector b = Ok b' ->
  ~ realisesR N b' w T.
Proof.
  intros Hc HN. exists (perm (mirror N)). split; [apply mirror_unitary|]. intros. eapply C83_narrow; eassumption.
Qed.

(** ** Examples: five lines reversed, and a 3-4-5 beam splitter. *)
Definition guide0 (_ _ : nat) : guide := {| g_length := 1 # 100000; g_ng := 2; g_neff := 2; g_wl0 := 1; g_loss := 0 |}.
Lemma guide0_lossless (l i : nat) : (g_loss (guide0 l i) = 0)%R. Proof. reflexivity. Qed.
Definition split345 (i j : nat) : cR := match i, j with 0, 0 => (3 / 5, 0)%R | 0, _ => (0, 4 / 5)%R | _, 0 => (0, 4 / 5)%R | _, _ => (3 / 5, 0)%R end.
Lemma split345_unitary : zunitary 2 split345.
Proof.
  intros i j Li Lj. destruct i as [|[|i]], j as [|[|j]]; try lia; split; cbn [seq lsum fold_right Nat.eqb split345]; zz; apply pair_equal_spec; split; field.
Qed.
Example C82_ex : exists ph phi theta b b', reck xR 0%Q 5 (guides_of 1 (fun _ => 1%R) guide0 ph) (mzis_of 1 (fun _ => 1%R) guide0 phi theta) = Ok b
    /\ mesh_terminate xR 0%Q None "clementsnxn" 5 source detector b = Ok b' /\ runsR b' /\ realisesR 5 b' 0 (perm (mirror 5)).
Proof. exact (C82_reck_universal 1 (fun _ => 1%R) 0 guide0 guide0_lossless (N := 5) ltac:(lia) name_usable (@mirror_unitary 5)). Qed.
Example C82_split_ex : exists ph phi theta b b', reck xR 0%Q 2 (guides_of 1 (fun _ => 1%R) guide0 ph) (mzis_of 1 (fun _ => 1%R) guide0 phi theta) = Ok b
    /\ mesh_terminate xR 0%Q None "clementsnxn" 2 source detector b = Ok b' /\ runsR b' /\ realisesR 2 b' 0 split345.
Proof. exact (C82_reck_universal 1 (fun _ => 1%R) 0 guide0 guide0_lossless (N := 2) ltac:(lia) name_usable split345_unitary). Qed.
Example C83_ex : exists ph phi theta b b', clements xR 0%Q 5 5 (guides_of 1 (fun _ => 1%R) guide0 ph) (mzis_of 1 (fun _ => 1%R) guide0 phi theta) = Ok b
    /\ mesh_terminate xR 0%Q None "clementsnxn" 5 source detector b = Ok b' /\ runsR b' /\ realisesR 5 b' 0 (perm (mirror 5)).
Proof. exact (C83_clements_universal 1 (fun _ => 1%R) 0 guide0 guide0_lossless (N := 5) (cap := 5) ltac:(lia) ltac:(lia) name_usable (@mirror_unitary 5)). Qed.
(** The narrower mesh of five lines and four columns is built and closed. *)
Example C83_narrow_ex : exists b b', clements xR 0%Q 5 4 (guides_of 1 (fun _ => 1%R) guide0 (fun _ _ => 0%R)) (mzis_of 1 (fun _ => 1%R) guide0 (fun _ _ => 0%R) (fun _ _ => 0%R)) = Ok b
    /\ mesh_terminate xR 0%Q None "clementsnxn" 5 source detector b = Ok b'.
Proof.
  destruct (C63_clements_default 1 (fun _ => 1%R) (N := 5) (cap := 4) (name := "clementsnxn") (gw := guide0) guide0 (fun _ _ => 0%R) (fun _ _ => 0%R) (fun _ _ => 0%R)) as (b & b' & H1 & H2 & _);
    [lia|lia|exact name_usable|exact guide0_lossless|]. exists b, b'. split; [exact H1|exact H2].
Qed.

Print Assumptions C82_reck_universal.
Print Assumptions C83_clements_universal.
Print Assumptions C83_narrow.
Print Assumptions C83_capacity_refuted.
