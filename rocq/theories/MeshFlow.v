(** Waves in networks at a moment when nothing is delayed: what the parts of a network do to them. *)
From Coq Require Import Ring QArith Permutation.
From Verif Require Import Base PyStr NetModel NetSpec NetProofs WireProofs OrderProofs TypedNet TermProofs NetBuild SimModel SimAlg SimSpec CircuitSpec CircuitProofs UniSpec UniProofs MeshModel MeshNet MeshBuild MeshLayers MeshChain MeshTop.
Set Implicit Arguments.
Unset Strict Implicit.
Local Open Scope string_scope.
Local Open Scope list_scope.
Local Open Scope nat_scope.

Section F.
Variables (K : Type) (k0 k1 : K) (kadd kmul ksub : K -> K -> K) (kopp : K -> K).
Hypothesis KR : ring_theory k0 k1 kadd kmul ksub kopp (@eq K).
Notation cx := (prod K K).
Notation c0 := (c0 k0).
Notation c1 := (c1 k0 k1).
Notation cadd := (cadd kadd).
Notation cmul := (cmul kadd kmul ksub).
Notation csum := (lsum c0 cadd).
Notation bar := (cbar kopp).
Notation vec := (nat -> cx).
Notation net := (net K).
Notation comps := (list (string * net)).
Notation x0 := (fun _ : nat => c0).
Notation d0 := 0%Q.
Let CR := CR KR.
Add Ring Cring : CR.

(** [A] enters the ports, [O] leaves them, [J] is injected. *)
Definition flows (b : net) (w : nat) (J A O : vec) : Prop :=
  (forall i j, i < b_np b -> j < b_np b -> b_C b i j = true -> A i = O j) /\
  (forall i, i < b_np b -> O i = cadd (J i) (scatter k0 kadd kmul ksub b w A i)).
Definition ends (b : net) (A : vec) (k : nat) : cx := A (nth k (free_ports b) 0).

(** Waves [x] entering and [y] leaving the free ports of a network without sources. *)
Definition rel (b : net) (w : nat) (x y : vec) : Prop :=
  exists A O, flows b w (fun _ => c0) A O /\ forall k, k < fd b -> x k = ends b A k /\ y k = ends b O k.

Lemma part_flows (cs : comps) conns b w J A O pre n c post : NoDup (map fst cs) -> net_buf x0 d0 cs conns = Ok b ->
  cs = pre ++ (n, c) :: post -> flows b w J A O ->
  flows c w (fun q => J (ports_before pre + q)) (fun q => A (ports_before pre + q)) (fun q => O (ports_before pre + q)).
Proof.
  intros Hnd Hb E (HC & HO). destruct (net_buf_inv Hb) as (_ & _ & En & _).
  assert (LP : ports_before pre + b_np c <= b_np b).
  { rewrite En, E. change (total_ports ?l) with (ports_before l). rewrite ports_before_app, ports_before_cons. lia. }
  split.
  - intros i j Li Lj H. apply HC; try lia. apply (net_buf_C Hnd Hb). left. exists pre, n, c, post, i, j. auto 10.
  - intros q Lq. rewrite HO by lia. f_equal. unfold scatter.
    rewrite (@csum_block _ _ _ _ _ _ _ KR (ports_before pre) (b_np c)); auto.
    + apply lsum_ext. intros q' Iq. apply in_seq in Iq. f_equal.
      destruct (S_block Hb (ports_before pre + q') w E Lq) as [-> _].
      destruct (Nat.leb_spec (ports_before pre) (ports_before pre + q')); [|lia].
      destruct (Nat.ltb_spec (ports_before pre + q') (ports_before pre + b_np c)); [|lia]. cbn [andb].
      f_equal. f_equal. lia.
    + intros j Lj Hj. destruct (S_block Hb j w E Lq) as [-> _].
      replace ((ports_before pre <=? j) && (j <? ports_before pre + b_np c)) with false; [ring|].
      symmetry. apply andb_false_iff. destruct Hj; [left; apply Nat.leb_gt; lia|right; apply Nat.ltb_ge; lia].
Qed.

Lemma part_rel (cs : comps) conns b w J A O n c : NoDup (map fst cs) -> net_buf x0 d0 cs conns = Ok b ->
  In (n, c) cs -> (forall k, k < b_np c -> forall p, located cs p n c k -> J p = c0) -> flows b w J A O ->
  rel c w (fun k => A (loc cs (n, k))) (fun k => O (loc cs (n, k))).
Proof.
  intros Hnd Hb Hin HJ HF. pose proof (assoc_nodup Hnd Hin) as Ha.
  destruct (lookup_decomp Ha) as (pre & post & E & _ & St).
  pose proof (part_flows Hnd Hb E HF) as HP.
  exists (fun q => A (ports_before pre + q)), (fun q => O (ports_before pre + q)). split.
  - destruct HP as (H1 & H2). split; [exact H1|]. intros i Li. rewrite H2 by exact Li. f_equal.
    apply (HJ i Li). exists pre, post. auto.
  - intros k Hk. unfold ends, loc. cbn [fst snd]. rewrite Ha, St. auto.
Qed.

(** The three kinds of networks. *)
Lemma leaf_rel n c w x y : leaf_ok n c -> rel c w x y -> forall k, k < n ->
  y k = csum (fun j => cmul (b_S c k j w) (x j)) (seq 0 n).
Proof.
  intros H (A & O & (_ & HO) & HE) k Lk. rewrite (leaf_fd H) in HE. destruct (HE k Lk) as [_ ->].
  unfold ends. rewrite (leaf_free H), seq_nth by exact Lk. rewrite HO by (rewrite (lo_np H); exact Lk).
  unfold scatter. rewrite (lo_np H). transitivity (csum (fun j => cmul (b_S c k j w) (A j)) (seq 0 n)); [cbn [Nat.add]; ring|].
  apply lsum_ext. intros j Ij. apply in_seq in Ij. destruct (HE j) as [-> _]; [lia|].
  unfold ends. rewrite (leaf_free H), seq_nth by lia. reflexivity.
Qed.

Definition at_parts (cs : comps) (ts : list tconn) (w : nat) (PA PO : string -> nat -> cx) : Prop :=
  (forall n c, In (n, c) cs -> rel c w (PA n) (PO n)) /\
  (forall n1 p1 n2 p2, In (TW n1 p1 n2 p2) ts -> PA n1 p1 = PO n2 p2 /\ PA n2 p2 = PO n1 p1).

Lemma C_range (cs : comps) conns (b : net) i j : NoDup (map fst cs) -> (forall n c, In (n, c) cs -> part_ok c) ->
  net_buf x0 d0 cs conns = Ok b -> b_C b i j = true -> i < b_np b /\ j < b_np b.
Proof. intros Hnd Hok Hb H. apply (net_C_range Hnd Hb); [|exact H]. intros n c Hin. apply (po_order (Hok n c Hin)). Qed.

Lemma flat_parts (mods : comps) ts m cs b w A O : flat_of x0 d0 mods ts m cs b ->
  (forall n c, In (n, c) mods -> part_ok c) -> flows b w (fun _ => c0) A O ->
  at_parts mods ts w (fun n k => A (loc cs (n, k))) (fun n k => O (loc cs (n, k))) /\
  forall n k j, In (TE n k j) ts -> ends b A j = A (loc cs (n, k)) /\ ends b O j = O (loc cs (n, k)).
Proof.
  intros H Hok HF.
  assert (Hok' : forall n c, In (n, c) cs -> part_ok c) by (intros n c Hin; apply (Hok n c), (fo_mods H); exact Hin).
  split; [split|].
  - intros n c Hin. apply (fo_mods H) in Hin. exact (@part_rel cs (map tstr ts) b w (fun _ => c0) A O n c (fo_nodup H) (fo_buf H) Hin (fun _ _ _ _ => eq_refl) HF).
  - intros n1 p1 n2 p2 Ht. destruct (fo_wire H Ht) as [H1 H2]. destruct HF as [HC _].
    destruct (C_range (fo_nodup H) Hok' (fo_buf H) H1) as [L1 L2].
    split; apply HC; assumption.
  - intros n k j Ht. unfold ends. rewrite (nth_error_nth _ _ 0 (fo_port H Ht)). auto.
Qed.
Lemma flat_rel (mods : comps) ts m cs b w x y : flat_of x0 d0 mods ts m cs b ->
  (forall n c, In (n, c) mods -> part_ok c) -> rel b w x y ->
  exists PA PO, at_parts mods ts w PA PO /\ forall n k j, In (TE n k j) ts -> x j = PA n k /\ y j = PO n k.
Proof.
  intros H Hok (A & O & HF & HE). destruct (flat_parts H Hok HF) as [H1 H2]. do 2 eexists. split; [exact H1|].
  intros n k j Ht. pose proof (fo_port H Ht) as Hp.
  assert (Lj : j < fd b) by (unfold fd; apply nth_error_Some; rewrite Hp; discriminate).
  destruct (HE j Lj) as [-> ->]. exact (H2 n k j Ht).
Qed.

Lemma wired_parts (mods : comps) ts un b w A O : wired_of x0 d0 mods ts un b -> flows b w (fun _ => c0) A O ->
  at_parts mods ts w (fun n k => A (loc mods (n, k))) (fun n k => O (loc mods (n, k))) /\
  forall n k j, nth_error un j = Some (n, k) -> ends b A j = A (loc mods (n, k)) /\ ends b O j = O (loc mods (n, k)).
Proof.
  intros H HF. split; [split|].
  - intros n c Hin. exact (@part_rel mods (map tstr ts) b w (fun _ => c0) A O n c (wo_nodup H) (wo_buf H) Hin (fun _ _ _ _ => eq_refl) HF).
  - intros n1 p1 n2 p2 Ht. destruct (wo_wire H Ht) as [H1 H2]. destruct HF as [HC _].
    destruct (C_range (wo_nodup H) (wo_parts H) (wo_buf H) H1) as [L1 L2].
    split; apply HC; assumption.
  - intros n k j Hn.
    assert (Hp : nth_error (free_ports b) j = Some (loc mods (n, k))) by (rewrite (wo_free H); now apply map_nth_error).
    unfold ends. rewrite (nth_error_nth _ _ 0 Hp). auto.
Qed.
Lemma wired_rel (mods : comps) ts un b w x y : wired_of x0 d0 mods ts un b -> rel b w x y ->
  exists PA PO, at_parts mods ts w PA PO /\ forall n k j, nth_error un j = Some (n, k) -> x j = PA n k /\ y j = PO n k.
Proof.
  intros H (A & O & HF & HE). destruct (wired_parts H HF) as [H1 H2]. do 2 eexists. split; [exact H1|].
  intros n k j Hn.
  assert (Hp : nth_error (free_ports b) j = Some (loc mods (n, k))) by (rewrite (wo_free H); now apply map_nth_error).
  assert (Lj : j < fd b) by (unfold fd; apply nth_error_Some; rewrite Hp; discriminate).
  destruct (HE j Lj) as [-> ->]. exact (H2 n k j Hn).
Qed.

(** * Components *)
Definition gain (c : net) (w : nat) : cx := b_S c 1 0 w.
Lemma guide_rel c w x y : leaf_ok 2 c -> b_S c 1 1 w = c0 -> rel c w x y -> y 1 = cmul (gain c w) (x 0).
Proof.
  intros H H1 HR. rewrite (leaf_rel H HR) by lia. cbn [seq]. rewrite !lsum_cons, lsum_nil, H1. unfold gain. ring.
Qed.
Lemma mixer_rel c w x y : leaf_ok 4 c -> mixes k0 k1 kadd kmul ksub kopp c w -> rel c w x y ->
  y 1 = cadd (cmul (transfer c w 0 0) (x 0)) (cmul (transfer c w 0 1) (x 3)) /\
  y 2 = cadd (cmul (transfer c w 1 0) (x 0)) (cmul (transfer c w 1 1) (x 3)).
Proof.
  intros H (H0 & _) HR. rewrite (leaf_rel H HR (k := 1)), (leaf_rel H HR (k := 2)) by lia. cbn [seq]. rewrite !lsum_cons, !lsum_nil.
  rewrite (H0 1 1), (H0 1 2), (H0 2 1), (H0 2 2) by lia. unfold transfer. cbn [Nat.eqb]. split; ring.
Qed.

(** A network with N inputs and N outputs that does [M] to light entering its inputs. *)
Definition acts (N : nat) (b : net) (w : nat) (M : vec -> vec) : Prop :=
  forall x y, rel b w x y -> forall k, k < N -> y (N + k) = M x k.

End F.
