(** Meshes of components that reflect nothing: without light at the ends there is no light inside. *)
From Coq Require Import Ring QArith Permutation.
From Verif Require Import Base PyStr PyStrProofs NetModel NetSpec NetProofs WireProofs OrderProofs TypedNet TermProofs NetBuild SimModel SimAlg SimSpec SimDelay SimRegular CircuitSpec CircuitProofs UniSpec UniProofs MeshModel MeshNet MeshBuild MeshLayers MeshChain MeshTop MeshFlow MeshActs MeshSim.
Set Implicit Arguments.
Unset Strict Implicit.
Local Open Scope string_scope.
Local Open Scope list_scope.
Local Open Scope nat_scope.

Ltac tout H := lazymatch type of H with
  | In _ (_ ++ _) => apply in_app_or in H; destruct H as [H|H]; tout H
  | In _ (flat_map _ _) => let i := fresh "i" in let Hi := fresh "Hi" in apply in_flat_map in H; destruct H as (i & Hi & H);
      first [apply in_seq in Hi | apply range2_In in Hi; let h := fresh "h" in destruct Hi as (h & ? & ?)]; tout H
  | In _ (map _ _) => let i := fresh "i" in let Hi := fresh "Hi" in apply in_map_iff in H; destruct H as (i & H & Hi); apply in_seq in Hi; tout H
  | In _ (if ?c then _ else _) => let E := fresh "E" in destruct c eqn:E; tout H
  | In _ [] => destruct H
  | In _ (_ :: _) => destruct H as [H|H]; tout H
  | False => destruct H
  | _ = _ => first [discriminate H | injection H; clear H; intros; subst]
  end.
Ltac nam := repeat match goal with
  | H : _ \/ _ |- _ => destruct H as [H|H]
  | H : exists _, _ |- _ => destruct H as [? H]
  | H : _ /\ _ |- _ => destruct H
  | H : @eq string _ _ |- _ => first [discriminate H | apply (@name_inj "mzi") in H | apply (@name_inj "wg") in H | destruct (wg_wg_ H) | destruct (wg_wg_ (eq_sym H))]
  end.

Section Q.
Variables (K : Type) (k0 k1 : K) (kadd kmul ksub : K -> K -> K) (kopp : K -> K).
Hypothesis KR : ring_theory k0 k1 kadd kmul ksub kopp (@eq K).
Notation cx := (prod K K).
Notation c0 := (c0 k0).
Notation c1 := (c1 k0 k1).
Notation cadd := (cadd kadd).
Notation cmul := (cmul kadd kmul ksub).
Notation csum := (lsum c0 cadd).
Notation vec := (nat -> cx).
Notation net := (net K).
Notation comps := (list (string * net)).
Notation x0 := (fun _ : nat => c0).
Notation d0 := 0%Q.
Notation flows := (flows k0 kadd kmul ksub).
Notation rel := (rel k0 kadd kmul ksub).
Notation at_parts := (at_parts k0 kadd kmul ksub).
Notation two_way := (two_way k0).
Let CR := CR KR.
Add Ring Cring : CR.

Definition quiet (b : net) (w : nat) : Prop := forall A O, flows b w (fun _ => c0) A O ->
  (forall k, k < fd b -> ends b A k = c0) -> forall p, p < b_np b -> A p = c0.
(** N inputs, N outputs; no light leaves on the side where it enters. *)
Definition oneway (N : nat) (b : net) (w : nat) : Prop := forall x y, rel b w x y ->
  ((forall k, k < N -> x k = c0) -> forall k, k < N -> y (N + k) = c0) /\
  ((forall k, k < N -> x (N + k) = c0) -> forall k, k < N -> y k = c0).

Lemma leaf_quiet n c w : leaf_ok n c -> quiet c w.
Proof.
  intros H A O _ HE p Hp. rewrite (leaf_fd H) in HE. rewrite (lo_np H) in Hp. specialize (HE p Hp). unfold ends in HE.
  rewrite (leaf_free H), seq_nth in HE by exact Hp. exact HE.
Qed.

Lemma net_quiet (cs : comps) conns b w A O : NoDup (map fst cs) -> net_buf x0 d0 cs conns = Ok b ->
  flows b w (fun _ => c0) A O ->
  (forall n c, In (n, c) cs -> quiet c w /\ forall k, k < fd c -> A (loc cs (n, k)) = c0) ->
  forall p, p < b_np b -> A p = c0.
Proof.
  intros Hnd Hb HF HQ p Hp. destruct (net_buf_inv Hb) as (_ & _ & En & _). rewrite En in Hp.
  destruct (located_exists Hp) as (n & c & q & pre & post & E & Ep & Lq). subst p.
  assert (Hin : In (n, c) cs) by (rewrite E; apply in_or_app; right; now left).
  destruct (HQ n c Hin) as [Hq H0].
  apply (Hq _ _ (part_flows KR Hnd Hb E HF)); [|exact Lq].
  intros k Hk. unfold ends. rewrite <- (H0 k Hk). f_equal.
  assert (Hni : ~ In n (map fst pre)).
  { rewrite E in Hnd. rewrite map_app in Hnd. cbn in Hnd. apply NoDup_remove_2 in Hnd. intros H. apply Hnd, in_or_app. now left. }
  destruct (lookup_comp c post Hni) as [E1 E2]. unfold loc. cbn [fst snd]. rewrite E. unfold SimModel.net in *. now rewrite E1, E2.
Qed.

Lemma leaf_dark c w x y dir : leaf_ok (b_np c) c -> two_way c w -> rel c w x y ->
  (forall k, k < b_np c -> inward k = dir -> x k = c0) -> forall k, k < b_np c -> inward k = negb dir -> y k = c0.
Proof.
  intros HL HT HR HX k Lk Ek. rewrite (leaf_rel KR HL HR) by exact Lk. apply (lsum_0 CR). intros j Ij. apply in_seq in Ij.
  destruct (Bool.bool_dec (inward j) dir) as [E|E].
  - rewrite HX by (auto; lia). ring.
  - rewrite HT; [ring|lia|lia|]. rewrite Ek. destruct (inward j) eqn:Ej, dir; cbn; congruence.
Qed.

(** * Networks of components *)
Section Flat.
Variables (mods : comps) (ts : list tconn) (w B : nat) (R : string -> nat -> Prop).
Hypothesis Hleaf : forall n c, In (n, c) mods -> leaf_ok (b_np c) c /\ two_way c w.
Hypothesis Hcov : forall n c k, In (n, c) mods -> k < fd c -> exists t, In t ts /\ In (n, k) (tends t).
Hypothesis Hend : forall t n k, In t ts -> In (n, k) (tends t) -> exists c, In (n, c) mods /\ k < fd c.
(** Components are at depths; light goes deeper. *)
Hypothesis HR : forall n c, In (n, c) mods -> exists d, d <= B /\ R n d.
Hypothesis Hdir : forall n1 k1 n2 k2 d1 d2, In (TW n1 k1 n2 k2) ts -> R n1 d1 -> R n2 d2 ->
  if inward k1 then inward k2 = false /\ d2 < d1 else inward k2 = true /\ d1 < d2.

Lemma wire_any n k : forall t, In t ts -> In (n, k) (tends t) -> (exists j, t = TE n k j) \/
  exists n2 q2, In (n2, q2) (tends t) /\ inward q2 = negb (inward k)
    /\ (forall d d2, R n d -> R n2 d2 -> if inward k then d2 < d else d < d2)
    /\ forall PA PO, at_parts mods ts w PA PO -> PA n k = PO n2 q2.
Proof.
  intros [n1 q1 n2 q2|n1 q1 j] Ht He; cbn in He.
  - right. destruct He as [[= <- <-]|[[= <- <-]|[]]].
    + exists n2, q2. split; [right; now left|].
      destruct (Hend Ht (or_introl eq_refl)) as (c1 & I1 & _), (Hend Ht (or_intror (or_introl eq_refl))) as (c2 & I2 & _).
      destruct (HR I1) as (e1 & _ & F1), (HR I2) as (e2 & _ & F2).
      pose proof (Hdir Ht F1 F2) as HD. split; [destruct (inward q1); cbn; tauto|]. split.
      * intros d d2 G1 G2. pose proof (Hdir Ht G1 G2) as HD'. destruct (inward q1); tauto.
      * intros PA PO [_ HP]. apply (HP _ _ _ _ Ht).
    + exists n1, q1. split; [now left|].
      destruct (Hend Ht (or_introl eq_refl)) as (c1 & I1 & _), (Hend Ht (or_intror (or_introl eq_refl))) as (c2 & I2 & _).
      destruct (HR I1) as (e1 & _ & F1), (HR I2) as (e2 & _ & F2).
      pose proof (Hdir Ht F1 F2) as HD. split; [destruct (inward q1), HD as [-> _]; reflexivity|]. split.
      * intros d d2 G1 G2. pose proof (Hdir Ht G2 G1) as HD'. destruct (inward q1), HD' as [-> HD']; exact HD'.
      * intros PA PO [_ HP]. apply (HP _ _ _ _ Ht).
  - destruct He as [[= <- <-]|[]]. left. eauto.
Qed.

Lemma flat_dark dir PA PO : at_parts mods ts w PA PO -> 
  (forall n k j, In (TE n k j) ts -> inward k = dir -> PA n k = c0) ->
  forall n c k, In (n, c) mods -> k < fd c -> inward k = dir -> PA n k = c0.
Proof.
  intros HP HX.
  assert (HM : forall m n c d k, In (n, c) mods -> R n d -> d <= B -> (if dir then d else B - d) <= m -> k < fd c -> inward k = dir -> PA n k = c0).
  { induction m as [|m IH]; intros n c d k Hin Hd HB Hm Hk Ek.
    - destruct (Hcov Hin Hk) as (t & Ht & He). destruct (wire_any Ht He) as [(j & ->)|(n2 & q2 & He2 & Ek2 & HD & HPA)]; [eauto|].
      exfalso. destruct (Hend Ht He2) as (c2 & Hin2 & Hk2). destruct (HR Hin2) as (e2 & L2 & R2). specialize (HD d e2 Hd R2).
      rewrite Ek in HD. destruct dir; lia.
    - destruct (Hcov Hin Hk) as (t & Ht & He). destruct (wire_any Ht He) as [(j & ->)|(n2 & k2 & He2 & Ek2 & HD & HPA)]; [eauto|].
      rewrite (HPA PA PO HP). destruct (Hend Ht He2) as (c2 & Hin2 & Hk2). destruct (HR Hin2) as (e2 & L2 & R2). specialize (HD d e2 Hd R2).
      destruct (Hleaf Hin2) as [HL HT]. rewrite (leaf_fd HL) in Hk2.
      rewrite Ek in Ek2. apply (leaf_dark HL HT (proj1 HP _ _ Hin2) (dir := dir)); [|exact Hk2|exact Ek2].
      intros k' Lk' Ek'. apply (IH n2 c2 e2 k'); auto; [|now rewrite (leaf_fd HL)]. rewrite Ek in HD. destruct dir; lia. }
  intros n c k Hin Hk Ek. destruct (HR Hin) as (d & L & Rd). eapply HM; eauto.
Qed.

Variables (N : nat) (b : net).
Hypothesis Hside : forall n k j, In (TE n k j) ts -> inward k = (j <? N).
Hypothesis Hb : built x0 d0 mods ts (2 * N) b.

Lemma flat_part : forall n c, In (n, c) mods -> part_ok c.
Proof. intros n c H. exact (leaf_part (proj1 (Hleaf H))). Qed.

Lemma flat_oneway : oneway N b w.
Proof.
  destruct Hb as (cs & H). intros x y HXY. destruct (flat_rel KR H flat_part HXY) as (PA & PO & HP & HE).
  assert (HN : forall n k j, In (TE n k j) ts -> j < 2 * N).
  { intros n k j Ht. rewrite <- (fo_fd H). unfold fd. apply nth_error_Some. rewrite (fo_port H Ht). discriminate. }
  assert (HD : forall dir, (forall j, j < 2 * N -> (j <? N) = dir -> x j = c0) -> forall j, j < 2 * N -> (j <? N) = negb dir -> y j = c0).
  { intros dir HX j Hj Ej. destruct (fo_nums H Hj) as (n & k & Ht). rewrite (proj2 (HE _ _ _ Ht)).
    destruct (Hend Ht (or_introl eq_refl)) as (c & Hin & Hk). destruct (Hleaf Hin) as [HL HT].
    assert (Hk' : k < b_np c) by (now rewrite (leaf_fd HL) in Hk).
    refine (leaf_dark HL HT (proj1 HP _ _ Hin) (dir := dir) _ Hk' _); [|now rewrite (Hside Ht)].
    intros k' Lk' Ek'. apply (@flat_dark dir PA PO HP) with (c := c); auto; [|now rewrite (leaf_fd HL)].
    intros n' k'' j' Ht' Ed. rewrite <- (proj1 (HE _ _ _ Ht')). apply HX; [eauto|]. now rewrite <- (Hside Ht'). }
  split; intros HX k Hk.
  - apply (HD true); [|lia|apply Nat.ltb_ge; lia]. intros j _ Ej. apply Nat.ltb_lt in Ej. auto.
  - apply (HD false); [|lia|apply Nat.ltb_lt; lia]. intros j Lj Ej. apply Nat.ltb_ge in Ej. replace j with (N + (j - N)) by lia. apply HX. lia.
Qed.

Lemma flat_quiet : quiet b w.
Proof.
  destruct Hb as (cs & H). intros A O HF HE. destruct (flat_parts KR H flat_part HF) as [HP HT].
  apply (net_quiet (fo_nodup H) (fo_buf H) HF). intros n c Hin. apply (fo_mods H) in Hin.
  split; [apply (leaf_quiet (proj1 (Hleaf Hin)))|]. intros k Hk.
  apply (@flat_dark (inward k) _ _ HP) with (c := c); auto.
  intros n' k' j Ht _. rewrite <- (proj1 (HT _ _ _ Ht)). apply HE. unfold fd. apply nth_error_Some. rewrite (fo_port H Ht). discriminate.
Qed.
End Flat.

(** * Layers *)
Section Layers.
Variables (wg mzi : nat -> net) (w : nat).
Hypothesis Hwg : forall i, leaf_ok 2 (wg i).
Hypothesis Hmzi : forall i, leaf_ok 4 (mzi i).
Hypothesis Twg : forall i, two_way (wg i) w.
Hypothesis Tmzi : forall i, two_way (mzi i) w.

Lemma wg_fine i : leaf_ok (b_np (wg i)) (wg i) /\ two_way (wg i) w.
Proof. split; [rewrite (lo_np (Hwg i)); apply Hwg|apply Twg]. Qed.
Lemma mzi_fine i : leaf_ok (b_np (mzi i)) (mzi i) /\ two_way (mzi i) w.
Proof. split; [rewrite (lo_np (Hmzi i)); apply Hmzi|apply Tmzi]. Qed.

Definition sound (N : nat) (b : net) : Prop := oneway N b w /\ quiet b w.

Lemma phase_sound N b : built x0 d0 (phase_mods wg N) (t_phase N) (2 * N) b -> sound N b.
Proof.
  intros Hb. pose proof Hb as (cs & H). set (R := fun (_ : string) d => d = 0).
  assert (H1 : forall n c, In (n, c) (phase_mods wg N) -> leaf_ok (b_np c) c /\ two_way c w).
  { intros n c Hin. apply many_In in Hin. destruct Hin as (i & _ & _ & ->). apply wg_fine. }
  assert (H2 : forall n c, In (n, c) (phase_mods wg N) -> exists d, d <= 0 /\ R n d) by (intros; exists 0; unfold R; auto).
  assert (H3 : forall n1 k1 n2 k2 d1 d2, In (TW n1 k1 n2 k2) (t_phase N) -> R n1 d1 -> R n2 d2 ->
    if inward k1 then inward k2 = false /\ d2 < d1 else inward k2 = true /\ d1 < d2).
  { intros n1 q1 n2 q2 e1 e2 Ht R1 R2. unfold t_phase in Ht. tout Ht. }
  assert (H4 : forall n k j, In (TE n k j) (t_phase N) -> inward k = (j <? N)).
  { intros n k j Ht. unfold t_phase in Ht. tout Ht; symmetry; [apply Nat.ltb_lt|apply Nat.ltb_ge]; lia. }
  split; [exact (flat_oneway H1 (fo_cover H) (fo_ends H) H2 H3 H4 Hb)|exact (flat_quiet H1 (fo_cover H) (fo_ends H) H2 H3 Hb)].
Qed.

Lemma mixc_sound N b : built x0 d0 (mixc_mods wg mzi N) (t_mixc N) (2 * N) b -> sound N b.
Proof.
  intros Hb. pose proof Hb as (cs & H).
  set (R := fun n d => (exists i, n = nwg i /\ d = 1) \/ (exists i, n = nmzi i /\ d = 0) \/ (n = "wg_" /\ d = 0)).
  assert (HI : forall n c, In (n, c) (mixc_mods wg mzi N) -> (leaf_ok (b_np c) c /\ two_way c w) /\ exists d, d <= 1 /\ R n d).
  { intros n c Hin. apply in_app_or in Hin. destruct Hin as [Hin|Hin]; [|apply in_app_or in Hin; destruct Hin as [Hin|Hin]].
    - apply many_In in Hin. destruct Hin as (i & _ & -> & ->). split; [apply wg_fine|]. exists 1. unfold R. eauto 6.
    - apply many_In in Hin. destruct Hin as (i & _ & -> & ->). split; [apply mzi_fine|]. exists 0. unfold R. eauto 8.
    - destruct (odd_n N); [|destruct Hin]. destruct Hin as [[= <- <-]|[]]. split; [apply wg_fine|]. exists 0. unfold R. auto. }
  assert (H3 : forall n1 k1 n2 k2 d1 d2, In (TW n1 k1 n2 k2) (t_mixc N) -> R n1 d1 -> R n2 d2 ->
    if inward k1 then inward k2 = false /\ d2 < d1 else inward k2 = true /\ d1 < d2).
  { intros n1 q1 n2 q2 e1 e2 Ht R1 R2. unfold t_mixc in Ht. unfold R in *; tout Ht; nam; subst; cbn; auto. }
  assert (H4 : forall n k j, In (TE n k j) (t_mixc N) -> inward k = (j <? N)).
  { intros n k j Ht. destruct (parity N) as (h & r & EN & Hr & Eh & _ & Er). unfold t_mixc in Ht. rewrite Eh, Er in Ht. tout Ht; symmetry; first [apply Nat.ltb_lt; cbn in *; lia | apply Nat.ltb_ge; lia]. }
  split; [exact (flat_oneway (fun n c I => proj1 (HI n c I)) (fo_cover H) (fo_ends H) (fun n c I => proj2 (HI n c I)) H3 H4 Hb)
    |exact (flat_quiet (fun n c I => proj1 (HI n c I)) (fo_cover H) (fo_ends H) (fun n c I => proj2 (HI n c I)) H3 Hb)].
Qed.

Lemma cap2_sound N b : 2 <= N -> built x0 d0 (cap2_mods wg mzi N) (t_cap2 N) (2 * N) b -> sound N b.
Proof.
  intros HN Hb. pose proof Hb as (cs & H). destruct (parity N) as (h & r & EN & Hr & Eh & _ & Er).
  set (R := fun n d => (exists i p q, n = nmzi i /\ i = 2 * p + q /\ q < 2 /\ d = 1 + q) \/ (n = nwg 0 /\ d = 3) \/ (n = nwg 1 /\ d = if odd_n N then 0 else 3)).
  assert (HI : forall n c, In (n, c) (cap2_mods wg mzi N) -> (leaf_ok (b_np c) c /\ two_way c w) /\ exists d, d <= 3 /\ R n d).
  { intros n c Hin. apply in_app_or in Hin. destruct Hin as [Hin|Hin].
    - apply many_In in Hin. destruct Hin as (i & _ & -> & ->). split; [apply mzi_fine|].
      destruct (parity i) as (p & q & Ei & Hq & _). exists (1 + q). split; [lia|]. left. eauto 8.
    - apply in_wgs in Hin. destruct Hin as [[->| ->] ->]; (split; [apply wg_fine|]).
      + exists 3. split; [lia|]. right. left. auto.
      + exists (if odd_n N then 0 else 3). split; [destruct (odd_n N); lia|]. right. right. auto. }
  assert (H3 : forall n1 k1 n2 k2 d1 d2, In (TW n1 k1 n2 k2) (t_cap2 N) -> R n1 d1 -> R n2 d2 ->
    if inward k1 then inward k2 = false /\ d2 < d1 else inward k2 = true /\ d1 < d2).
  { intros n1 q1 n2 q2 e1 e2 Ht R1 R2. unfold t_cap2 in Ht. unfold R in *. rewrite Er in *. destruct r as [|[|r]]; [| |lia]; cbn [Nat.eqb] in *; rewrite ?andb_false_r, ?andb_true_r in Ht;
    tout Ht; cbn [inward Nat.eqb orb]; (split; [reflexivity|]); nam; subst; try discriminate; try lia. }
  assert (H4 : forall n k j, In (TE n k j) (t_cap2 N) -> inward k = (j <? N)).
  { intros n k j Ht. unfold t_cap2 in Ht. tout Ht; symmetry; first [apply Nat.ltb_lt; cbn in *; lia | apply Nat.ltb_ge; lia]. }
  split; [exact (flat_oneway (fun n c I => proj1 (HI n c I)) (fo_cover H) (fo_ends H) (fun n c I => proj2 (HI n c I)) H3 H4 Hb)
    |exact (flat_quiet (fun n c I => proj1 (HI n c I)) (fo_cover H) (fo_ends H) (fun n c I => proj2 (HI n c I)) H3 Hb)].
Qed.

Lemma reck1_sound N b : 2 <= N -> built x0 d0 (reck1_mods wg mzi N) (t_reck1 N) (2 * N) b -> sound N b.
Proof.
  intros HN Hb. pose proof Hb as (cs & H).
  set (R := fun n d => (exists i, n = nmzi i /\ i < N - 1 /\ d = N - i) \/ (n = "wg" /\ d = 0)).
  assert (HI : forall n c, In (n, c) (reck1_mods wg mzi N) -> (leaf_ok (b_np c) c /\ two_way c w) /\ exists d, d <= N /\ R n d).
  { intros n c Hin. apply in_app_or in Hin. destruct Hin as [Hin|Hin].
    - apply many_In in Hin. destruct Hin as (i & Hi & -> & ->). split; [apply mzi_fine|]. exists (N - i). split; [lia|]. left. eauto.
    - destruct Hin as [[= <- <-]|[]]. split; [apply wg_fine|]. exists 0. split; [lia|]. right. auto. }
  assert (H3 : forall n1 k1 n2 k2 d1 d2, In (TW n1 k1 n2 k2) (t_reck1 N) -> R n1 d1 -> R n2 d2 ->
    if inward k1 then inward k2 = false /\ d2 < d1 else inward k2 = true /\ d1 < d2).
  { intros n1 q1 n2 q2 e1 e2 Ht R1 R2. unfold t_reck1 in Ht. unfold R in *.
    tout Ht; cbn [inward Nat.eqb orb]; (split; [reflexivity|]); nam; subst; try discriminate; try lia. }
  assert (H4 : forall n k j, In (TE n k j) (t_reck1 N) -> inward k = (j <? N)).
  { intros n k j Ht. unfold t_reck1 in Ht. tout Ht; symmetry; first [apply Nat.ltb_lt; cbn in *; lia | apply Nat.ltb_ge; lia]. }
  split; [exact (flat_oneway (fun n c I => proj1 (HI n c I)) (fo_cover H) (fo_ends H) (fun n c I => proj2 (HI n c I)) H3 H4 Hb)
    |exact (flat_quiet (fun n c I => proj1 (HI n c I)) (fo_cover H) (fo_ends H) (fun n c I => proj2 (HI n c I)) H3 Hb)].
Qed.
End Layers.

(** * Chains and cascades of layers *)
Section Chain.
Variables (N w n : nat) (L : nat -> net) (b : net).
Hypothesis HS : forall i, i <= n -> sound w N (L i).
Hypothesis HF : forall i, i <= n -> fd (L i) = 2 * N.
Hypothesis H : wired_of x0 d0 (many "layer" (S n) L) (t_chain N n) (chain_un N n) b.

Lemma chain_dark PA PO : at_parts (many "layer" (S n) L) (t_chain N n) w PA PO ->
  ((forall k, k < N -> PA (nlay 0) k = c0) -> forall i, i <= n -> forall k, k < N -> PA (nlay i) k = c0 /\ PO (nlay i) (N + k) = c0) /\
  ((forall k, k < N -> PA (nlay n) (N + k) = c0) -> forall i, i <= n -> forall k, k < N -> PA (nlay i) (N + k) = c0 /\ PO (nlay i) k = c0).
Proof.
  intros [HP HW].
  assert (HT : forall i k, i < n -> k < N -> In (TW (nlay i) (N + k) (nlay (i + 1)) k) (t_chain N n)).
  { intros i k Li Lk. unfold t_chain. apply in_flat_map. exists i. split; [apply in_seq; lia|]. apply in_map_iff. exists k. split; [reflexivity|apply in_seq; lia]. }
  assert (HR : forall i, i <= n -> rel (L i) w (PA (nlay i)) (PO (nlay i))) by (intros i Li; apply HP, in_many; lia).
  split; intros HX.
  - assert (HA : forall i, i <= n -> forall k, k < N -> PA (nlay i) k = c0).
    { induction i as [|i IH]; intros Li k Lk; [now apply HX|]. replace (S i) with (i + 1) by lia.
      rewrite (proj2 (HW _ _ _ _ (HT i k ltac:(lia) Lk))). apply (proj1 (proj1 (HS (i := i) ltac:(lia)) _ _ (HR i ltac:(lia)))); [|exact Lk]. apply IH. lia. }
    intros i Li k Lk. split; [now apply HA|]. apply (proj1 (proj1 (HS Li) _ _ (HR i Li))); [|exact Lk]. now apply HA.
  - assert (HA : forall m i, i + m = n -> forall k, k < N -> PA (nlay i) (N + k) = c0).
    { induction m as [|m IH]; intros i Ei k Lk; [replace i with n by lia; now apply HX|].
      rewrite (proj1 (HW _ _ _ _ (HT i k ltac:(lia) Lk))). apply (proj2 (proj1 (HS (i := i + 1) ltac:(lia)) _ _ (HR (i + 1) ltac:(lia)))); [|exact Lk]. apply IH. lia. }
    intros i Li k Lk. split; [apply (HA (n - i)); [lia|exact Lk]|]. apply (proj2 (proj1 (HS Li) _ _ (HR i Li))); [|exact Lk]. apply (HA (n - i)). lia.
Qed.
Lemma chain_first k : k < N -> nth_error (chain_un N n) k = Some (nlay 0, k).
Proof.
  intros Lk. unfold chain_un. rewrite nth_error_app1 by (rewrite map_length, seq_length; exact Lk).
  apply map_nth_error. now rewrite nth_error_seq_lt.
Qed.
Lemma chain_last k : k < N -> nth_error (chain_un N n) (N + k) = Some (nlay n, N + k).
Proof.
  intros Lk. unfold chain_un.
  rewrite nth_error_app2 by (rewrite map_length, seq_length; lia). rewrite map_length, seq_length. replace (N + k - N) with k by lia.
  apply map_nth_error. now rewrite nth_error_seq_lt.
Qed.
Lemma chain_sound : sound w N b.
Proof.
  split.
  - intros x y HR. destruct (wired_rel KR H HR) as (PA & PO & HP & HE). destruct (chain_dark HP) as [H1 H2]. split; intros HX k Lk.
    + rewrite (proj2 (HE _ _ _ (chain_last Lk))). apply H1; [|lia|exact Lk]. intros q Lq. rewrite <- (proj1 (HE _ _ _ (chain_first Lq))). auto.
    + rewrite (proj2 (HE _ _ _ (chain_first Lk))). apply H2; [|lia|exact Lk]. intros q Lq. rewrite <- (proj1 (HE _ _ _ (chain_last Lq))). auto.
  - intros A O HFl HE. destruct (wired_parts KR H HFl) as [HP HT]. destruct (chain_dark HP) as [H1 H2].
    pose proof (wired_fd H) as Ef. unfold chain_un in Ef. rewrite app_length, !map_length, !seq_length in Ef.
    apply (net_quiet (wo_nodup H) (wo_buf H) HFl). intros nm c Hin. apply many_In in Hin. destruct Hin as (i & Li & -> & ->).
    split; [apply HS; lia|]. rewrite HF by lia. intros k Lk. destruct (Nat.lt_ge_cases k N) as [L1|L1].
    + apply H1; [|lia|exact L1]. intros q Lq. rewrite <- (proj1 (HT _ _ _ (chain_first Lq))). apply HE. lia.
    + replace k with (N + (k - N)) by lia. apply H2; [|lia|lia]. intros q Lq. rewrite <- (proj1 (HT _ _ _ (chain_last Lq))). apply HE. lia.
Qed.
End Chain.

Section Cascade.
Variables (N w : nat) (L : nat -> net) (wgn b : net).
Hypothesis HN : 2 <= N.
Hypothesis Hg : leaf_ok 2 wgn.
Hypothesis Tg : two_way wgn w.
Hypothesis HS : forall i, i < N - 1 -> sound w (N - i) (L i).
Hypothesis HF : forall i, i < N - 1 -> fd (L i) = 2 * (N - i).
Hypothesis H : wired_of x0 d0 (reck_mods N L wgn) (t_reck N) (reck_un N) b.

Lemma wgn_dark (x y : vec) (dir : bool) : rel wgn w x y -> x (if dir then 0 else 1) = c0 -> y (if dir then 1 else 0) = c0.
Proof.
  intros HR Hx. assert (Hl : leaf_ok (b_np wgn) wgn) by (rewrite (lo_np Hg); exact Hg).
  apply (leaf_dark Hl Tg HR (dir := dir)); [|rewrite (lo_np Hg); destruct dir; lia|destruct dir; reflexivity].
  intros k Lk Ek. rewrite (lo_np Hg) in Lk. assert (k = 0 \/ k = 1) as [->| ->] by lia; destruct dir; try discriminate Ek; exact Hx.
Qed.

Lemma reck_dark PA PO : at_parts (reck_mods N L wgn) (t_reck N) w PA PO ->
  ((forall k, k < N -> PA (nlay 0) k = c0) ->
     (forall m k, m < N - 1 -> k < N - m -> PA (nlay m) k = c0 /\ PO (nlay m) (N - m + k) = c0) /\ PA "wg" 0 = c0 /\ PO "wg" 1 = c0) /\
  ((forall m, m < N - 1 -> PA (nlay m) (N - m) = c0) -> PA "wg" 1 = c0 ->
     forall m k, m < N - 1 -> k < N - m -> PA (nlay m) (N - m + k) = c0 /\ PO (nlay m) k = c0).
Proof.
  intros [HP HW].
  assert (HT : forall m k, m + 1 < N - 1 -> k < N - m - 1 -> PA (nlay m) (N - m + (1 + k)) = PO (nlay (m + 1)) k /\ PA (nlay (m + 1)) k = PO (nlay m) (N - m + (1 + k))).
  { intros m k Lm Lk. replace (N - m + (1 + k)) with (N - (m + 1) + 2 + k) by lia. replace (nlay m) with (nlay (m + 1 - 1)) by (do 2 f_equal; lia). apply HW.
    unfold t_reck. apply in_or_app. left. apply in_flat_map. exists (m + 1). split; [apply in_seq; lia|].
    apply in_map_iff. exists k. split; [reflexivity|apply in_seq; lia]. }
  assert (Hw : PA (nlay (N - 2)) 3 = PO "wg" 0 /\ PA "wg" 0 = PO (nlay (N - 2)) 3) by (apply HW; unfold t_reck; apply in_or_app; right; now left).
  assert (HR : forall i, i < N - 1 -> rel (L i) w (PA (nlay i)) (PO (nlay i))) by (intros i Li; apply HP; unfold reck_mods; apply in_or_app; left; apply in_many; lia).
  assert (Hrw : rel wgn w (PA "wg") (PO "wg")) by (apply HP; unfold reck_mods; apply in_or_app; right; now left).
  split.
  - intros HX.
    assert (HA : forall m, m < N - 1 -> forall k, k < N - m -> PA (nlay m) k = c0).
    { induction m as [|m IH]; intros Lm k Lk; [apply HX; lia|]. replace (S m) with (m + 1) by lia.
      rewrite (proj2 (HT m k ltac:(lia) ltac:(lia))). apply (proj1 (proj1 (HS (i := m) ltac:(lia)) _ _ (HR m ltac:(lia)))); [|lia]. apply IH. lia. }
    assert (HO : forall m k, m < N - 1 -> k < N - m -> PO (nlay m) (N - m + k) = c0).
    { intros m k Lm Lk. apply (proj1 (proj1 (HS Lm) _ _ (HR m Lm))); [|exact Lk]. now apply HA. }
    split; [auto|].
    assert (E : PA "wg" 0 = c0). { rewrite (proj2 Hw). specialize (HO (N - 2) 1 ltac:(lia) ltac:(lia)). now replace (N - (N - 2) + 1) with 3 in HO by lia. }
    split; [exact E|]. exact (wgn_dark (dir := true) Hrw E).
  - intros HX Hx.
    assert (HA : forall e m, m + e = N - 2 -> forall k, k < N - m -> PA (nlay m) (N - m + k) = c0).
    { induction e as [|e IH]; intros m Em k Lk.
      - destruct k as [|k]; [rewrite Nat.add_0_r; apply HX; lia|]. replace (N - m + S k) with 3 by lia. replace m with (N - 2) by lia.
        rewrite (proj1 Hw). exact (wgn_dark (dir := false) Hrw Hx).
      - destruct k as [|k]; [rewrite Nat.add_0_r; apply HX; lia|]. change (S k) with (1 + k). rewrite (proj1 (HT m k ltac:(lia) ltac:(lia))).
        apply (proj2 (proj1 (HS (i := m + 1) ltac:(lia)) _ _ (HR (m + 1) ltac:(lia)))); [|lia]. apply IH. lia. }
    intros m k Lm Lk. split; [apply (HA (N - 2 - m)); lia|]. apply (proj2 (proj1 (HS Lm) _ _ (HR m Lm))); [|exact Lk]. apply (HA (N - 2 - m)). lia.
Qed.
Lemma reck_in k : k < N -> nth_error (reck_un N) k = Some (nlay 0, k).
Proof.
  intros Lk. unfold reck_un. rewrite nth_error_app1 by (rewrite map_length, seq_length; lia). apply map_nth_error. rewrite nth_error_seq_lt by lia. reflexivity.
Qed.
Lemma reck_out k : k < N - 1 -> nth_error (reck_un N) (N + k) = Some (nlay k, N - k).
Proof.
  intros Hk. unfold reck_un. rewrite nth_error_app2 by (rewrite map_length, seq_length; lia).
  rewrite map_length, seq_length. replace (N + k - N) with k by lia. rewrite nth_error_app1 by (rewrite map_length, seq_length; lia).
  exact (map_nth_error (fun m => (nlay m, N - m)) _ _ (nth_error_seq_lt 0 Hk)).
Qed.
Lemma reck_end : nth_error (reck_un N) (N + (N - 1)) = Some ("wg", 1).
Proof.
  unfold reck_un. rewrite nth_error_app2 by (rewrite map_length, seq_length; lia).
  rewrite map_length, seq_length. rewrite nth_error_app2 by (rewrite map_length, seq_length; lia). rewrite map_length, seq_length.
  replace (N + (N - 1) - N - (N - 1)) with 0 by lia. reflexivity.
Qed.
Lemma reck_sound : sound w N b.
Proof.
  split.
  - intros x y HR. destruct (wired_rel KR H HR) as (PA & PO & HP & HE). destruct (reck_dark HP) as [H1 H2]. split; intros HX k Lk.
    + destruct H1 as (H1 & _ & H3); [intros q Lq; rewrite <- (proj1 (HE _ _ _ (reck_in Lq))); auto|].
      destruct (Nat.eq_dec k (N - 1)) as [->|Hne].
      * rewrite (proj2 (HE _ _ _ reck_end)). exact H3.
      * rewrite (proj2 (HE _ _ _ (reck_out (k := k) ltac:(lia)))). replace (N - k) with (N - k + 0) by lia. apply H1; lia.
    + rewrite (proj2 (HE _ _ _ (reck_in Lk))). apply H2; [| |lia|lia].
      * intros m Lm. rewrite <- (proj1 (HE _ _ _ (reck_out Lm))). apply HX. lia.
      * rewrite <- (proj1 (HE _ _ _ reck_end)). apply HX. lia.
  - intros A O HFl HE. destruct (wired_parts KR H HFl) as [HP HT]. destruct (reck_dark HP) as [H1 H2].
    pose proof (wired_fd H) as Ef. unfold reck_un in Ef. rewrite !app_length, !map_length, !seq_length in Ef. cbn [length] in Ef.
    destruct H1 as (H1 & H3 & _); [intros q Lq; rewrite <- (proj1 (HT _ _ _ (reck_in Lq))); apply HE; lia|].
    assert (H4 : A (loc (reck_mods N L wgn) ("wg", 1)) = c0) by (rewrite <- (proj1 (HT _ _ _ reck_end)); apply HE; lia).
    specialize (H2 ltac:(intros m Lm; rewrite <- (proj1 (HT _ _ _ (reck_out Lm))); apply HE; lia) H4).
    apply (net_quiet (wo_nodup H) (wo_buf H) HFl). intros nm c Hin. unfold reck_mods in Hin. apply in_app_or in Hin. destruct Hin as [Hin|[[= <- <-]|[]]].
    + apply many_In in Hin. destruct Hin as (i & Li & -> & ->). split; [apply HS; lia|]. rewrite HF by lia. intros k Lk.
      destruct (Nat.lt_ge_cases k (N - i)) as [L1|L1]; [now apply H1|]. replace k with (N - i + (k - (N - i))) by lia. apply H2; lia.
    + split; [exact (leaf_quiet Hg)|]. rewrite (leaf_fd Hg). intros k Lk. assert (k = 0 \/ k = 1) as [->| ->] by lia; assumption.
Qed.
End Cascade.

(** * Meshes *)
Section Mesh.
Variables (wg mzi : nat -> nat -> net) (w : nat).
Hypothesis Hwg : forall l i, leaf_ok 2 (wg l i).
Hypothesis Hmzi : forall l i, leaf_ok 4 (mzi l i).
Hypothesis Twg : forall l i, two_way (wg l i) w.
Hypothesis Tmzi : forall l i, two_way (mzi l i) w.

Theorem clements_quiet N c b : 2 <= N -> 2 <= c -> clements x0 d0 N c wg mzi = Ok b -> quiet b w.
Proof.
  intros HN Hc Hb. destruct (clements_builds x0 d0 Hwg Hmzi HN Hc) as (b' & L & Hb' & HL & Hl & Hw).
  rewrite Hb in Hb'. injection Hb' as <-. set (n := c / 2) in *.
  assert (HA : forall i, i <= n -> sound w N (L i) /\ fd (L i) = 2 * N).
  { intros i Hi. destruct (Nat.eq_dec i n) as [->|Hne].
    - unfold clements_last in Hl. fold n in Hl. destruct (odd_n c).
      + split; [exact (mixc_sound (Hwg n) (Hmzi n) (@Twg n) (@Tmzi n) Hl)|apply (built_part Hl)].
      + split; [exact (phase_sound (Hwg n) (Hmzi n) (@Twg n) (@Tmzi n) Hl)|apply (built_part Hl)].
    - specialize (HL i ltac:(lia)). split; [exact (cap2_sound (Hwg i) (Hmzi i) (@Twg i) (@Tmzi i) HN HL)|apply (built_part HL)]. }
  apply (@chain_sound N w n L b); [apply HA|apply HA|exact Hw].
Qed.
Theorem reck_quiet N b : 2 <= N -> reck x0 d0 N wg mzi = Ok b -> quiet b w.
Proof.
  intros HN Hb. destruct (reck_builds x0 d0 Hwg Hmzi HN) as (b' & L & Hb' & HL & Hw). rewrite Hb in Hb'. injection Hb' as <-.
  apply (@reck_sound N w L (wg (N - 1) 0) b HN (Hwg (N - 1) 0) (@Twg (N - 1) 0)); [| |exact Hw].
  - intros i Hi. apply (reck1_sound (Hwg i) (Hmzi i) (@Twg i) (@Tmzi i)); [lia|now apply HL].
  - intros i Hi. apply (built_part (HL i Hi)).
Qed.
End Mesh.

(** * Closed networks *)
Section Closed.
Variables (name : string) (N : nat) (b s d b' : net).
Hypothesis Hn : good_name name.
Hypothesis Hns : forall i, name <> ("s" ++ di i)%string.
Hypothesis Hnd : forall i, name <> ("d" ++ di i)%string.
Hypothesis Hs : one_port s.
Hypothesis Hd : one_port d.
Hypothesis Fs : flagged true false s.
Hypothesis Fd : flagged false true d.
Hypothesis HN : 1 <= N.
Hypothesis Hp : part_ok b.
Hypothesis Hsil : silent b.
Hypothesis Hf : fd b = 2 * N.
Hypothesis Hb' : mesh_close x0 d0 name N s d b = Ok b'.
Variable e : env.
Hypothesis He : e_freq e = true.

Lemma closed_no_resonance w : b_S s 0 0 w = c0 -> b_S d 0 0 w = c0 -> quiet b w -> no_resonance k0 kadd kmul ksub e b' w.
Proof.
  intros Ss Sd HQ x Hx i Li Zi.
  destruct (mesh_facts 0 Hn Hns Hnd Hs Hd Fs Fd HN Hp Hsil Hf Hb') as (En & OP & _ & _ & HC & HT & cs & conns & ND & Hb & HLn & _ & _ & post & Ecs).
  assert (TD : forall i j, i < 2 * N -> b_S b' (tport b i) j w = c0 /\ b_S b' j (tport b i) w = c0)
    by (intros i0 j0 Hi0; exact (tp_dark Hn Hns Hnd Hs Hd Fs Fd Ss Sd HN Hp Hsil Hf Hb' j0 Hi0)).
  pose proof (port_cases 0 Hn Hns Hnd Hs Hd Fs Fd HN Hp Hsil Hf Hb') as PC.
  assert (TL := fun i Hi => @tp_lag K k0 name N 0 b s d b' Hn Hns Hnd Hs Hd Fs Fd HN Hp Hsil Hf Hb' e He i Hi).
  assert (NL := fun q Hq => @np_lag K k0 name N 0 b s d b' Hn Hns Hnd Hs Hd Fs Fd HN Hp Hsil Hf Hb' e He q Hq).
  (* light between the ports of the network *)
  set (A := fun p => if lag e b' p =? 0 then x p else c0).
  set (O := fun p => scatter k0 kadd kmul ksub b' w A p).
  assert (HO : forall j, csum (fun k => if lag e b' k =? 0 then cmul (b_S b' j k w) (x k) else c0) (seq 0 (b_np b')) = O j).
  { intros j. unfold O, scatter. apply lsum_ext. intros k _. unfold A. destruct (lag e b' k =? 0); [reflexivity|ring]. }
  assert (HA : forall p p', p < b_np b' -> lag e b' p = 0 -> p' < b_np b' -> b_C b' p p' = true -> A p = O p').
  { intros p p' Lp Zp Lp' Hc. unfold A. rewrite Zp. cbn [Nat.eqb]. rewrite (Hx p Lp Zp).
    destruct (OP p Lp) as (j & Lj & Hj & HU). assert (p' = j) by auto. subst j.
    rewrite (@lsum_ext _ c0 cadd _ _ (fun k => if k =? p' then O k else c0)).
    - rewrite (lsum_one CR). now rewrite (proj2 (Nat.ltb_lt p' (b_np b'))) by exact Lp'.
    - intros k Ik. apply in_seq in Ik. rewrite HO. destruct (Nat.eqb_spec k p') as [->|Hne]; [now rewrite Hc|].
      destruct (b_C b' p k) eqn:E; [|reflexivity]. exfalso. apply Hne. apply HU; [lia|exact E]. }
  assert (HT0 : forall q, q < 2 * N -> O (tport b q) = c0).
  { intros q Hq. unfold O, scatter. apply (lsum_0 CR). intros j _. destruct (TD q j Hq) as [-> _]. ring. }
  assert (Eloc : ports_before [(("s" ++ di 0)%string, s)] = 1) by (rewrite ports_before_cons, (op_np Hs); reflexivity).
  assert (HFl : flows b w (fun _ => c0) (fun q => A (nport q)) (fun q => O (nport q))).
  { split.
    - intros p q Lp Lq Hc. apply HA; [rewrite En; unfold nport; lia|now apply NL|rewrite En; unfold nport; lia|]. now rewrite HC.
    - intros q Lq. unfold O at 1, scatter.
      rewrite (@csum_block _ _ _ _ _ _ _ KR 1 (b_np b)); [|rewrite En; lia|].
      + transitivity (csum (fun k => cmul (b_S b q k w) (A (nport k))) (seq 0 (b_np b))); [|unfold scatter; ring].
        apply lsum_ext. intros k Ik. apply in_seq in Ik. f_equal. destruct (S_block Hb (nport k) w Ecs Lq) as [E _]. rewrite Eloc in E.
        cbn [Nat.add] in E. unfold nport in *. change (1 + k) with (S k). rewrite E. cbn [Nat.leb Nat.sub]. rewrite (proj2 (Nat.ltb_lt (S k) (S (b_np b)))) by lia. cbn. f_equal. lia.
      + intros j Lj Hj. destruct (S_block Hb j w Ecs Lq) as [E _]. rewrite Eloc in E. cbn [Nat.add] in E. unfold nport. rewrite E.
        replace ((1 <=? j) && (j <? S (b_np b))) with false; [ring|].
        symmetry. apply andb_false_iff. destruct Hj; [left; apply Nat.leb_gt; lia|right; apply Nat.ltb_ge; lia]. }
  destruct (PC i Li) as [(q & Hq & ->)|(q & Hq & ->)]; [rewrite TL in Zi by exact Hq; discriminate|].
  transitivity (A (nport q)); [unfold A; rewrite Zi; reflexivity|].
  refine (HQ _ _ HFl _ q Hq). intros k Hk. unfold ends. rewrite Hf in Hk.
  assert (Hk' : k < length (free_ports b)) by (fold (fd b); lia).
  pose proof (nth_error_nth' (free_ports b) 0 Hk') as E. set (p := nth k (free_ports b) 0) in *.
  assert (Lp : p < b_np b) by (apply nth_error_In in E; apply filter_In in E; apply (order_ok_lt (po_order Hp)); apply E).
  rewrite <- (HT0 k Hk). apply HA; [rewrite En; unfold nport; lia|now apply NL|rewrite En; destruct k; cbn [tport]; lia|].
  apply (HT k p Hk Lp). exact E.
Qed.

Theorem closed_succeeds solve (A : Type) (act : A -> nat -> field K -> A * field K) s0 source : solver_complete k0 kadd kmul solve ->
  (forall w, w < e_num_wl e -> b_S s 0 0 w = c0 /\ b_S d 0 0 w = c0 /\ quiet b w) ->
  exists outs, forward k0 k1 kadd kmul ksub kopp solve act e b' s0 source = Ok outs /\ length outs = e_num_t e.
Proof.
  intros SC HW. apply (forward_succeeds KR); auto.
  - left. exact He.
  - exact (mesh_separate (k0 := k0) 0 Hn Hns Hnd Hs Hd Fs Fd HN Hp Hsil Hf Hb' He).
  - destruct (mesh_facts 0 Hn Hns Hnd Hs Hd Fs Fd HN Hp Hsil Hf Hb') as (En & OP & _).
    unfold terminated. apply negb_true_iff. apply not_true_is_false. intros HX. apply existsb_exists in HX. destruct HX as (p & Ip & Fp).
    apply in_seq in Ip. apply free_at_spec in Fp. destruct (OP p) as (j & Lj & Hj & _); [lia|]. destruct (Fp j Lj) as [E _]. congruence.
  - destruct (tp_flags (k0 := k0) 0 Hn Hns Hnd Hs Hd Fs Fd HN Hp Hsil Hf Hb' (i := N)) as (_ & E & _); [lia|]. rewrite Nat.leb_refl in E.
    pose proof (tp_lt (k0 := k0) 0 Hn Hns Hnd Hs Hd Fs Fd HN Hp Hsil Hf Hb' (i := N) ltac:(lia)) as Lt.
    unfold num_det. intros Z. apply length_zero_iff_nil in Z. assert (I : In (tport b N) (filter (b_det b') (seq 0 (b_np b')))) by (apply filter_In; split; [apply in_seq; lia|exact E]).
    rewrite Z in I. destruct I.
  - intros w Lw. destruct (HW w Lw) as (S1 & S2 & S3). split; [|now apply closed_no_resonance].
    exact (mesh_unmixed Hn Hns Hnd Hs Hd Fs Fd S1 S2 HN Hp Hsil Hf Hb' He).
Qed.
End Closed.
End Q.
