(** Depths in networks of components that reflect nothing: Clements and Reck meshes pass light on
    in one direction, so that they settle in finitely many steps. *)
From Coq Require Import Ring QArith Permutation.
From Verif Require Import Base PyStr PyStrProofs NetModel NetSpec NetProofs WireProofs OrderProofs TypedNet TermProofs NetBuild SimModel SimAlg SimSpec SimDelay SimRegular
  CircuitSpec CircuitProofs UniSpec UniProofs MeshModel MeshNet MeshBuild MeshLayers MeshChain MeshTop MeshFlow MeshActs MeshSim MeshQuiet FeedForward.
Set Implicit Arguments.
Unset Strict Implicit.
Local Open Scope string_scope.
Local Open Scope list_scope.
Local Open Scope nat_scope.

(** Something chosen for every name of a list. *)
Lemma name_choice {A V} (a0 : A) (P : string -> V -> A -> Prop) (cs : list (string * V)) : NoDup (map fst cs) ->
  (forall n c, In (n, c) cs -> exists a, P n c a) -> exists f : string -> A, forall n c, In (n, c) cs -> P n c (f n).
Proof.
  induction cs as [|[n c] cs IH]; intros ND H; [exists (fun _ => a0); intros ? ? []|].
  cbn in ND. inversion ND as [|? ? N1 N2]; subst. destruct IH as (f & Hf); [exact N2|intros; apply H; now right|].
  destruct (H n c (or_introl eq_refl)) as (a & Ha). exists (fun m => if String.eqb m n then a else f m). intros m d [E|I].
  - injection E as -> ->. now rewrite String.eqb_refl.
  - destruct (String.eqb_spec m n) as [->|_]; [|now apply Hf]. exfalso. apply N1. change n with (fst (n, d)). now apply in_map.
Qed.

Lemma chain_un_first N n k : k < N -> nth_error (chain_un N n) k = Some (nlay 0, k).
Proof.
  intros Lk. unfold chain_un. rewrite nth_error_app1 by (rewrite map_length, seq_length; exact Lk).
  apply map_nth_error. now rewrite nth_error_seq_lt.
Qed.
Lemma chain_un_last N n k : k < N -> nth_error (chain_un N n) (N + k) = Some (nlay n, N + k).
Proof.
  intros Lk. unfold chain_un.
  rewrite nth_error_app2 by (rewrite map_length, seq_length; lia). rewrite map_length, seq_length. replace (N + k - N) with k by lia.
  apply map_nth_error. now rewrite nth_error_seq_lt.
Qed.
Lemma reck_un_in N k : 2 <= N -> k < N -> nth_error (reck_un N) k = Some (nlay 0, k).
Proof.
  intros HN Lk. unfold reck_un. rewrite nth_error_app1 by (rewrite map_length, seq_length; lia). apply map_nth_error. rewrite nth_error_seq_lt by lia. reflexivity.
Qed.
Lemma reck_un_out N k : 2 <= N -> k < N - 1 -> nth_error (reck_un N) (N + k) = Some (nlay k, N - k).
Proof.
  intros HN Hk. unfold reck_un. rewrite nth_error_app2 by (rewrite map_length, seq_length; lia).
  rewrite map_length, seq_length. replace (N + k - N) with k by lia. rewrite nth_error_app1 by (rewrite map_length, seq_length; lia).
  exact (map_nth_error (fun m => (nlay m, N - m)) _ _ (nth_error_seq_lt 0 Hk)).
Qed.
Lemma reck_un_end N : 2 <= N -> nth_error (reck_un N) (N + (N - 1)) = Some ("wg", 1).
Proof.
  intros HN. unfold reck_un. rewrite nth_error_app2 by (rewrite map_length, seq_length; lia).
  rewrite map_length, seq_length. rewrite nth_error_app2 by (rewrite map_length, seq_length; lia). rewrite map_length, seq_length.
  replace (N + (N - 1) - N - (N - 1)) with 0 by lia. reflexivity.
Qed.

Section R.
Variables (K : Type) (k0 : K).
Notation cx := (prod K K).
Notation c0 := (c0 k0).
Notation net := (net K).
Notation comps := (list (string * net)).
Notation x0 := (fun _ : nat => c0).
Notation d0 := 0%Q.
Notation two_way := (two_way k0).

(** Depths [r i <= B] and directions of the light entering each port; [side m] is the direction of the
    light entering at free port [m]: light leaving there has the other one. *)
Definition ranked (b : net) (w B : nat) (side : nat -> bool) (r : nat -> nat) (dir : nat -> bool) : Prop :=
  (forall i, i < b_np b -> r i <= B) /\
  (forall i j k, i < b_np b -> j < b_np b -> k < b_np b -> b_C b i j = true -> b_S b j k w = c0 \/ (dir k = dir i /\ r k < r i)) /\
  (forall m, m < fd b -> dir (nth m (free_ports b) 0) = side m /\
     forall k, k < b_np b -> b_S b (nth m (free_ports b) 0) k w = c0 \/ dir k = negb (side m)).

Lemma leaf_ranked n c w : leaf_ok n c -> two_way c w -> ranked c w 0 inward (fun _ => 0) inward.
Proof.
  intros HL HT. split; [lia|]. split; [intros i j k _ _ _ H; rewrite (lo_C HL) in H; discriminate|].
  intros m Lm. rewrite (leaf_fd HL) in Lm. rewrite (leaf_free HL), seq_nth by exact Lm. cbn [Nat.add]. split; [reflexivity|].
  intros k Lk. destruct (Bool.bool_dec (inward m) (inward k)) as [E|E].
  - left. apply HT; [rewrite (lo_np HL); exact Lm|exact Lk|exact E].
  - right. destruct (inward m), (inward k); cbn; congruence.
Qed.

Fixpoint spread {A} (f : string -> nat -> A) (a0 : A) (cs : comps) (p : nat) : A :=
  match cs with
  | [] => a0
  | (n, c) :: r => if p <? b_np c then f n p else spread f a0 r (p - b_np c)
  end.
Lemma spread_located {A} (f : string -> nat -> A) a0 (cs : comps) p n c q : located cs p n c q -> spread f a0 cs p = f n q.
Proof.
  intros (pre & post & -> & -> & Lq). induction pre as [|[m d] pre IH].
  - change (ports_before []) with 0. cbn [app spread Nat.add]. now rewrite (proj2 (Nat.ltb_lt q (b_np c)) Lq).
  - cbn [app spread]. rewrite ports_before_cons. destruct (Nat.ltb_spec (b_np d + ports_before pre + q) (b_np d)); [lia|].
    replace (b_np d + ports_before pre + q - b_np d) with (ports_before pre + q) by lia. exact IH.
Qed.

(** * Networks of parts *)
Section Parts.
Variables (cs : comps) (conns : list string) (b : net) (w B D : nat).
Hypothesis Hnd : NoDup (map fst cs).
Hypothesis Hb : net_buf x0 d0 cs conns = Ok b.
Hypothesis Hok : forall n c, In (n, c) cs -> part_ok c.
Hypothesis Hp : part_ok b.
(** Depth and sides of a part. *)
Variable P : string -> nat -> (nat -> bool) -> Prop.
Hypothesis HP : forall n c, In (n, c) cs -> exists d s r dir, d <= D /\ P n d s /\ ranked c w B s r dir.
Definition linked (n : string) (k : nat) (n2 : string) (k2 : nat) : Prop :=
  forall d s d2 s2, P n d s -> P n2 d2 s2 -> s2 k2 = negb (s k) /\ if s k then d2 < d else d < d2.
Hypothesis Hcov : forall n c k, In (n, c) cs -> k < fd c -> In (loc cs (n, k)) (free_ports b) \/
  exists n2 c2 k2, In (n2, c2) cs /\ k2 < fd c2 /\ b_C b (loc cs (n, k)) (loc cs (n2, k2)) = true /\ linked n k n2 k2.
Variable side : nat -> bool.
Hypothesis Hside : forall m, m < fd b -> exists n c k, In (n, c) cs /\ k < fd c /\ nth m (free_ports b) 0 = loc cs (n, k) /\
  forall d s, P n d s -> side m = s k.

Lemma parts_ranked : exists r dir, ranked b w (D * S B + B) side r dir.
Proof.
  destruct (@name_choice (nat * (nat -> bool) * (nat -> nat) * (nat -> bool)) net (0, fun _ => true, fun _ => 0, fun _ => true)
    (fun n c x => match x with (d, s, r, dir) => d <= D /\ P n d s /\ ranked c w B s r dir end) cs Hnd) as (f & Hf).
  { intros n c I. destruct (HP I) as (d & s & r & dir & H). exists (d, s, r, dir). exact H. }
  set (lev := fun n => match f n with (d, _, _, _) => d end). set (sd := fun n => match f n with (_, s, _, _) => s end).
  set (rk := fun n => match f n with (_, _, r, _) => r end). set (dr := fun n => match f n with (_, _, _, dir) => dir end).
  assert (HF : forall n c, In (n, c) cs -> lev n <= D /\ P n (lev n) (sd n) /\ ranked c w B (sd n) (rk n) (dr n)).
  { intros n c I. specialize (Hf n c I). unfold lev, sd, rk, dr. destruct (f n) as [[[d s] r] dir]. exact Hf. }
  clearbody lev sd rk dr. clear f Hf.
  set (off := fun n q => if dr n q then lev n else D - lev n).
  exists (spread (fun n q => off n q * S B + rk n q) 0 cs), (spread dr true cs).
  destruct (net_buf_inv Hb) as (_ & _ & En & _).
  assert (Ho : orders_ok cs) by (intros n c I; apply (po_order (Hok I))).
  assert (Loc : forall i, i < b_np b -> exists n c q, located cs i n c q /\ In (n, c) cs /\ q < b_np c).
  { intros i Li. rewrite En in Li. destruct (located_exists Li) as (n & c & q & HL). exists n, c, q. split; [exact HL|].
    destruct HL as (pre & post & -> & _ & Lq). split; [apply in_elt|exact Lq]. }
  assert (Off : forall n c q, In (n, c) cs -> off n q <= D).
  { intros n c q I. destruct (HF n c I) as (L & _). unfold off. destruct (dr n q); lia. }
  assert (Same : forall i n c q n' c' q', located cs i n c q -> located cs i n' c' q' -> n = n' /\ c = c' /\ q = q').
  { intros i n c q n' c' q' (pre & post & E & -> & Lq) (pre' & post' & E' & Ei & Lq'). destruct (located_unique E E' Lq Lq' Ei) as (_ & ? & ? & _ & ?). auto. }
  (* scattering stays inside a part *)
  assert (Scat : forall j k n c q, located cs j n c q -> k < b_np b -> b_S b j k w = c0 \/
     exists q', located cs k n c q' /\ q' < b_np c /\ b_S b j k w = b_S c q q' w).
  { intros j k n c q HL Lk. assert (Lj : j < b_np b) by (rewrite En; eapply located_lt; exact HL).
    destruct (S_cases Hb w Lj Lk) as [(n' & c' & p & p' & H1 & H2 & L1 & L2 & I & E & _)|[E _]]; [|now left].
    destruct (Same _ _ _ _ _ _ _ HL H1) as (<- & <- & <-). right. exists p'. auto. }
  split; [|split].
  - intros i Li. destruct (Loc i Li) as (n & c & q & HL & I & Lq). rewrite (spread_located _ _ HL).
    destruct (HF n c I) as (_ & _ & H1 & _). specialize (H1 q Lq). specialize (Off n c q I).
    assert (off n q * S B <= D * S B) by (apply Nat.mul_le_mono_r; exact Off). lia.
  - intros i j k Li Lj Lk HC. destruct (Loc i Li) as (n & c & q & HL & I & Lq).
    destruct (HF n c I) as (LD & PN & R1 & R2 & R3).
    destruct (free_at c q) eqn:F.
    + (* a connection of the network *)
      assert (Iq : In q (free_ports c)).
      { apply filter_In. split; [|exact F]. apply (Permutation_in _ (Permutation_sym (po_order (Hok I)))). apply in_seq. lia. }
      apply (In_nth _ _ 0) in Iq. destruct Iq as (m & Lm & Em).
      assert (Ei : i = loc cs (n, m)).
      { pose proof (loc_located Hnd Hok I Lm) as HL2. rewrite Em in HL2. destruct HL as (pre & post & E & -> & _), HL2 as (pre' & post' & E' & -> & _).
        assert (pre = pre'); [|now subst]. revert Hnd. rewrite E in E'. clear -E' E. intros Hnd.
        destruct (app_split_cases E') as [(-> & _)|[(mid & -> & ->)|(mid & -> & ->)]]; [reflexivity| |]; exfalso.
        - rewrite E in Hnd. rewrite map_app in Hnd. cbn [map fst] in Hnd. apply NoDup_remove_2 in Hnd. apply Hnd. apply in_or_app. right. rewrite map_app. apply in_or_app. right. now left.
        - rewrite E in Hnd. rewrite map_app in Hnd. cbn [map fst] in Hnd. apply NoDup_remove_2 in Hnd. apply Hnd. apply in_or_app. left. rewrite map_app. apply in_or_app. right. now left. }
      destruct (Hcov I Lm) as [Fr|(n2 & c2 & m2 & I2 & L2 & HC2 & LK)].
      { exfalso. rewrite <- Ei in Fr. apply filter_In in Fr. destruct Fr as [_ Fr]. apply free_at_spec in Fr. destruct (Fr j Lj) as [E _]. congruence. }
      rewrite <- Ei in HC2. pose proof (loc_located Hnd Hok I2 L2) as HL2.
      assert (Ej : j = loc cs (n2, m2)) by (apply (po_once Hp (i := i)); auto; rewrite En; eapply located_lt; exact HL2).
      subst j. destruct (HF n2 c2 I2) as (LD2 & PN2 & Q1 & Q2 & Q3). destruct (LK _ _ _ _ PN PN2) as [Es Ed].
      destruct (R3 m Lm) as [Edr _]. rewrite Em in Edr. destruct (Q3 m2 L2) as [_ Q4].
      destruct (Scat _ k _ _ _ HL2 Lk) as [E|(q' & HLk & Lq' & E)]; [now left|]. rewrite E.
      destruct (Q4 q' Lq') as [Z|Ek]; [now left|]. right. rewrite !(spread_located _ _ HL), !(spread_located _ _ HLk).
      rewrite Ek, Es, negb_involutive, Edr. split; [reflexivity|]. unfold off. rewrite Ek, Es, negb_involutive, Edr.
      specialize (Q1 q' Lq'). destruct (sd n m).
      * assert (S (lev n2) * S B <= lev n * S B) by (apply Nat.mul_le_mono_r; lia). cbn [Nat.mul] in *. lia.
      * assert (S (D - lev n2) * S B <= (D - lev n) * S B) by (apply Nat.mul_le_mono_r; lia). cbn [Nat.mul] in *. lia.
    + (* a connection inside the part *)
      assert (NU : ~ unconnected c q) by (intros H; apply free_at_spec in H; congruence).
      pose proof HL as (pre & post & E & Ei & _). rewrite Ei in HC. apply (child_isolated Hnd Hb Ho E Lq NU) in HC. destruct HC as (q2 & Lq2 & Ej & HC).
      assert (HLj : located cs j n c q2) by (exists pre, post; auto).
      destruct (Scat _ k _ _ _ HLj Lk) as [Z|(q' & HLk & Lq' & Ek)]; [now left|]. rewrite Ek.
      destruct (R2 q q2 q' Lq Lq2 Lq' HC) as [Z|[E1 E2]]; [now left|]. right. rewrite !(spread_located _ _ HL), !(spread_located _ _ HLk).
      split; [exact E1|]. unfold off. rewrite E1. lia.
  - intros m Lm. destruct (Hside Lm) as (n & c & k & I & Lk & -> & Es). pose proof (loc_located Hnd Hok I Lk) as HL.
    destruct (HF n c I) as (LD & PN & R1 & R2 & R3). rewrite (spread_located _ _ HL). rewrite (Es _ _ PN). destruct (R3 k Lk) as [E1 E2]. split; [exact E1|].
    intros p Lp. destruct (Scat _ p _ _ _ HL Lp) as [Z|(q' & HLp & Lq' & E)]; [now left|]. rewrite E, (spread_located _ _ HLp). now apply E2.
Qed.
End Parts.

(** * Networks of components *)
Definition pass (N : nat) (b : net) (w B : nat) : Prop := exists r dir, ranked b w B (fun k => k <? N) r dir.

Lemma ranked_more b w B B' side r dir : ranked b w B side r dir -> B <= B' -> ranked b w B' side r dir.
Proof. intros (H1 & H2) L. split; [|exact H2]. intros i Li. specialize (H1 i Li). lia. Qed.

Section Flat.
Variables (mods : comps) (ts : list tconn) (w D : nat) (R : string -> nat -> Prop).
Hypothesis Hleaf : forall n c, In (n, c) mods -> leaf_ok (b_np c) c /\ two_way c w.
Hypothesis HR : forall n c, In (n, c) mods -> exists d, d <= D /\ R n d.
Hypothesis Hdir : forall n1 k1 n2 k2 d1 d2, In (TW n1 k1 n2 k2) ts -> R n1 d1 -> R n2 d2 ->
  if inward k1 then inward k2 = false /\ d2 < d1 else inward k2 = true /\ d1 < d2.
Variables (N : nat) (b : net).
Hypothesis Hside : forall n k j, In (TE n k j) ts -> inward k = (j <? N).
Hypothesis Hb : built x0 d0 mods ts (2 * N) b.

Lemma flat_pass : pass N b w D.
Proof.
  destruct Hb as (cs & H). set (P := fun n d s => R n d /\ s = inward).
  assert (Hin : forall n c, In (n, c) cs <-> In (n, c) mods) by apply (fo_mods H).
  destruct (@parts_ranked cs (map tstr ts) b w 0 D (fo_nodup H) (fo_buf H)) with (P := P) (side := fun k => k <? N) as (r & dir & HH).
  - intros n c I. apply Hin in I. exact (leaf_part (proj1 (Hleaf I))).
  - apply (fo_part H).
  - intros n c I. apply Hin in I. destruct (HR I) as (d & L & Rd). destruct (Hleaf I) as [HL HT].
    exists d, inward, (fun _ => 0), inward. split; [exact L|]. split; [split; auto|]. eapply leaf_ranked; eassumption.
  - intros n c k I Lk. apply Hin in I. destruct (fo_cover H I Lk) as (t & It & Et). destruct t as [n1 q1 n2 q2|n1 q1 j].
    + right. destruct (fo_wire H It) as [W1 W2].
      destruct (fo_ends H It (or_introl eq_refl)) as (c1 & I1 & L1), (fo_ends H It (or_intror (or_introl eq_refl))) as (c2 & I2 & L2).
      destruct Et as [[= <- <-]|[[= <- <-]|[]]].
      * exists n2, c2, q2. split; [now apply Hin|]. split; [exact L2|]. split; [exact W1|]. intros d s d2 s2 [A1 ->] [A2 ->].
        pose proof (Hdir It A1 A2) as HD. destruct (inward q1), HD as [-> HD]; auto.
      * exists n1, c1, q1. split; [now apply Hin|]. split; [exact L1|]. split; [exact W2|]. intros d s d2 s2 [A1 ->] [A2 ->].
        pose proof (Hdir It A2 A1) as HD. destruct (inward q1), HD as [-> HD]; auto.
    + left. destruct Et as [[= <- <-]|[]]. eapply nth_error_In. exact (fo_port H It).
  - intros m Lm. rewrite (fo_fd H) in Lm. destruct (fo_nums H Lm) as (n & k & It). destruct (fo_ends H It (or_introl eq_refl)) as (c & I & Lk).
    exists n, c, k. split; [now apply Hin|]. split; [exact Lk|]. split; [exact (nth_error_nth _ _ _ (fo_port H It))|].
    intros d s [_ ->]. symmetry. exact (Hside It).
  - exists r, dir. eapply ranked_more; [exact HH|lia].
Qed.
End Flat.

(** * Layers *)
Section Layers.
Variables (wg mzi : nat -> net) (w : nat).
Hypothesis Hwg : forall i, leaf_ok 2 (wg i).
Hypothesis Hmzi : forall i, leaf_ok 4 (mzi i).
Hypothesis Twg : forall i, two_way (wg i) w.
Hypothesis Tmzi : forall i, two_way (mzi i) w.
Let wg_fine i : leaf_ok (b_np (wg i)) (wg i) /\ two_way (wg i) w.
Proof. split; [rewrite (lo_np (Hwg i)); apply Hwg|apply Twg]. Qed.
Let mzi_fine i : leaf_ok (b_np (mzi i)) (mzi i) /\ two_way (mzi i) w.
Proof. split; [rewrite (lo_np (Hmzi i)); apply Hmzi|apply Tmzi]. Qed.

Lemma phase_pass N b : built x0 d0 (phase_mods wg N) (t_phase N) (2 * N) b -> pass N b w 0.
Proof.
  intros Hb. set (R := fun (_ : string) d => d = 0).
  refine (@flat_pass _ _ w 0 R _ _ _ N b _ Hb).
  - intros n c Hin. apply many_In in Hin. destruct Hin as (i & _ & _ & ->). apply wg_fine.
  - intros; exists 0; unfold R; auto.
  - intros n1 q1 n2 q2 e1 e2 Ht R1 R2. unfold t_phase in Ht. tout Ht.
  - intros n k j Ht. unfold t_phase in Ht. tout Ht; symmetry; [apply Nat.ltb_lt|apply Nat.ltb_ge]; lia.
Qed.

Lemma mixc_pass N b : built x0 d0 (mixc_mods wg mzi N) (t_mixc N) (2 * N) b -> pass N b w 1.
Proof.
  intros Hb. set (R := fun n d => (exists i, n = nwg i /\ d = 1) \/ (exists i, n = nmzi i /\ d = 0) \/ (n = "wg_" /\ d = 0)).
  assert (HI : forall n c, In (n, c) (mixc_mods wg mzi N) -> (leaf_ok (b_np c) c /\ two_way c w) /\ exists d, d <= 1 /\ R n d).
  { intros n c Hin. apply in_app_or in Hin. destruct Hin as [Hin|Hin]; [|apply in_app_or in Hin; destruct Hin as [Hin|Hin]].
    - apply many_In in Hin. destruct Hin as (i & _ & -> & ->). split; [apply wg_fine|]. exists 1. unfold R. eauto 6.
    - apply many_In in Hin. destruct Hin as (i & _ & -> & ->). split; [apply mzi_fine|]. exists 0. unfold R. eauto 8.
    - destruct (odd_n N); [|destruct Hin]. destruct Hin as [[= <- <-]|[]]. split; [apply wg_fine|]. exists 0. unfold R. auto. }
  refine (@flat_pass _ _ w 1 R (fun n c I => proj1 (HI n c I)) (fun n c I => proj2 (HI n c I)) _ N b _ Hb).
  - intros n1 q1 n2 q2 e1 e2 Ht R1 R2. unfold t_mixc in Ht. unfold R in *; tout Ht; nam; subst; cbn; auto.
  - intros n k j Ht. destruct (parity N) as (h & r & EN & Hr & Eh & _ & Er). unfold t_mixc in Ht. rewrite Eh, Er in Ht. tout Ht; symmetry; first [apply Nat.ltb_lt; cbn in *; lia | apply Nat.ltb_ge; lia].
Qed.

Lemma cap2_pass N b : 2 <= N -> built x0 d0 (cap2_mods wg mzi N) (t_cap2 N) (2 * N) b -> pass N b w 3.
Proof.
  intros HN Hb. destruct (parity N) as (h & r & EN & Hr & Eh & _ & Er).
  set (R := fun n d => (exists i p q, n = nmzi i /\ i = 2 * p + q /\ q < 2 /\ d = 1 + q) \/ (n = nwg 0 /\ d = 3) \/ (n = nwg 1 /\ d = if odd_n N then 0 else 3)).
  assert (HI : forall n c, In (n, c) (cap2_mods wg mzi N) -> (leaf_ok (b_np c) c /\ two_way c w) /\ exists d, d <= 3 /\ R n d).
  { intros n c Hin. apply in_app_or in Hin. destruct Hin as [Hin|Hin].
    - apply many_In in Hin. destruct Hin as (i & _ & -> & ->). split; [apply mzi_fine|].
      destruct (parity i) as (p & q & Ei & Hq & _). exists (1 + q). split; [lia|]. left. eauto 8.
    - apply in_wgs in Hin. destruct Hin as [[->| ->] ->]; (split; [apply wg_fine|]).
      + exists 3. split; [lia|]. right. left. auto.
      + exists (if odd_n N then 0 else 3). split; [destruct (odd_n N); lia|]. right. right. auto. }
  refine (@flat_pass _ _ w 3 R (fun n c I => proj1 (HI n c I)) (fun n c I => proj2 (HI n c I)) _ N b _ Hb).
  - intros n1 q1 n2 q2 e1 e2 Ht R1 R2. unfold t_cap2 in Ht. unfold R in *. rewrite Er in *. destruct r as [|[|r]]; [| |lia]; cbn [Nat.eqb] in *; rewrite ?andb_false_r, ?andb_true_r in Ht;
    tout Ht; cbn [inward Nat.eqb orb]; (split; [reflexivity|]); nam; subst; try discriminate; try lia.
  - intros n k j Ht. unfold t_cap2 in Ht. tout Ht; symmetry; first [apply Nat.ltb_lt; cbn in *; lia | apply Nat.ltb_ge; lia].
Qed.

Lemma reck1_pass N b : 2 <= N -> built x0 d0 (reck1_mods wg mzi N) (t_reck1 N) (2 * N) b -> pass N b w N.
Proof.
  intros HN Hb. set (R := fun n d => (exists i, n = nmzi i /\ i < N - 1 /\ d = N - i) \/ (n = "wg" /\ d = 0)).
  assert (HI : forall n c, In (n, c) (reck1_mods wg mzi N) -> (leaf_ok (b_np c) c /\ two_way c w) /\ exists d, d <= N /\ R n d).
  { intros n c Hin. apply in_app_or in Hin. destruct Hin as [Hin|Hin].
    - apply many_In in Hin. destruct Hin as (i & Hi & -> & ->). split; [apply mzi_fine|]. exists (N - i). split; [lia|]. left. eauto.
    - destruct Hin as [[= <- <-]|[]]. split; [apply wg_fine|]. exists 0. split; [lia|]. right. auto. }
  refine (@flat_pass _ _ w N R (fun n c I => proj1 (HI n c I)) (fun n c I => proj2 (HI n c I)) _ N b _ Hb).
  - intros n1 q1 n2 q2 e1 e2 Ht R1 R2. unfold t_reck1 in Ht. unfold R in *.
    tout Ht; cbn [inward Nat.eqb orb]; (split; [reflexivity|]); nam; subst; try discriminate; try lia.
  - intros n k j Ht. unfold t_reck1 in Ht. tout Ht; symmetry; first [apply Nat.ltb_lt; cbn in *; lia | apply Nat.ltb_ge; lia].
Qed.
End Layers.

(** * Chains and cascades of layers *)
Lemma wired_In mods ts un (b : net) n k : wired_of x0 d0 mods ts un b -> In (n, k) un -> In (loc mods (n, k)) (free_ports b).
Proof. intros H I. rewrite (wo_free H). now apply in_map. Qed.

Section Chain.
Variables (N w n B : nat) (L : nat -> net) (b : net).
Hypothesis HS : forall i, i <= n -> pass N (L i) w B.
Hypothesis HF : forall i, i <= n -> fd (L i) = 2 * N.
Hypothesis H : wired_of x0 d0 (many "layer" (S n) L) (t_chain N n) (chain_un N n) b.

Lemma chain_pass : pass N b w (n * S B + B).
Proof.
  set (P := fun m d s => exists i, m = nlay i /\ d = i /\ s = fun k => k <? N).
  assert (PI : forall i d s, P (nlay i) d s -> d = i /\ s = fun k => k <? N).
  { intros i d s (i' & E & -> & ->). apply name_inj in E. auto. }
  destruct (@parts_ranked (many "layer" (S n) L) (map tstr (t_chain N n)) b w B n (wo_nodup H) (wo_buf H) (wo_parts H) (wo_part H)) with (P := P) (side := fun k => k <? N) as (r & dir & HH).
  - intros m c I. apply many_In in I. destruct I as (i & Li & -> & ->). destruct (@HS i ltac:(lia)) as (r & dir & Hr).
    exists i, (fun k => k <? N), r, dir. split; [lia|]. split; [exists i; auto|exact Hr].
  - intros m c k I Lk. destruct (wo_cover H I Lk) as [Iu|(t & It & Et)]; [left; now apply (wired_In H)|]. right.
    unfold t_chain in It. apply in_flat_map in It. destruct It as (i & Ii & It). apply in_seq in Ii. apply in_map_iff in It. destruct It as (j & <- & Ij). apply in_seq in Ij.
    assert (It : In (TW (nlay i) (N + j) (nlay (i + 1)) j) (t_chain N n)).
    { unfold t_chain. apply in_flat_map. exists i. split; [apply in_seq; lia|]. apply in_map_iff. exists j. split; [reflexivity|apply in_seq; lia]. }
    destruct (wo_wire H It) as [W1 W2]. destruct Et as [[= <- <-]|[[= <- <-]|[]]].
    + exists (nlay (i + 1)), (L (i + 1)), j. split; [apply in_many; lia|]. split; [rewrite HF by lia; lia|]. split; [exact W1|].
      intros d s d2 s2 A1 A2. apply PI in A1, A2. destruct A1 as [-> ->], A2 as [-> ->].
      rewrite (proj2 (Nat.ltb_lt j N)), (proj2 (Nat.ltb_ge (N + j) N)) by lia. split; [reflexivity|lia].
    + exists (nlay i), (L i), (N + j). split; [apply in_many; lia|]. split; [rewrite HF by lia; lia|]. split; [exact W2|].
      intros d s d2 s2 A1 A2. apply PI in A1, A2. destruct A1 as [-> ->], A2 as [-> ->].
      rewrite (proj2 (Nat.ltb_lt j N)), (proj2 (Nat.ltb_ge (N + j) N)) by lia. split; [reflexivity|lia].
  - intros m Lm. pose proof (wired_fd H) as Ef. unfold chain_un in Ef. rewrite app_length, !map_length, !seq_length in Ef.
    assert (E : exists i k, nth_error (chain_un N n) m = Some (nlay i, k) /\ i <= n /\ k < 2 * N /\ (m <? N) = (k <? N)).
    { destruct (Nat.lt_ge_cases m N) as [L1|L1].
      - exists 0, m. split; [now apply chain_un_first|]. repeat split; lia.
      - exists n, (N + (m - N)). split; [replace m with (N + (m - N)) at 1 by lia; apply chain_un_last; lia|].
        rewrite (proj2 (Nat.ltb_ge m N)), (proj2 (Nat.ltb_ge (N + (m - N)) N)) by lia. repeat split; lia. }
    destruct E as (i & k & E & Li & Lk & Es). exists (nlay i), (L i), k. split; [apply in_many; lia|]. split; [rewrite HF by lia; exact Lk|].
    split; [rewrite (wo_free H); apply nth_error_nth; now apply map_nth_error|]. intros d s A1. apply PI in A1. destruct A1 as [_ ->]. exact Es.
  - exists r, dir. exact HH.
Qed.
End Chain.

Section Cascade.
Variables (N w B : nat) (L : nat -> net) (wgn b : net).
Hypothesis HN : 2 <= N.
Hypothesis Hg : leaf_ok 2 wgn.
Hypothesis Tg : two_way wgn w.
Hypothesis HS : forall i, i < N - 1 -> pass (N - i) (L i) w B.
Hypothesis HF : forall i, i < N - 1 -> fd (L i) = 2 * (N - i).
Hypothesis H : wired_of x0 d0 (reck_mods N L wgn) (t_reck N) (reck_un N) b.

Lemma reck_pass : pass N b w ((N - 1) * S B + B).
Proof.
  set (P := fun m d s => (exists i, m = nlay i /\ d = i /\ s = fun k => k <? N - i) \/ (m = "wg" /\ d = N - 1 /\ s = inward)).
  assert (PI : forall i d s, P (nlay i) d s -> d = i /\ s = fun k => k <? N - i).
  { intros i d s [(i' & E & -> & ->)|(E & _)]; [|discriminate E]. apply name_inj in E. subst. auto. }
  assert (PW : forall d s, P "wg" d s -> d = N - 1 /\ s = inward).
  { intros d s [(i' & E & _)|(_ & H1)]; [discriminate E|exact H1]. }
  assert (InL : forall i, i < N - 1 -> In (nlay i, L i) (reck_mods N L wgn)) by (intros i Li; unfold reck_mods; apply in_or_app; left; apply in_many; lia).
  assert (InW : In ("wg", wgn) (reck_mods N L wgn)) by (unfold reck_mods; apply in_or_app; right; now left).
  destruct (@parts_ranked (reck_mods N L wgn) (map tstr (t_reck N)) b w B (N - 1) (wo_nodup H) (wo_buf H) (wo_parts H) (wo_part H)) with (P := P) (side := fun k => k <? N) as (r & dir & HH).
  - intros m c I. unfold reck_mods in I. apply in_app_or in I. destruct I as [I|[[= <- <-]|[]]].
    + apply many_In in I. destruct I as (i & Li & -> & ->). destruct (@HS i Li) as (r & dir & Hr).
      exists i, (fun k => k <? N - i), r, dir. split; [lia|]. split; [left; exists i; auto|exact Hr].
    + exists (N - 1), inward, (fun _ => 0), inward. split; [lia|]. split; [right; auto|]. apply ranked_more with (B := 0); [|lia]. eapply leaf_ranked; eassumption.
  - intros m c k I Lk. destruct (wo_cover H I Lk) as [Iu|(t & It & Et)]; [left; now apply (wired_In H)|]. right.
    pose proof It as It'. unfold t_reck in It'. apply in_app_or in It'. destruct It' as [It'|[E|[]]].
    + apply in_flat_map in It'. destruct It' as (i & Ii & It'). apply in_seq in Ii. apply in_map_iff in It'. destruct It' as (j & <- & Ij). apply in_seq in Ij.
      destruct (wo_wire H It) as [W1 W2]. destruct Et as [[= <- <-]|[[= <- <-]|[]]].
      * exists (nlay i), (L i), j. split; [apply InL; lia|]. split; [rewrite HF by lia; lia|]. split; [exact W1|].
        intros d s d2 s2 A1 A2. apply PI in A1, A2. destruct A1 as [-> ->], A2 as [-> ->].
        rewrite (proj2 (Nat.ltb_lt j (N - i))), (proj2 (Nat.ltb_ge (N - i + 2 + j) (N - (i - 1)))) by lia. split; [reflexivity|lia].
      * exists (nlay (i - 1)), (L (i - 1)), (N - i + 2 + j). split; [apply InL; lia|]. split; [rewrite HF by lia; lia|]. split; [exact W2|].
        intros d s d2 s2 A1 A2. apply PI in A1, A2. destruct A1 as [-> ->], A2 as [-> ->].
        rewrite (proj2 (Nat.ltb_lt j (N - i))), (proj2 (Nat.ltb_ge (N - i + 2 + j) (N - (i - 1)))) by lia. split; [reflexivity|lia].
    + subst t. destruct (wo_wire H It) as [W1 W2]. destruct Et as [[= <- <-]|[[= <- <-]|[]]].
      * exists "wg", wgn, 0. split; [exact InW|]. split; [rewrite (leaf_fd Hg); lia|]. split; [exact W1|].
        intros d s d2 s2 A1 A2. apply PI in A1. apply PW in A2. destruct A1 as [-> ->], A2 as [-> ->].
        rewrite (proj2 (Nat.ltb_ge 3 (N - (N - 2)))) by lia. split; [reflexivity|lia].
      * exists (nlay (N - 2)), (L (N - 2)), 3. split; [apply InL; lia|]. split; [rewrite HF by lia; lia|]. split; [exact W2|].
        intros d s d2 s2 A1 A2. apply PI in A2. apply PW in A1. destruct A1 as [-> ->], A2 as [-> ->].
        rewrite (proj2 (Nat.ltb_ge 3 (N - (N - 2)))) by lia. split; [reflexivity|cbn; lia].
  - intros m Lm. pose proof (wired_fd H) as Ef. unfold reck_un in Ef. rewrite !app_length, !map_length, !seq_length in Ef. cbn [length] in Ef.
    assert (EN : forall x, nth_error (reck_un N) m = Some x -> nth m (free_ports b) 0 = loc (reck_mods N L wgn) x).
    { intros x E. rewrite (wo_free H). apply nth_error_nth. now apply map_nth_error. }
    destruct (Nat.lt_ge_cases m N) as [L1|L1]; [|destruct (Nat.eq_dec m (N + (N - 1))) as [E|Hne]].
    + exists (nlay 0), (L 0), m. split; [apply InL; lia|]. split; [rewrite HF by lia; lia|]. split; [apply EN, (reck_un_in HN), L1|].
      intros d s A1. apply PI in A1. destruct A1 as [_ ->]. now rewrite Nat.sub_0_r.
    + exists "wg", wgn, 1. split; [exact InW|]. split; [rewrite (leaf_fd Hg); lia|]. split; [apply EN; rewrite E; exact (reck_un_end HN)|].
      intros d s A1. apply PW in A1. destruct A1 as [_ ->]. rewrite (proj2 (Nat.ltb_ge m N)) by lia. reflexivity.
    + exists (nlay (m - N)), (L (m - N)), (N - (m - N)). split; [apply InL; lia|]. split; [rewrite HF by lia; lia|].
      split; [apply EN; replace m with (N + (m - N)) at 1 by lia; apply (reck_un_out HN); lia|].
      intros d s A1. apply PI in A1. destruct A1 as [_ ->]. rewrite (proj2 (Nat.ltb_ge m N)), (proj2 (Nat.ltb_ge (N - (m - N)) (N - (m - N)))) by lia. reflexivity.
  - exists r, dir. exact HH.
Qed.
End Cascade.

(** * Meshes *)
Section Mesh.
Variables (wg mzi : nat -> nat -> net) (w : nat).
Hypothesis Hwg : forall l i, leaf_ok 2 (wg l i).
Hypothesis Hmzi : forall l i, leaf_ok 4 (mzi l i).
Hypothesis Twg : forall l i, two_way (wg l i) w.
Hypothesis Tmzi : forall l i, two_way (mzi l i) w.

Lemma pass_more N b B B' : pass N b w B -> B <= B' -> pass N b w B'.
Proof. intros (r & dir & H) L. exists r, dir. eapply ranked_more; eassumption. Qed.

Theorem clements_pass N c b : 2 <= N -> 2 <= c -> clements x0 d0 N c wg mzi = Ok b -> pass N b w (4 * (c / 2) + 3).
Proof.
  intros HN Hc Hb. destruct (clements_builds x0 d0 Hwg Hmzi HN Hc) as (b' & L & Hb' & HL & Hl & Hw).
  rewrite Hb in Hb'. injection Hb' as <-. set (n := c / 2) in *.
  assert (HA : forall i, i <= n -> pass N (L i) w 3 /\ fd (L i) = 2 * N).
  { intros i Hi. destruct (Nat.eq_dec i n) as [->|Hne].
    - unfold clements_last in Hl. fold n in Hl. destruct (odd_n c).
      + split; [|apply (built_part Hl)]. eapply pass_more; [exact (mixc_pass (Hwg n) (Hmzi n) (@Twg n) (@Tmzi n) Hl)|lia].
      + split; [|apply (built_part Hl)]. eapply pass_more; [exact (phase_pass (Hwg n) (Hmzi n) (@Twg n) (@Tmzi n) Hl)|lia].
    - specialize (HL i ltac:(lia)). split; [exact (cap2_pass (Hwg i) (Hmzi i) (@Twg i) (@Tmzi i) HN HL)|apply (built_part HL)]. }
  eapply pass_more; [apply (@chain_pass N w n 3 L b); [apply HA|apply HA|exact Hw]|]. lia.
Qed.
Theorem reck_passes N b : 2 <= N -> reck x0 d0 N wg mzi = Ok b -> pass N b w (N * N + N - 1).
Proof.
  intros HN Hb. destruct (reck_builds x0 d0 Hwg Hmzi HN) as (b' & L & Hb' & HL & Hw). rewrite Hb in Hb'. injection Hb' as <-.
  eapply pass_more; [apply (@reck_pass N w N L (wg (N - 1) 0) b HN (Hwg (N - 1) 0) (@Twg (N - 1) 0)); [| |exact Hw]|].
  - intros i Hi. eapply pass_more; [apply (reck1_pass (Hwg i) (Hmzi i) (@Twg i) (@Tmzi i)); [|now apply HL]; lia|lia].
  - intros i Hi. apply (built_part (HL i Hi)).
  - destruct N as [|n]; [lia|]. replace (S n - 1) with n by lia. cbn [Nat.mul]. lia.
Qed.
End Mesh.

(** * Closed networks *)
Section Closed.
Variables (name : string) (N : nat) (b s d b' : net).
Hypothesis Hn : good_name name.
Hypothesis Hns : forall i, name <> ("s" ++ di i)%string.
Hypothesis Hnd : forall i, name <> ("d" ++ di i)%string.
Hypothesis Hs : one_port s.
Hypothesis Hd : one_port d.
Hypothesis Fs : flagged true false s.
Hypothesis Fd : flagged false true d.
Hypothesis HN : 1 <= N.
Hypothesis Hp : part_ok b.
Hypothesis Hsil : silent b.
Hypothesis Hf : fd b = 2 * N.
Hypothesis Hb' : mesh_close x0 d0 name N s d b = Ok b'.
Variable w : nat.
Hypothesis Ss : b_S s 0 0 w = c0.
Hypothesis Sd : b_S d 0 0 w = c0.

Lemma closed_dark : ends_dark k0 b' w.
Proof.
  intros i j Li Lj F. destruct (port_cases 0 Hn Hns Hnd Hs Hd Fs Fd HN Hp Hsil Hf Hb' Lj) as [(q & Hq & ->)|(q & Hq & ->)].
  - exact (proj2 (tp_dark Hn Hns Hnd Hs Hd Fs Fd Ss Sd HN Hp Hsil Hf Hb' i Hq)).
  - destruct (np_flags 0 Hn Hns Hnd Hs Hd Fs Fd HN Hp Hsil Hf Hb' Hq) as (E1 & E2 & E3). rewrite E1, E2, E3 in F. discriminate F.
Qed.

Lemma closed_ff B : pass N b w B -> feed_forward k0 b' w (S B).
Proof.
  intros (r & dir & R1 & R2 & _).
  destruct (mesh_facts 0 Hn Hns Hnd Hs Hd Fs Fd HN Hp Hsil Hf Hb') as (En & OP & _ & _ & HC & HT & cs & conns & ND & Hb & HLn & _ & _ & post & Ecs).
  assert (TD : forall i j, i < 2 * N -> b_S b' (tport b i) j w = c0 /\ b_S b' j (tport b i) w = c0)
    by (intros i0 j0 Hi0; exact (tp_dark Hn Hns Hnd Hs Hd Fs Fd Ss Sd HN Hp Hsil Hf Hb' j0 Hi0)).
  pose proof (port_cases 0 Hn Hns Hnd Hs Hd Fs Fd HN Hp Hsil Hf Hb') as PC.
  assert (SN : forall q q', q < b_np b -> q' < b_np b -> b_S b' (nport q) (nport q') w = b_S b q q' w).
  { intros q q' Lq Lq'. assert (Eloc : ports_before [(("s" ++ di 0)%string, s)] = 1) by (rewrite ports_before_cons, (op_np Hs); reflexivity).
    destruct (S_block Hb (nport q') w Ecs Lq) as [E _]. rewrite Eloc in E. cbn [Nat.add] in E. unfold nport in *. rewrite E. cbn [Nat.leb Nat.sub].
    rewrite (proj2 (Nat.ltb_lt (S q') (S (b_np b)))) by lia. cbn. f_equal. lia. }
  exists (fun p => if (0 <? p) && (p <=? b_np b) then r (p - 1) else S B).
  assert (RN : forall q, q < b_np b -> (if (0 <? nport q) && (nport q <=? b_np b) then r (nport q - 1) else S B) = r q).
  { intros q Lq. unfold nport. rewrite (proj2 (Nat.leb_le (S q) (b_np b))) by lia. cbn. now rewrite Nat.sub_0_r. }
  assert (RT : forall i, i < 2 * N -> (if (0 <? tport b i) && (tport b i <=? b_np b) then r (tport b i - 1) else S B) = S B).
  { intros i Li. destruct i as [|i]; cbn [tport]; [reflexivity|]. rewrite (proj2 (Nat.leb_gt (S (b_np b + i)) (b_np b))) by lia. now rewrite andb_false_r. }
  split.
  - intros i Li. destruct (PC i Li) as [(q & Hq & ->)|(q & Hq & ->)]; [rewrite RT by exact Hq; lia|]. rewrite RN by exact Hq. specialize (R1 q Hq). lia.
  - intros i j k Li Lj Lk Hc. destruct (PC j Lj) as [(q & Hq & ->)|(q & Hq & ->)]; [left; now apply TD|].
    destruct (PC k Lk) as [(q' & Hq' & ->)|(q' & Hq' & ->)]; [left; now apply TD|]. rewrite SN, RN by assumption.
    destruct (PC i Li) as [(m & Hm & ->)|(m & Hm & ->)].
    + right. rewrite RT by exact Hm. specialize (R1 q' Hq'). lia.
    + rewrite RN by exact Hm. rewrite HC in Hc by assumption. destruct (R2 m q q' Hm Hq Hq' Hc) as [E|[_ E]]; [now left|now right].
Qed.
End Closed.
End R.
