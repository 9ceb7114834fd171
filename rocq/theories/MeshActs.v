(** What the layers of Clements and Reck meshes do to light entering their inputs. *)
From Coq Require Import Ring QArith Permutation.
From Verif Require Import Base PyStr NetModel NetSpec NetProofs WireProofs OrderProofs TypedNet TermProofs NetBuild SimModel SimAlg SimSpec CircuitSpec CircuitProofs UniSpec UniProofs MeshModel MeshNet MeshBuild MeshLayers MeshChain MeshTop MeshFlow.
Set Implicit Arguments.
Unset Strict Implicit.
Local Open Scope string_scope.
Local Open Scope list_scope.
Local Open Scope nat_scope.

Section F.
Variables (K : Type) (k0 k1 : K) (kadd kmul ksub : K -> K -> K) (kopp : K -> K).
Hypothesis KR : ring_theory k0 k1 kadd kmul ksub kopp (@eq K).
Notation cx := (prod K K).
Notation c0 := (c0 k0).
Notation c1 := (c1 k0 k1).
Notation cadd := (cadd kadd).
Notation cmul := (cmul kadd kmul ksub).
Notation csum := (lsum c0 cadd).
Notation bar := (cbar kopp).
Notation vec := (nat -> cx).
Notation net := (net K).
Notation comps := (list (string * net)).
Notation x0 := (fun _ : nat => c0).
Notation d0 := 0%Q.
Notation uni := (uni k0 kadd kmul ksub kopp).
Notation pairs := (pairs kadd kmul ksub).
Notation pair_ok := (pair_ok k0 k1 kadd kmul ksub kopp).
Notation unitary := (unitary k0 k1 kadd kmul ksub kopp).
Notation rel := (rel k0 kadd kmul ksub).
Notation acts := (acts k0 kadd kmul ksub).
Notation mixes := (mixes k0 k1 kadd kmul ksub kopp).
Notation guides := (guides k0 k1 kadd kmul ksub kopp).
Let CR := CR KR.
Add Ring Cring : CR.

(** * Columns of mixers on neighbouring lines, starting at line [s] *)
Definition col_s (s N k : nat) : nat :=
  if k <? s then k else if Nat.even (k - s) then (if k + 1 <? N then k + 1 else k) else k - 1.
Definition col_al (s N : nat) (U : nat -> nat -> nat -> cx) (ph : nat -> cx) (k : nat) : cx :=
  if k <? s then ph k else if Nat.even (k - s) then (if k + 1 <? N then U k 0 0 else ph k) else U (k - 1) 1 1.
Definition col_be (s : nat) (U : nat -> nat -> nat -> cx) (k : nat) : cx :=
  if Nat.even (k - s) then U k 0 1 else U (k - 1) 1 0.
Definition column (s N : nat) U ph : vec -> vec := pairs (col_s s N) (col_al s N U ph) (col_be s U).

Lemma even2 h : Nat.even (2 * h) = true. Proof. apply Nat.even_spec. now exists h. Qed.
Lemma odd2 h : Nat.even (2 * h + 1) = false.
Proof. rewrite <- Nat.negb_odd. replace (Nat.odd (2 * h + 1)) with true; [reflexivity|]. symmetry. apply Nat.odd_spec. now exists h. Qed.

(** The kinds of lines. *)
Lemma lines s N k : k < N -> k < s \/ (exists h, k = s + 2 * h /\ k + 1 < N) \/ (exists h, k = s + 2 * h /\ k + 1 = N) \/ (exists h, k = s + (2 * h + 1)).
Proof.
  intros L. destruct (Nat.lt_ge_cases k s) as [H|H]; [now left|]. right. destruct (parity (k - s)) as (h & r & E & Hr & _).
  destruct r as [|[|r]]; [|right; right; exists h; lia|lia].
  destruct (Nat.eq_dec (k + 1) N); [right; left|left]; exists h; lia.
Qed.

Ltac colu := unfold column, UniProofs.pairs, UniProofs.pairs', col_s, col_al, col_be;
  repeat match goal with
  | |- context [?a + ?b - ?a] => replace (a + b - a) with b by lia
  end; rewrite ?even2, ?odd2;
  repeat match goal with
  | |- context [?a <? ?b] => first [rewrite (proj2 (Nat.ltb_lt a b)) by lia | rewrite (proj2 (Nat.ltb_ge a b)) by lia]
  | |- context [?a =? ?b] => first [rewrite (proj2 (Nat.eqb_eq a b)) by lia | rewrite (proj2 (Nat.eqb_neq a b)) by lia]
  end.

Section Col.
Variables (s N : nat) (U : nat -> nat -> nat -> cx) (ph : nat -> cx).
Lemma column_low x k : k < s -> column s N U ph x k = cmul (ph k) (x k).
Proof. intros H. colu. reflexivity. Qed.
Lemma column_end x h k : k = s + 2 * h -> k + 1 = N -> column s N U ph x k = cmul (ph k) (x k).
Proof. intros -> H. colu. reflexivity. Qed.
Lemma column_even x h k : k = s + 2 * h -> k + 1 < N -> column s N U ph x k = cadd (cmul (U k 0 0) (x k)) (cmul (U k 0 1) (x (k + 1))).
Proof. intros -> H. colu. reflexivity. Qed.
Lemma column_odd x h k : k = s + 2 * h -> column s N U ph x (k + 1) = cadd (cmul (U k 1 0) (x k)) (cmul (U k 1 1) (x (k + 1))).
Proof.
  intros ->. replace (s + 2 * h + 1) with (s + (2 * h + 1)) by lia. colu.
  replace (s + (2 * h + 1) - 1) with (s + 2 * h) by lia. ring.
Qed.

(** Lines without partner have phases, pairs of lines unitary mixers. *)
Hypothesis HP : forall k, k < N -> cmul (bar (ph k)) (ph k) = c1.
Hypothesis HU : forall h, s + 2 * h + 1 < N -> unitary 2 (U (s + 2 * h)).

Lemma column_pairs : s <= N -> pair_ok N (col_s s N) (col_al s N U ph) (col_be s U).
Proof.
  intros Hs.
  assert (HU' : forall h, s + 2 * h + 1 < N -> forall i j, i < 2 -> j < 2 ->
     cadd (cmul (bar (U (s + 2 * h) 0 i)) (U (s + 2 * h) 0 j)) (cmul (bar (U (s + 2 * h) 1 i)) (U (s + 2 * h) 1 j)) = (if i =? j then c1 else c0) /\
     cadd (cmul (U (s + 2 * h) i 0) (bar (U (s + 2 * h) j 0))) (cmul (U (s + 2 * h) i 1) (bar (U (s + 2 * h) j 1))) = (if i =? j then c1 else c0)).
  { intros h Hh i j Li Lj. destruct (HU Hh Li Lj) as [E1 E2]. cbn [seq] in E1, E2. rewrite !lsum_cons, !lsum_nil in E1, E2. rewrite <- E1 at 1. rewrite <- E2. split; ring. }
  assert (HS : forall k, k < N -> (k < s \/ k + 1 = N) /\ col_s s N k = k
    \/ (exists h, k = s + 2 * h /\ k + 1 < N /\ col_s s N k = k + 1 /\ col_s s N (k + 1) = k)
    \/ (exists h, k = s + 2 * h + 1 /\ col_s s N k = k - 1 /\ col_s s N (k - 1) = k)).
  { intros k L. destruct (lines s L) as [H|[(h & E & H)|[(h & E & H)|(h & E)]]].
    - left. split; [auto|]. colu. reflexivity.
    - right. left. exists h. split; [exact E|]. split; [exact H|]. subst k. split; [colu; reflexivity|].
      replace (s + 2 * h + 1) with (s + (2 * h + 1)) by lia. colu. lia.
    - left. split; [auto|]. subst k. colu. reflexivity.
    - right. right. exists h. split; [lia|]. subst k. split; [colu; reflexivity|].
      replace (s + (2 * h + 1) - 1) with (s + 2 * h) by lia. colu. lia. }
  constructor.
  - intros k L. destruct (HS k L) as [(_ & ->)|[(h & _ & H & -> & _)|(h & _ & -> & _)]]; lia.
  - intros k L. destruct (HS k L) as [(_ & E)|[(h & _ & H & E & E')|(h & _ & E & E')]]; rewrite E; auto.
  - intros k L E. destruct (HS k L) as [(H & _)|[(h & _ & H & E1 & _)|(h & H & E1 & _)]]; [|lia|lia].
    destruct (lines s L) as [Hl|[(h & E1 & H1)|[(h & E1 & H1)|(h & E1)]]].
    + colu. now apply HP.
    + exfalso. destruct H; [lia|]. lia.
    + subst k. colu. now apply HP.
    + exfalso. revert E. subst k. colu. lia.
  - intros k L E. destruct (HS k L) as [(_ & H)|[(h & H & H' & _)|(h & H & _)]]; [contradiction| |]; subst k.
    + colu. apply (HU' h H' 0 0); lia.
    + destruct (HU' h L 1 1) as [_ H]; try lia. cbn [Nat.eqb] in H. rewrite <- H.
      replace (s + 2 * h + 1) with (s + (2 * h + 1)) by lia. colu. replace (s + (2 * h + 1) - 1) with (s + 2 * h) by lia. ring.
  - intros k L E. destruct (HS k L) as [(_ & H)|[(h & H & H' & E1 & _)|(h & H & E1 & _)]]; [contradiction| |]; subst k; rewrite E1.
    + destruct (HU' h H' 0 1) as [_ H]; try lia. cbn [Nat.eqb] in H. rewrite <- H.
      replace (s + 2 * h + 1) with (s + (2 * h + 1)) by lia. colu. replace (s + (2 * h + 1) - 1) with (s + 2 * h) by lia. ring.
    + destruct (HU' h L 1 0) as [_ H]; try lia. cbn [Nat.eqb] in H. rewrite <- H.
      replace (s + 2 * h + 1 - 1) with (s + 2 * h) by lia. replace (s + 2 * h + 1) with (s + (2 * h + 1)) by lia. colu.
      replace (s + (2 * h + 1) - 1) with (s + 2 * h) by lia. ring.
  - intros k L E. destruct (HS k L) as [(_ & H)|[(h & H & H' & E1 & _)|(h & H & E1 & _)]]; [contradiction| |]; subst k; rewrite E1.
    + destruct (HU' h H' 0 0) as [H _]; try lia. cbn [Nat.eqb] in H. rewrite <- H.
      replace (s + 2 * h + 1) with (s + (2 * h + 1)) by lia. colu. replace (s + (2 * h + 1) - 1) with (s + 2 * h) by lia. ring.
    + destruct (HU' h L 1 1) as [H _]; try lia. cbn [Nat.eqb] in H. rewrite <- H.
      replace (s + 2 * h + 1 - 1) with (s + 2 * h) by lia. replace (s + 2 * h + 1) with (s + (2 * h + 1)) by lia. colu.
      replace (s + (2 * h + 1) - 1) with (s + 2 * h) by lia. ring.
  - intros k L E. destruct (HS k L) as [(_ & H)|[(h & H & H' & E1 & _)|(h & H & E1 & _)]]; [contradiction| |]; subst k; rewrite E1.
    + destruct (HU' h H' 0 1) as [H _]; try lia. cbn [Nat.eqb] in H. rewrite <- H.
      replace (s + 2 * h + 1) with (s + (2 * h + 1)) by lia. colu. replace (s + (2 * h + 1) - 1) with (s + 2 * h) by lia. ring.
    + destruct (HU' h L 1 0) as [H _]; try lia. cbn [Nat.eqb] in H. rewrite <- H.
      replace (s + 2 * h + 1 - 1) with (s + 2 * h) by lia. replace (s + 2 * h + 1) with (s + (2 * h + 1)) by lia. colu.
      replace (s + (2 * h + 1) - 1) with (s + 2 * h) by lia. ring.
Qed.
Lemma column_uni : s <= N -> exists M', uni N (column s N U ph) M'.
Proof. intros H. eexists. apply (uni_pairs KR), column_pairs, H. Qed.
End Col.

(** Phases on all lines. *)
Definition phases (ph : nat -> cx) : vec -> vec := fun x k => cmul (ph k) (x k).
Lemma phases_uni N ph : (forall k, k < N -> cmul (bar (ph k)) (ph k) = c1) -> exists M', uni N (phases ph) M'.
Proof.
  intros H. eexists. eapply (uni_ext KR).
  - apply (uni_pairs KR (N := N) (s := fun k => k) (al := ph) (be := ph)). constructor; auto; intros; congruence.
  - intros x k _. unfold phases, UniProofs.pairs. now rewrite Nat.eqb_refl.
Qed.

(** A mixer on the first two lines. *)
Definition mix2_s (k : nat) : nat := if k =? 0 then 1 else if k =? 1 then 0 else k.
Definition mix2 (U : nat -> nat -> cx) : vec -> vec :=
  pairs mix2_s (fun k => if k =? 0 then U 0 0 else if k =? 1 then U 1 1 else c1) (fun k => if k =? 0 then U 0 1 else U 1 0).
Lemma mix2_uni U N : 2 <= N -> unitary 2 U -> exists M', uni N (mix2 U) M'.
Proof.
  intros HN HU. eexists. apply (uni_pairs KR).
  assert (HU' : forall i j, i < 2 -> j < 2 ->
     cadd (cmul (bar (U 0 i)) (U 0 j)) (cmul (bar (U 1 i)) (U 1 j)) = (if i =? j then c1 else c0) /\
     cadd (cmul (U i 0) (bar (U j 0))) (cmul (U i 1) (bar (U j 1))) = (if i =? j then c1 else c0)).
  { intros i j Li Lj. destruct (HU i j Li Lj) as [E1 E2]. cbn [seq] in E1, E2. rewrite !lsum_cons, !lsum_nil in E1, E2. rewrite <- E1 at 1. rewrite <- E2. split; ring. }
  assert (HS : forall k, k = 0 /\ mix2_s k = 1 \/ k = 1 /\ mix2_s k = 0 \/ 2 <= k /\ mix2_s k = k).
  { intros [|[|k]]; [auto|auto|]. right. right. split; [lia|reflexivity]. }
  constructor; intros k L.
  - destruct (HS k) as [(_ & ->)|[(_ & ->)|(_ & ->)]]; lia.
  - destruct (HS k) as [(-> & ->)|[(-> & ->)|(H & E)]]; [reflexivity|reflexivity|]. rewrite !E. reflexivity.
  - intros E. destruct k as [|[|k]]; [discriminate|discriminate|]. cbn [Nat.eqb]. rewrite (bar_1 KR). ring.
  - intros E. destruct k as [|[|k]]; [| |now destruct (E eq_refl)]; cbn [Nat.eqb mix2_s].
    + apply (HU' 0 0); lia.
    + destruct (HU' 1 1) as [_ H]; try lia. cbn [Nat.eqb] in H. rewrite <- H. ring.
  - intros E. destruct k as [|[|k]]; [| |now destruct (E eq_refl)]; cbn [Nat.eqb mix2_s].
    + destruct (HU' 0 1) as [_ H]; try lia. cbn [Nat.eqb] in H. rewrite <- H. ring.
    + destruct (HU' 1 0) as [_ H]; try lia. cbn [Nat.eqb] in H. rewrite <- H. ring.
  - intros E. destruct k as [|[|k]]; [| |now destruct (E eq_refl)]; cbn [Nat.eqb mix2_s].
    + destruct (HU' 0 0) as [H _]; try lia. cbn [Nat.eqb] in H. rewrite <- H. ring.
    + destruct (HU' 1 1) as [H _]; try lia. cbn [Nat.eqb] in H. rewrite <- H. ring.
  - intros E. destruct k as [|[|k]]; [| |now destruct (E eq_refl)]; cbn [Nat.eqb mix2_s].
    + destruct (HU' 0 1) as [H _]; try lia. cbn [Nat.eqb] in H. rewrite <- H. ring.
    + destruct (HU' 1 0) as [H _]; try lia. cbn [Nat.eqb] in H. rewrite <- H. ring.
Qed.

Section Layers.
Variables (wg mzi : nat -> net) (w : nat).
Hypothesis Hwg : forall i, leaf_ok 2 (wg i).
Hypothesis Hmzi : forall i, leaf_ok 4 (mzi i).
Hypothesis Gwg : forall i, guides (wg i) w.
Hypothesis Gmzi : forall i, mixes (mzi i) w.
Notation g := (fun i => gain (wg i) w).
Notation tr := (fun i => transfer (mzi i) w).

Lemma wg_does (mods : comps) ts PA PO n i : at_parts k0 kadd kmul ksub mods ts w PA PO -> In (n, wg i) mods ->
  PO n 1 = cmul (g i) (PA n 0).
Proof. intros (H & _) Hin. apply (guide_rel KR (Hwg i)); [apply Gwg|]. now apply H. Qed.
Lemma mzi_does (mods : comps) ts PA PO n i : at_parts k0 kadd kmul ksub mods ts w PA PO -> In (n, mzi i) mods ->
  PO n 1 = cadd (cmul (tr i 0 0) (PA n 0)) (cmul (tr i 0 1) (PA n 3)) /\
  PO n 2 = cadd (cmul (tr i 1 0) (PA n 0)) (cmul (tr i 1 1) (PA n 3)).
Proof. intros (H & _) Hin. apply (mixer_rel KR (Hmzi i)); [apply Gmzi|]. now apply H. Qed.

Lemma mods_part (mods : comps) : (forall n c, In (n, c) mods -> exists i, c = wg i \/ c = mzi i) -> forall n c, In (n, c) mods -> part_ok c.
Proof. intros H n c Hin. destruct (H n c Hin) as (i & [->| ->]); eapply leaf_part; [apply Hwg|apply Hmzi]. Qed.
Lemma in_many p n (f : nat -> net) i : i < n -> In ((p ++ di i)%string, f i) (many p n f).
Proof. intros H. apply many_In. eauto. Qed.

(** ** _PhaseArray *)
Lemma phase_acts N b : built x0 d0 (phase_mods wg N) (t_phase N) (2 * N) b -> acts N b w (phases g).
Proof.
  intros (cs & H) x y HR k L. destruct (fun Hm => flat_rel KR H Hm HR) as (PA & PO & HP & HE).
  { apply mods_part. intros n c Hin. apply many_In in Hin. destruct Hin as (i & _ & _ & ->). eauto. }
  destruct (HE (nwg k) 0 k) as [E1 _]; [unfold t_phase; tin k 0|].
  destruct (HE (nwg k) 1 (N + k)) as [_ E2]; [unfold t_phase; tin k 0|].
  rewrite E2. unfold phases. rewrite E1. eapply wg_does; [exact HP|]. unfold phase_mods. now apply in_many.
Qed.

(** ** _MixingPhaseArrayClements *)
Lemma mixc_acts N b : built x0 d0 (mixc_mods wg mzi N) (t_mixc N) (2 * N) b ->
  acts N b w (fun x => phases g (column 0 N (fun j => tr (j / 2)) (fun _ => g N) x)).
Proof.
  intros (cs & H) x y HR k L. destruct (fun Hm => flat_rel KR H Hm HR) as (PA & PO & HP & HE).
  { apply mods_part. intros n c Hin. unfold mixc_mods in Hin. apply in_app_or in Hin. destruct Hin as [Hin|Hin]; [|apply in_app_or in Hin; destruct Hin as [Hin|Hin]].
    - apply many_In in Hin. destruct Hin as (i & _ & _ & ->). eauto.
    - apply many_In in Hin. destruct Hin as (i & _ & _ & ->). eauto.
    - destruct (odd_n N); [|destruct Hin]. destruct Hin as [[= _ <-]|[]]. eauto. }
  destruct (parity N) as (h & r & EN & Hr & E2 & _ & Eo).
  assert (Hk : y (N + k) = cmul (g k) (PA (nwg k) 0)).
  { destruct (HE (nwg k) 1 (N + k)) as [_ ->]; [unfold t_mixc; tin k 0|].
    eapply wg_does; [exact HP|]. unfold mixc_mods. apply in_or_app. left. now apply in_many. }
  rewrite Hk. unfold phases. f_equal. pose proof (proj2 HP) as HW.
  assert (HM : forall i, i < h -> PO (nmzi i) 1 = cadd (cmul (tr i 0 0) (x (2 * i))) (cmul (tr i 0 1) (x (2 * i + 1)))
     /\ PO (nmzi i) 2 = cadd (cmul (tr i 1 0) (x (2 * i))) (cmul (tr i 1 1) (x (2 * i + 1)))).
  { intros i Hi. destruct (HE (nmzi i) 0 (2 * i)) as [-> _]; [unfold t_mixc; rewrite E2; tin i 0|].
    destruct (HE (nmzi i) 3 (2 * i + 1)) as [-> _]; [unfold t_mixc; rewrite E2; tin i 0|].
    apply (mzi_does HP). unfold mixc_mods. rewrite E2. apply in_or_app. right. apply in_or_app. left. now apply in_many. }
  destruct (@lines 0 N k L) as [Hl|[(i & E & H1)|[(i & E & H1)|(i & E)]]]; [lia| | |]; cbn [Nat.add] in E.
  - rewrite (@column_even 0 N _ _ x i k E H1). subst k. rewrite Nat.mul_comm, Nat.div_mul, Nat.mul_comm by lia.
    destruct (HW (nmzi i) 1 (nwg (2 * i)) 0) as [_ ->]; [unfold t_mixc; rewrite E2; tin i 0|]. apply HM. lia.
  - rewrite (@column_end 0 N _ _ x i k E H1). subst k.
    assert (r = 1) by lia. subst r. destruct (HW "wg_" 1 (nwg (N - 1)) 0) as [_ H2]; [unfold t_mixc; rewrite Eo; tin i 0|].
    replace (N - 1) with (2 * i) in H2 by lia. rewrite H2.
    destruct (HE "wg_" 0 (N - 1)) as [H3 _]; [unfold t_mixc; rewrite Eo; tin i 0|]. replace (N - 1) with (2 * i) in H3 by lia. rewrite H3.
    eapply wg_does; [exact HP|]. unfold mixc_mods. rewrite Eo. apply in_or_app. right. apply in_or_app. right. now left.
  - subst k. rewrite (@column_odd 0 N _ _ x i (2 * i) eq_refl). rewrite Nat.mul_comm, Nat.div_mul, Nat.mul_comm by lia.
    destruct (HW (nmzi i) 2 (nwg (2 * i + 1)) 0) as [_ ->]; [unfold t_mixc; rewrite E2; tin i 0|]. apply HM. lia.
Qed.

(** ** _Capacity2ClementsNxN *)
Lemma cap2_acts N b : 2 <= N -> built x0 d0 (cap2_mods wg mzi N) (t_cap2 N) (2 * N) b ->
  acts N b w (fun x => column 1 N tr (fun _ => g 0) (column 0 N tr (fun _ => g 0) x)).
Proof.
  intros HN (cs & H) x y HR k L. destruct (fun Hm => flat_rel KR H Hm HR) as (PA & PO & HP & HE).
  { apply mods_part. intros n c Hin. unfold cap2_mods in Hin. apply in_app_or in Hin. destruct Hin as [Hin|Hin].
    - apply many_In in Hin. destruct Hin as (i & _ & _ & ->). eauto.
    - apply in_wgs in Hin. destruct Hin as (_ & ->). eauto. }
  destruct (parity N) as (h & r & EN & Hr & E2 & _ & Eo). pose proof (proj2 HP) as HW.
  set (z := column 0 N tr (fun _ => g 0) x).
  assert (HI : forall i, i < N - 1 -> In (nmzi i, mzi i) (cap2_mods wg mzi N)).
  { intros i Hi. unfold cap2_mods. apply in_or_app. left. now apply in_many. }
  assert (HG : forall n, n = nwg 0 \/ n = nwg 1 -> PO n 1 = cmul (g 0) (PA n 0)).
  { intros n Hn. eapply wg_does; [exact HP|]. unfold cap2_mods. apply in_or_app. right. destruct Hn as [->| ->]; cbn; auto. }
  (* first column *)
  assert (Z0 : forall i, 2 * i + 1 < N -> PO (nmzi (2 * i)) 1 = z (2 * i) /\ PO (nmzi (2 * i)) 2 = z (2 * i + 1)).
  { intros i Hi. unfold z. rewrite (@column_even 0 N _ _ x i (2 * i)) by lia. rewrite (@column_odd 0 N _ _ x i (2 * i)) by lia.
    destruct (HE (nmzi (2 * i)) 0 (2 * i)) as [-> _]; [unfold t_cap2; tin (2 * i) i|].
    destruct (HE (nmzi (2 * i)) 3 (2 * i + 1)) as [-> _]; [unfold t_cap2; tin (2 * i) i|].
    apply (mzi_does HP), HI. lia. }
  assert (Z1 : r = 1 -> PO (nwg 1) 1 = z (N - 1)).
  { intros ->. unfold z. rewrite (@column_end 0 N _ _ x h (N - 1)) by lia. destruct (HE (nwg 1) 0 (N - 1)) as [-> _]; [unfold t_cap2; rewrite Eo; tin 0 0|].
    apply HG. auto. }
  (* inputs of the second column *)
  assert (I0 : forall i, 2 * i + 2 < N -> PA (nmzi (2 * i + 1)) 0 = z (2 * i + 1)).
  { intros i Hi. rewrite <- (proj2 (Z0 i ltac:(lia))). destruct (Nat.eq_dec (2 * i + 3) N) as [Hlast|Hn].
    - destruct (HW (nmzi (N - 1 - 2)) 2 (nmzi (N - 1 - 1)) 0) as [_ H2].
      + unfold t_cap2. rewrite Eo. replace (r =? 1) with true by (symmetry; apply Nat.eqb_eq; lia).
        replace (1 <? N - 1) with true by (symmetry; apply Nat.ltb_lt; lia). cbn [andb]. tin 0 0.
      + replace (N - 1 - 2) with (2 * i) in H2 by lia. replace (N - 1 - 1) with (2 * i + 1) in H2 by lia. exact H2.
    - destruct (HW (nmzi (2 * i + 1 - 1)) 2 (nmzi (2 * i + 1)) 0) as [_ H2]; [unfold t_cap2; tin (2 * i + 1) i|].
      replace (2 * i + 1 - 1) with (2 * i) in H2 by lia. exact H2. }
  assert (I3 : forall i, 2 * i + 2 < N -> PA (nmzi (2 * i + 1)) 3 = z (2 * i + 2)).
  { intros i Hi. destruct (Nat.eq_dec (2 * i + 3) N) as [Hlast|Hn].
    - destruct (HW (nwg 1) 1 (nmzi (N - 2)) 3) as [_ H2].
      + unfold t_cap2. rewrite Eo. replace (r =? 1) with true by (symmetry; apply Nat.eqb_eq; lia). tin 0 0.
      + replace (N - 2) with (2 * i + 1) in H2 by lia. rewrite H2, Z1 by lia. f_equal. lia.
    - destruct (HW (nmzi (2 * i + 1)) 3 (nmzi (2 * i + 1 + 1)) 1) as [H2 _]; [unfold t_cap2; tin (2 * i + 1) i|].
      replace (2 * i + 1 + 1) with (2 * (i + 1)) in H2 by lia. rewrite H2, (proj1 (Z0 (i + 1) ltac:(lia))). f_equal. lia. }
  (* second column *)
  destruct (@lines 1 N k L) as [Hl|[(i & E & H1)|[(i & E & H1)|(i & E)]]].
  - rewrite (@column_low 1 N _ _ z k Hl). replace k with 0 by lia. rewrite Nat.add_0_r.
    destruct (HE (nwg 0) 1 N) as [_ ->]; [unfold t_cap2; tin 0 0|]. rewrite HG by auto. f_equal.
    destruct (HW (nmzi 0) 1 (nwg 0) 0) as [_ ->]; [unfold t_cap2; tin 0 0|]. apply (Z0 0). lia.
  - rewrite (@column_even 1 N _ _ z i k E H1). replace k with (2 * i + 1) in * by lia.
    destruct (HE (nmzi (2 * i + 1)) 1 (N + (2 * i + 1))) as [_ ->]; [unfold t_cap2; tin (2 * i + 1) i|].
    replace (2 * i + 1 + 1) with (2 * i + 2) by lia. rewrite <- I0, <- I3 by lia. apply (mzi_does HP), HI. lia.
  - rewrite (@column_end 1 N _ _ z i k E H1).
    assert (r = 0) by lia. subst r. cbn [Nat.eqb] in Eo. replace (N + k) with (2 * N - 1) by lia.
    destruct (HE (nwg 1) 1 (2 * N - 1)) as [_ ->]; [unfold t_cap2; rewrite Eo; tin 0 0|]. rewrite HG by auto. f_equal.
    destruct (HW (nmzi (N - 2)) 2 (nwg 1) 0) as [_ ->]; [unfold t_cap2; rewrite Eo; tin 0 0|].
    replace (N - 2) with (2 * i) by lia. rewrite (proj2 (Z0 i ltac:(lia))). f_equal. lia.
  - replace k with (2 * i + 1 + 1) in * by lia. rewrite (@column_odd 1 N _ _ z i (2 * i + 1)) by lia.
    replace (N + (2 * i + 1 + 1)) with (N + (2 * i + 1) + 1) by lia.
    destruct (HE (nmzi (2 * i + 1)) 2 (N + (2 * i + 1) + 1)) as [_ ->]; [unfold t_cap2; tin (2 * i + 1) i|].
    replace (2 * i + 1 + 1) with (2 * i + 2) by lia. rewrite <- I0, <- I3 by lia. apply (mzi_does HP), HI. lia.
Qed.

(** ** _ReckNxN: mixers on lines (n-2, n-1), ..., (0, 1), one after the other *)
Fixpoint sweep (i d : nat) : vec -> vec := match d with
  | 0 => phases (fun _ => g 0)
  | S d' => fun x => mix2 (tr i) (lift 1 (sweep (i + 1) d') x)
  end.
Lemma sweep_uni d : forall i, exists M', uni (S d) (sweep i d) M'.
Proof.
  induction d as [|d IH]; intros i; cbn [sweep].
  - apply phases_uni. intros k _. apply Gwg.
  - destruct (IH (i + 1)) as (M1 & H1). destruct (@mix2_uni (tr i) (S (S d))) as (M2 & H2); [lia|apply Gmzi|].
    replace (S d) with (S (S d) - 1) in H1 by lia. apply (uni_lift KR (m := 1)) in H1; [|lia].
    eexists. exact (uni_comp KR H2 H1).
Qed.

Lemma reck1_acts N b : 2 <= N -> built x0 d0 (reck1_mods wg mzi N) (t_reck1 N) (2 * N) b -> acts N b w (sweep 0 (N - 1)).
Proof.
  intros HN (cs & H) x y HR k L. destruct (fun Hm => flat_rel KR H Hm HR) as (PA & PO & HP & HE).
  { apply mods_part. intros n c Hin. unfold reck1_mods in Hin. apply in_app_or in Hin. destruct Hin as [Hin|Hin].
    - apply many_In in Hin. destruct Hin as (i & _ & _ & ->). eauto.
    - destruct Hin as [[= _ <-]|[]]. eauto. }
  pose proof (proj2 HP) as HW.
  assert (HI : forall i, i < N - 1 -> In (nmzi i, mzi i) (reck1_mods wg mzi N)) by (intros i Hi; apply in_or_app; left; now apply in_many).
  set (v := fun i => if i <? N - 1 then PO (nmzi i) 1 else PO "wg" 1).
  assert (HV : forall i, i < N - 1 -> PA (nmzi i) 3 = v (i + 1)).
  { intros i Hi. unfold v. destruct (Nat.ltb_spec (i + 1) (N - 1)).
    - destruct (HW (nmzi i) 3 (nmzi (i + 1)) 1) as [E _]; [unfold t_reck1; tin i 0|exact E].
    - destruct (HW (nmzi (N - 2)) 3 "wg" 1) as [E _]; [unfold t_reck1; tin i 0|]. replace i with (N - 2) by lia. exact E. }
  assert (HX : forall i, i < N - 1 -> PA (nmzi i) 0 = x i).
  { intros i Hi. destruct (HE (nmzi i) 0 i) as [E _]; [unfold t_reck1; tin i 0|]. now symmetry. }
  assert (HS : forall d i z, i + d = N - 1 -> (forall j, j <= d -> z j = x (i + j)) -> sweep i d z 0 = v i
     /\ forall p, p < d -> sweep i d z (S p) = PO (nmzi (i + p)) 2).
  { induction d as [|d IH]; intros i z Ei Hz.
    - split; [|lia]. cbn [sweep]. unfold phases, v. rewrite (proj2 (Nat.ltb_ge i (N - 1))) by lia.
      rewrite (wg_does HP (n := "wg") (i := 0)) by (apply in_or_app; right; now left). f_equal.
      destruct (HE "wg" 0 (N - 1)) as [<- _]; [unfold t_reck1; tin 0 0|]. rewrite Hz by lia. f_equal. lia.
    - destruct (IH (i + 1) (fun j => z (1 + j))) as [IH0 IH1]; [lia|intros j Hj; rewrite Hz by lia; f_equal; lia|].
      destruct (mzi_does HP (HI i ltac:(lia))) as [M1 M2]. rewrite HX, HV in M1, M2 by lia.
      cbn [sweep]. unfold mix2, UniProofs.pairs. cbn [mix2_s Nat.eqb]. split.
      + unfold lift. cbn [Nat.ltb Nat.leb Nat.sub]. rewrite IH0, Hz, Nat.add_0_r by lia. unfold v at 2. rewrite (proj2 (Nat.ltb_lt i (N - 1))) by lia.
        symmetry. exact M1.
      + intros [|p] Hp; cbn [mix2_s Nat.eqb]; unfold lift; cbn [Nat.ltb Nat.leb Nat.sub].
        * rewrite IH0, Hz, !Nat.add_0_r by lia. rewrite M2. ring.
        * rewrite IH1 by lia. rewrite Nat.eqb_refl. replace (i + 1 + p) with (i + S p) by lia. ring. }
  destruct (HS (N - 1) 0 x) as [H0 H1]; [lia|auto|]. destruct k as [|k].
  - rewrite Nat.add_0_r, H0. unfold v. rewrite (proj2 (Nat.ltb_lt 0 (N - 1))) by lia.
    destruct (HE (nmzi 0) 1 N) as [_ E]; [unfold t_reck1; tin 0 0|exact E].
  - rewrite H1 by lia. destruct (HE (nmzi k) 2 (N + k + 1)) as [_ E]; [unfold t_reck1; tin k 0|].
    replace (N + S k) with (N + k + 1) by lia. exact E.
Qed.
End Layers.

Lemma nth_error_seq_lt a n k : k < n -> nth_error (seq a n) k = Some (a + k).
Proof.
  revert a k. induction n as [|n IH]; intros a [|k] H; [lia|lia|cbn; f_equal; lia|]. cbn [seq nth_error]. rewrite IH by lia. f_equal. lia.
Qed.

(** * Layers in a row *)
Section Chain.
Variables (N w : nat) (A : nat -> vec -> vec).
Fixpoint in_row (n : nat) : vec -> vec := match n with 0 => A 0 | S n' => fun x => A n (in_row n' x) end.
Lemma in_row_uni n : (forall i, i <= n -> exists M', uni N (A i) M') -> exists M', uni N (in_row n) M'.
Proof.
  induction n as [|n IH]; intros H; [apply H; lia|]. destruct IH as (M1 & H1); [intros; apply H; lia|]. destruct (H (S n)) as (M2 & H2); [lia|].
  eexists. apply (uni_comp KR H2 H1).
Qed.
Lemma chain_acts n (L : nat -> net) b : (forall i, i <= n -> exists M', uni N (A i) M') -> (forall i, i <= n -> acts N (L i) w (A i)) ->
  wired_of x0 d0 (many "layer" (S n) L) (t_chain N n) (chain_un N n) b -> acts N b w (in_row n).
Proof.
  intros HU HA H x y HR k Lk. destruct (wired_rel KR H HR) as (PA & PO & HP & HE). pose proof (proj2 HP) as HW.
  assert (HI : forall i, i <= n -> forall j, j < N -> PO (nlay i) (N + j) = in_row i x j).
  { induction i as [|i IH]; intros Li j Lj.
    - rewrite (HA 0 Li (PA (nlay 0)) (PO (nlay 0))); [|apply HP, in_many; lia|exact Lj].
      destruct (HU 0 Li) as (M' & HM). apply (uni_local KR _ _ HM); [|exact Lj]. intros p Lp.
      symmetry. apply (HE (nlay 0) p p). unfold chain_un. rewrite nth_error_app1 by (rewrite map_length, seq_length; exact Lp).
      apply map_nth_error. now rewrite nth_error_seq_lt.
    - rewrite (HA (S i) Li (PA (nlay (S i))) (PO (nlay (S i)))); [|apply HP, in_many; lia|exact Lj].
      destruct (HU (S i) Li) as (M' & HM). cbn [in_row]. apply (uni_local KR _ _ HM); [|exact Lj]. intros p Lp.
      rewrite <- IH by lia. replace (S i) with (i + 1) by lia. eapply HW. unfold t_chain. apply in_flat_map. exists i. split; [apply in_seq; lia|].
      apply in_map_iff. exists p. split; [reflexivity|apply in_seq; lia]. }
  rewrite <- (HI n) by lia. apply (HE (nlay n) (N + k) (N + k)). unfold chain_un.
  rewrite nth_error_app2 by (rewrite map_length, seq_length; lia). rewrite map_length, seq_length. replace (N + k - N) with k by lia.
  apply map_nth_error. now rewrite nth_error_seq_lt.
Qed.
End Chain.

(** * Layers of a Reck mesh: layer m handles the lines from m on *)
Section Cascade.
Variables (N w : nat) (A : nat -> vec -> vec) (ph : cx).
Fixpoint cascade (m d : nat) : vec -> vec := match d with
  | 0 => phases (fun _ => ph)
  | S d' => fun x => lift 1 (cascade (m + 1) d') (A m x)
  end.
Hypothesis Hph : cmul (bar ph) ph = c1.
Lemma cascade_uni d : forall m, m + d = N - 1 -> (forall i, i < N - 1 -> exists M', uni (N - i) (A i) M') -> exists M', uni (S d) (cascade m d) M'.
Proof.
  induction d as [|d IH]; intros m Em HU; cbn [cascade].
  - apply phases_uni. auto.
  - destruct (IH (m + 1)) as (M1 & H1); [lia|exact HU|]. destruct (HU m) as (M2 & H2); [lia|]. replace (N - m) with (S (S d)) in H2 by lia.
    replace (S d) with (S (S d) - 1) in H1 by lia. apply (uni_lift KR (m := 1)) in H1; [|lia].
    eexists. exact (uni_comp KR H1 H2).
Qed.

Lemma reck_acts (L : nat -> net) wgn b : 2 <= N -> leaf_ok 2 wgn -> b_S wgn 1 1 w = c0 -> gain wgn w = ph ->
  (forall i, i < N - 1 -> exists M', uni (N - i) (A i) M') -> (forall i, i < N - 1 -> acts (N - i) (L i) w (A i)) ->
  wired_of x0 d0 (reck_mods N L wgn) (t_reck N) (reck_un N) b -> acts N b w (cascade 0 (N - 1)).
Proof.
  intros HN Hleaf H11 Hg HU HA H x y HR k Lk. destruct (wired_rel KR H HR) as (PA & PO & HP & HE). pose proof (proj2 HP) as HW.
  (* what enters the lines from m on *)
  set (into := fun m j => if m <? N - 1 then PA (nlay m) j else PA "wg" 0).
  set (leaves := fun m => if m <? N - 1 then PO (nlay m) (N - m) else PO "wg" 1).
  assert (HI : forall d m z, m + d = N - 1 -> (forall j, j <= d -> z j = into m j) -> forall j, j <= d -> cascade m d z j = leaves (m + j)).
  { induction d as [|d IH]; intros m z Em Hz j Lj.
    - replace j with 0 by lia. cbn [cascade]. unfold phases. rewrite Hz by lia. unfold into, leaves. rewrite (proj2 (Nat.ltb_ge m (N - 1))), (proj2 (Nat.ltb_ge (m + 0) (N - 1))) by lia.
      rewrite <- Hg. symmetry. apply (guide_rel KR Hleaf H11). apply HP. unfold reck_mods. apply in_or_app. right. now left.
    - assert (HO : forall p, p <= S d -> A m z p = PO (nlay m) (N - m + p)).
      { intros p Lp. rewrite (HA m ltac:(lia) (PA (nlay m)) (PO (nlay m))); [|apply HP; unfold reck_mods; apply in_or_app; left; apply in_many; lia|lia].
        destruct (HU m ltac:(lia)) as (M' & HM). apply (uni_local KR _ _ HM); [|lia]. intros q Lq. rewrite Hz by lia. unfold into. now rewrite (proj2 (Nat.ltb_lt m (N - 1))) by lia. }
      cbn [cascade]. unfold lift. destruct j as [|j].
      + cbn [Nat.ltb Nat.leb]. rewrite HO by lia. unfold leaves. rewrite !Nat.add_0_r. now rewrite (proj2 (Nat.ltb_lt m (N - 1))) by lia.
      + cbn [Nat.ltb Nat.leb]. replace (S j - 1) with j by lia. rewrite (IH (m + 1)); [f_equal; lia|lia| |lia].
        intros p Lp. rewrite HO by lia. unfold into. destruct (Nat.ltb_spec (m + 1) (N - 1)) as [Hm|Hm].
        * destruct (HW (nlay (m + 1 - 1)) (N - (m + 1) + 2 + p) (nlay (m + 1)) p) as [_ ->].
          -- unfold t_reck. apply in_or_app. left. apply in_flat_map. exists (m + 1). split; [apply in_seq; lia|].
             apply in_map_iff. exists p. split; [reflexivity|apply in_seq; lia].
          -- f_equal; [|lia]. do 2 f_equal. lia.
        * destruct (HW (nlay (N - 2)) 3 "wg" 0) as [_ ->]; [unfold t_reck; apply in_or_app; right; now left|].
          f_equal; [|lia]. do 2 f_equal. lia. }
  rewrite (HI (N - 1) 0 x); [|lia| |lia].
  - unfold leaves. cbn [Nat.add]. destruct (Nat.ltb_spec k (N - 1)) as [Hk|Hk].
    + apply (HE (nlay k) (N - k) (N + k)). unfold reck_un. rewrite nth_error_app2 by (rewrite map_length, seq_length; lia).
      rewrite map_length, seq_length. replace (N + k - N) with k by lia. rewrite nth_error_app1 by (rewrite map_length, seq_length; lia).
      exact (map_nth_error (fun m => (nlay m, N - m)) _ _ (nth_error_seq_lt 0 Hk)).
    + apply (HE "wg" 1 (N + k)). unfold reck_un. rewrite nth_error_app2 by (rewrite map_length, seq_length; lia).
      rewrite map_length, seq_length. rewrite nth_error_app2 by (rewrite map_length, seq_length; lia). rewrite map_length, seq_length.
      replace (N + k - N - (N - 1)) with 0 by lia. reflexivity.
  - intros j Lj. unfold into. rewrite (proj2 (Nat.ltb_lt 0 (N - 1))) by lia. apply (HE (nlay 0) j j).
    unfold reck_un. rewrite nth_error_app1 by (rewrite map_length, seq_length; lia). apply map_nth_error. rewrite nth_error_seq_lt by lia. reflexivity.
Qed.
End Cascade.

(** * Meshes *)
Section Mesh.
Variables (wg mzi : nat -> nat -> net) (w : nat).
Hypothesis Hwg : forall l i, leaf_ok 2 (wg l i).
Hypothesis Hmzi : forall l i, leaf_ok 4 (mzi l i).
Hypothesis Gwg : forall l i, guides (wg l i) w.
Hypothesis Gmzi : forall l i, mixes (mzi l i) w.

(** The layers of a Clements mesh: [c / 2] double columns, then phases, after one more column if [c] is odd. *)
Definition clements_layer (N c i : nat) : vec -> vec :=
  if i <? c / 2 then fun x => column 1 N (fun j => transfer (mzi i j) w) (fun _ => gain (wg i 0) w)
                        (column 0 N (fun j => transfer (mzi i j) w) (fun _ => gain (wg i 0) w) x)
  else if odd_n c then fun x => phases (fun k => gain (wg i k) w) (column 0 N (fun j => transfer (mzi i (j / 2)) w) (fun _ => gain (wg i N) w) x)
  else phases (fun k => gain (wg i k) w).
Definition clements_op (N c : nat) : vec -> vec := in_row (clements_layer N c) (c / 2).
Definition reck_op (N : nat) : vec -> vec :=
  cascade (fun m => sweep (wg m) (mzi m) w 0 (N - m - 1)) (gain (wg (N - 1) 0) w) 0 (N - 1).

Theorem clements_does N c b : 2 <= N -> 2 <= c -> clements x0 d0 N c wg mzi = Ok b ->
  acts N b w (clements_op N c) /\ exists M', uni N (clements_op N c) M'.
Proof.
  intros HN Hc Hb. destruct (clements_builds x0 d0 Hwg Hmzi HN Hc) as (b' & L & Hb' & HL & Hl & Hw).
  rewrite Hb in Hb'. injection Hb' as <-.
  assert (HA : forall i, i <= c / 2 -> acts N (L i) w (clements_layer N c i) /\ exists M', uni N (clements_layer N c i) M').
  { intros i Hi. unfold clements_layer. destruct (Nat.ltb_spec i (c / 2)) as [Hi'|Hi'].
    - specialize (HL i Hi'). split; [exact (cap2_acts (Hwg i) (Hmzi i) (Gwg i) (Gmzi i) HN HL)|].
      destruct (@column_uni 0 N (fun j => transfer (mzi i j) w) (fun _ => gain (wg i 0) w)) as (M1 & H1); [intros; apply Gwg|intros; apply Gmzi|lia|].
      destruct (@column_uni 1 N (fun j => transfer (mzi i j) w) (fun _ => gain (wg i 0) w)) as (M2 & H2); [intros; apply Gwg|intros; apply Gmzi|lia|].
      eexists. exact (uni_comp KR H2 H1).
    - assert (i = c / 2) by lia. subst i. set (n := c / 2) in *. unfold clements_last in Hl. fold n in Hl.
      destruct (@phases_uni N (fun k => gain (wg n k) w)) as (M1 & H1); [intros; apply Gwg|]. destruct (odd_n c).
      + destruct (@column_uni 0 N (fun j => transfer (mzi n (j / 2)) w) (fun _ => gain (wg n N) w)) as (M2 & H2); [intros; apply Gwg|intros; apply Gmzi|lia|].
        split; [exact (mixc_acts (Hwg n) (Hmzi n) (Gwg n) (Gmzi n) Hl)|]. eexists. exact (uni_comp KR H1 H2).
      + split; [exact (phase_acts (Hwg n) (Hmzi n) (Gwg n) (Gmzi n) Hl)|]. eexists. exact H1. }
  split.
  - eapply chain_acts; [intros i Hi; apply HA; exact Hi|intros i Hi; apply HA; exact Hi|exact Hw].
  - apply in_row_uni; [exact w|]. intros i Hi. now apply HA.
Qed.

Theorem reck_does N b : 2 <= N -> reck x0 d0 N wg mzi = Ok b -> acts N b w (reck_op N) /\ exists M', uni N (reck_op N) M'.
Proof.
  intros HN Hb. destruct (reck_builds x0 d0 Hwg Hmzi HN) as (b' & L & Hb' & HL & Hw). rewrite Hb in Hb'. injection Hb' as <-.
  unfold reck_op. set (A := fun m => sweep (wg m) (mzi m) w 0 (N - m - 1)).
  assert (HU : forall i, i < N - 1 -> exists M', uni (N - i) (A i) M').
  { intros i Hi. unfold A. pose proof (@sweep_uni (wg i) (mzi i) w (Hwg i) (Hmzi i) (Gwg i) (Gmzi i) (N - i - 1) 0) as H. replace (S (N - i - 1)) with (N - i) in H by lia. exact H. }
  destruct (@cascade_uni N A (gain (wg (N - 1) 0) w) (proj2 (Gwg (N - 1) 0)) (N - 1) 0) as (M' & HM); [lia|exact HU|].
  split.
  - apply (@reck_acts N w A _ L (wg (N - 1) 0) b HN (Hwg (N - 1) 0) (proj1 (Gwg (N - 1) 0)) eq_refl HU); [|exact Hw].
    intros i Hi. unfold A. apply reck1_acts; auto. lia.
  - exists M'. replace (S (N - 1)) with N in HM by lia. exact HM.
Qed.

Theorem clements_acts N c b : 2 <= N -> 2 <= c -> clements x0 d0 N c wg mzi = Ok b -> exists M M', acts N b w M /\ uni N M M'.
Proof. intros HN Hc Hb. destruct (clements_does HN Hc Hb) as (H1 & M' & H2). eauto. Qed.
Theorem reck_mesh_acts N b : 2 <= N -> reck x0 d0 N wg mzi = Ok b -> exists M M', acts N b w M /\ uni N M M'.
Proof. intros HN Hb. destruct (reck_does HN Hb) as (H1 & M' & H2). eauto. Qed.
End Mesh.
End F.
