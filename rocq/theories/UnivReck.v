(** Sweeps of interferometers focus any light on their first line; cascades of sweeps take any
    orthonormal family to the unit vectors. *)
From Coq Require Import Ring Reals Lra.
From Verif Require Import Base NetModel SimModel SimAlg SimSpec CircuitProofs UniSpec UniProofs MeshActs UnivAlg.
Set Implicit Arguments.
Unset Strict Implicit.
Local Open Scope nat_scope.
Add Ring Zring : zcr.
Notation vecR := (nat -> cR).
Notation zmix2 := (mix2 0%R 1%R Rplus Rmult Rminus).
Notation zphases := (phases Rplus Rmult Rminus).
Notation zcascade := (cascade Rplus Rmult Rminus).
Notation zunit := (unit_vec 0%R 1%R).
Notation is_unit z := (zmul (zbar z) z = z1).

Lemma mixm_unitary b al th : is_unit b -> zunitary 2 (mixm b al th).
Proof.
  intros Hb. assert (Hb' : zmul b (zbar b) = z1) by (rewrite <- Hb; ring). pose proof (cis_unit al) as Ha. pose proof (cis_unit' al) as Ha'.
  assert (HS : (sin th * sin th = 1 - cos th * cos th)%R) by (pose proof (sin2_cos2 th) as H; unfold Rsqr in H; lra).
  assert (H1 : zadd (zmul (rl (cos th)) (rl (cos th))) (zmul (rl (sin th)) (rl (sin th))) = z1).
  { zz. f_equal; ring [HS]. }
  assert (HR : forall r, zbar (rl r) = rl r) by (intros r; zz; f_equal; ring).
  assert (HO : forall z, zopp z = zmul (rl (-1)) z) by (intros [u v]; zz; f_equal; ring).
  assert (Hm : zmul (rl (-1)) (rl (-1)) = z1) by (zz; f_equal; ring).
  assert (Hp : zadd (rl (-1)) z1 = z0) by (zz; f_equal; ring).
  intros i j Li Lj. assert (i = 0 \/ i = 1) as [->| ->] by lia; assert (j = 0 \/ j = 1) as [->| ->] by lia; unfold mixm;
    cbn [seq Nat.eqb]; rewrite !lsum_cons, !lsum_nil, ?HO; cbn [Nat.eqb]; rewrite ?(bar_mul RTheory), ?HR; set (c := rl (cos th)) in *; set (s := rl (sin th)) in *; set (a := cis al) in *; set (m := rl (-1)) in *; split.
  all: match goal with
  | |- _ = z1 => first
     [ transitivity (zmul (zmul (zbar a) a) (zadd (zmul c c) (zmul s s))); [ring|rewrite Ha, H1; ring]
     | transitivity (zadd (zmul (zmul (zbar a) a) (zmul c c)) (zmul (zmul m m) (zmul (zmul (zbar b) b) (zmul s s)))); [ring|rewrite Ha, Hm, Hb; transitivity (zadd (zmul c c) (zmul s s)); [ring|exact H1]]
     | transitivity (zadd (zmul (zmul (zbar b) b) (zmul c c)) (zmul (zmul m m) (zmul (zmul (zbar b) b) (zmul s s)))); [ring|rewrite Hm, Hb; transitivity (zadd (zmul c c) (zmul s s)); [ring|exact H1]]
     | transitivity (zadd (zmul (zmul (zbar a) a) (zmul s s)) (zmul (zmul (zbar b) b) (zmul c c))); [ring|rewrite Ha, Hb; transitivity (zadd (zmul c c) (zmul s s)); [ring|exact H1]] ]
  | |- _ = z0 => first
     [ transitivity (zmul (zmul (zmul (zbar a) b) (zmul c s)) (zadd m z1)); [ring|rewrite Hp; ring]
     | transitivity (zmul (zmul (zmul (zbar b) a) (zmul c s)) (zadd m z1)); [ring|rewrite Hp; ring]
     | transitivity (zadd (zmul (zmul (zbar a) a) (zmul c s)) (zmul m (zmul (zmul (zbar b) b) (zmul c s)))); [ring|rewrite Ha, Hb; transitivity (zmul (zmul c s) (zadd m z1)); [ring|rewrite Hp; ring]] ]
  end.
Qed.

(** * One sweep *)
Fixpoint swp (g : cR) (U : nat -> nat -> nat -> cR) (i d : nat) : vecR -> vecR := match d with
  | 0 => zphases (fun _ => g)
  | S d' => fun x => zmix2 (U i) (lift 1 (swp g U (i + 1) d') x)
  end.
Lemma mix2_ext U U' x x' k : (forall i j, U i j = U' i j) -> (forall j, j <= max 1 k -> x j = x' j) -> zmix2 U x k = zmix2 U' x' k.
Proof.
  intros H Hx. unfold mix2, UniProofs.pairs. destruct k as [|[|k]]; cbn [mix2_s Nat.eqb]; rewrite ?H, ?Hx by (cbn; lia); [reflexivity|reflexivity|].
  destruct (_ =? _); reflexivity.
Qed.
Lemma swp_ext g U U' d : forall i, (forall j a b, i <= j -> U j a b = U' j a b) -> forall x k, swp g U i d x k = swp g U' i d x k.
Proof.
  induction d as [|d IH]; intros i H x k; [reflexivity|]. cbn [swp]. apply mix2_ext; [intros; apply H; lia|].
  intros j _. unfold lift. destruct (j <? 1); [reflexivity|]. apply IH. intros; apply H; lia.
Qed.
Lemma swp_uni g U d : is_unit g -> (forall j, zunitary 2 (U j)) -> forall i, exists M', zuni (S d) (swp g U i d) M'.
Proof.
  intros Hg HU. induction d as [|d IH]; intros i; cbn [swp].
  - apply (phases_uni RTheory). auto.
  - destruct (IH (i + 1)) as (M1 & H1). destruct (@mix2_uni _ _ _ _ _ _ _ RTheory (U i) (S (S d))) as (M2 & H2); [lia|apply HU|].
    replace (S d) with (S (S d) - 1) in H1 by lia. apply (uni_lift RTheory (m := 1)) in H1; [|lia].
    eexists. exact (uni_comp RTheory H2 H1).
Qed.

(** Energy on the lines 0 to d. *)
Fixpoint vn (d : nat) (x : vecR) : R := match d with 0 => nrm2 (x 0) | S d' => (nrm2 (x 0%nat) + vn d' (fun j => x (1 + j)%nat))%R end.
Lemma vn_pos d : forall x, (0 <= vn d x)%R.
Proof. induction d as [|d IH]; intros x; cbn; [apply nrm2_pos|]. pose proof (nrm2_pos (x 0)). pose proof (IH (fun j => x (S j))). lra. Qed.
Lemma dot_S N x y : zdot (S N) x y = zadd (zmul (zbar (x 0)) (y 0)) (zdot N (fun j => x (1 + j)) (fun j => y (1 + j))).
Proof. unfold dot. cbn [seq]. rewrite lsum_cons. f_equal. rewrite <- seq_shift, lsum_map. reflexivity. Qed.
Lemma dot_vn d : forall x, zdot (S d) x x = rl (vn d x).
Proof.
  induction d as [|d IH]; intros x; rewrite dot_S.
  - rewrite nrm2_bar. unfold dot. cbn [seq]. rewrite lsum_nil. cbn [vn]. ring.
  - rewrite IH, nrm2_bar. cbn [vn]. zz. f_equal; ring.
Qed.

Lemma swp_focus (b : nat -> cR) d : (forall j, is_unit (b j)) -> forall i x ze, is_unit ze -> exists g al th, is_unit g
  /\ swp g (fun j => mixm (b j) (al j) (th j)) i d x 0 = zmul (rl (sqrt (vn d x))) ze
  /\ forall k, 1 <= k <= d -> swp g (fun j => mixm (b j) (al j) (th j)) i d x k = z0.
Proof.
  intros Hb. induction d as [|d IH]; intros i x ze Hz.
  - destruct (polar (x 0)) as (a & Ea). exists (zmul ze (zbar (cis a))), (fun _ => 0%R), (fun _ => 0%R).
    split; [apply unit_mul; [exact Hz|apply unit_bar, cis_unit]|]. split; [|lia]. cbn [swp vn]. unfold phases. rewrite Ea at 1.
    transitivity (zmul (zmul (zbar (cis a)) (cis a)) (zmul (rl (sqrt (nrm2 (x 0)))) ze)); [ring|]. rewrite cis_unit. ring.
  - set (x' := fun j => x (1 + j)).
    destruct (@focus (b i) ze (x 0) (sqrt (vn d x'))) as (a0 & t0 & ze' & Hz' & F0 & F1); [apply Hb|exact Hz|apply sqrt_pos|].
    destruct (IH (i + 1) x' ze' Hz') as (g & al & th & Hg & H0 & Hk).
    exists g, (fun j => if j =? i then a0 else al j), (fun j => if j =? i then t0 else th j).
    set (U := fun j => mixm (b j) (al j) (th j)) in *.
    set (U' := fun j => mixm (b j) (if j =? i then a0 else al j) (if j =? i then t0 else th j)).
    assert (HE : forall x k, swp g U' (i + 1) d x k = swp g U (i + 1) d x k).
    { apply swp_ext. intros j a c Hj. unfold U, U'. destruct (Nat.eqb_spec j i); [lia|reflexivity]. }
    assert (HU : forall p q, U' i p q = mixm (b i) a0 t0 p q) by (intros; unfold U'; now rewrite Nat.eqb_refl).
    split; [exact Hg|]. cbn [swp]. unfold mix2, UniProofs.pairs. split.
    + cbn [mix2_s Nat.eqb]. unfold lift. cbn [Nat.ltb Nat.leb Nat.sub]. fold x'. rewrite !HU, HE, H0, F0. cbn [vn]. fold x'.
      rewrite sqrt_sqrt by apply vn_pos. reflexivity.
    + intros k Hk'. destruct k as [|[|k]]; [lia| |]; cbn [mix2_s Nat.eqb]; unfold lift; cbn [Nat.ltb Nat.leb Nat.sub].
      * fold x'. rewrite !HU, HE, H0. rewrite <- F1. ring.
      * rewrite Nat.eqb_refl. fold x'. rewrite HE, Hk by lia. ring.
Qed.

(** * A cascade of sweeps *)
Lemma cascade_ext A A' ph d : forall m, (forall j, m <= j -> forall x k, A j x k = A' j x k) ->
  (forall j, m <= j -> j < m + d -> exists M', zuni (S (m + d - j)) (A j) M') -> is_unit ph ->
  forall x k, k <= d -> zcascade A ph m d x k = zcascade A' ph m d x k.
Proof.
  induction d as [|d IH]; intros m H HU Hp x k Lk; [reflexivity|]. cbn [cascade]. unfold lift. destruct (Nat.ltb_spec k 1); [apply H; lia|].
  assert (HC : forall d m, (forall j, m <= j -> j < m + d -> exists M', zuni (S (m + d - j)) (A j) M') -> exists M', zuni (S d) (zcascade A ph m d) M').
  { clear - Hp. induction d as [|d IH]; intros m HU; cbn [cascade]; [apply (phases_uni RTheory); auto|].
    destruct (IH (m + 1)) as (M1 & H1). { intros j H1 H2. destruct (HU j) as (M' & HM); [lia|lia|]. exists M'. now replace (m + 1 + d - j) with (m + S d - j) by lia. }
    destruct (HU m) as (M2 & H2); [lia|lia|]. replace (S (m + S d - m)) with (S (S d)) in H2 by lia.
    replace (S d) with (S (S d) - 1) in H1 by lia. apply (uni_lift RTheory (m := 1)) in H1; [|lia]. eexists. exact (uni_comp RTheory H1 H2). }
  assert (HU' : forall j, m + 1 <= j -> j < m + 1 + d -> exists M', zuni (S (m + 1 + d - j)) (A j) M').
  { intros j H1 H2. destruct (HU j) as (M' & HM); [lia|lia|]. exists M'. now replace (m + 1 + d - j) with (m + S d - j) by lia. }
  destruct (HC d (m + 1) HU') as (M' & HM). rewrite <- (IH (m + 1)); [|intros; apply H; lia|exact HU'|exact Hp|lia].
  apply (uni_local RTheory _ _ HM); [|lia]. intros j Lj. apply H. lia.
Qed.

(** [Y 0], ..., [Y d] are orthonormal on the lines 0 to d. *)
Definition ortho (N : nat) (Y : nat -> vecR) : Prop := forall k l, k < N -> l < N -> zdot N (Y k) (Y l) = if k =? l then z1 else z0.
Lemma ortho_uni N Y M M' : zuni N M M' -> ortho N Y -> ortho N (fun k => M (Y k)).
Proof.
  intros HM HY k l Lk Ll. rewrite (u_adj HM). rewrite <- (HY k l Lk Ll). apply dot_ext; [auto|]. intros j Lj. now apply (u_left HM).
Qed.
Lemma uni_zero N M M' x : zuni N M M' -> (forall j, j < N -> x j = z0) -> forall k, k < N -> M x k = z0.
Proof.
  intros HM Hx k Lk. rewrite (uni_matrix RTheory x HM Lk). apply (lsum_0 zcr). intros j Hj. apply in_seq in Hj. rewrite Hx by lia. ring.
Qed.

Section Casc.
Variables (N : nat) (b : nat -> nat -> cR).
Hypothesis Hb : forall m j, is_unit (b m j).
Definition swps (g : nat -> cR) (al th : nat -> nat -> R) (m : nat) : vecR -> vecR :=
  swp (g m) (fun i => mixm (b m i) (al m i) (th m i)) 0 (N - m - 1).
Lemma swps_uni g al th m : m < N -> is_unit (g m) -> exists M', zuni (N - m) (swps g al th m) M'.
Proof.
  intros Hm Hg. replace (N - m) with (S (N - m - 1)) by lia. unfold swps. apply swp_uni; [exact Hg|]. intros j. now apply mixm_unitary.
Qed.

Theorem cascade_focus d : forall m Y, m + d = N - 1 -> 1 <= N -> ortho (S d) Y -> exists ph g al th, is_unit ph /\ (forall m, is_unit (g m))
  /\ forall k j, k <= d -> j <= d -> zcascade (swps g al th) ph m d (Y k) j = zunit k j.
Proof.
  induction d as [|d IH]; intros m Y Em HN HY.
  - exists (zbar (Y 0 0)), (fun _ => z1), (fun _ _ => 0%R), (fun _ _ => 0%R).
    assert (H0 : is_unit (Y 0 0)). { pose proof (HY 0 0 ltac:(lia) ltac:(lia)) as H. unfold dot in H. cbn [seq Nat.eqb] in H. rewrite lsum_cons, lsum_nil in H. rewrite <- H. ring. }
    split; [apply unit_bar, H0|]. split; [intros; rewrite (bar_1 RTheory); ring|].
    intros k j Lk Lj. replace k with 0 by lia. replace j with 0 by lia. cbn [cascade]. unfold phases. exact H0.
  - destruct (@swp_focus (b m) (S d) (Hb m) 0 (Y 0) z1) as (g0 & a0 & t0 & Hg0 & F0 & Fk); [rewrite (bar_1 RTheory); ring|].
    set (A := swp g0 (fun i => mixm (b m i) (a0 i) (t0 i)) 0 (S d)) in *.
    destruct (@swp_uni g0 (fun i => mixm (b m i) (a0 i) (t0 i)) (S d) Hg0 (fun i => mixm_unitary _ _ (Hb m i)) 0) as (A' & HA). fold A in HA.
    pose proof (ortho_uni HA HY) as HO. cbv beta in HO.
    assert (HV : vn (S d) (Y 0) = 1%R).
    { pose proof (HY 0 0 ltac:(lia) ltac:(lia)) as H. rewrite dot_vn in H. cbn [Nat.eqb] in H. unfold rl, SimAlg.c1 in H. now injection H. }
    assert (E0 : forall j, j < S (S d) -> A (Y 0) j = zunit 0 j).
    { intros [|j] Lj; unfold unit_vec; cbn [Nat.eqb]; [|apply Fk; lia]. rewrite F0, HV, sqrt_1. unfold rl. change (zmul z1 z1 = z1). ring. }
    assert (E1 : forall k, 1 <= k <= S d -> A (Y k) 0 = z0).
    { intros k Lk. rewrite <- (@dot_unit_l _ _ _ _ _ _ _ RTheory (S (S d)) (A (Y k)) 0) by lia.
      transitivity (zdot (S (S d)) (A (Y 0)) (A (Y k))).
      - apply dot_ext; [|auto]. intros j Lj. symmetry. now apply E0.
      - rewrite HO by lia. destruct (Nat.eqb_spec 0 k); [lia|reflexivity]. }
    set (Y' := fun k j => A (Y (S k)) (1 + j)).
    destruct (IH (m + 1) Y') as (ph & g & al & th & Hp & Hg & HF); [lia|exact HN| |].
    { intros k l Lk Ll. pose proof (HO (S k) (S l) ltac:(lia) ltac:(lia)) as H. rewrite dot_S in H. rewrite (E1 (S k)) in H by lia.
      cbn [Nat.eqb] in H. rewrite <- H. unfold Y'. rewrite (bar_0 RTheory). ring. }
    exists ph, (fun i => if i =? m then g0 else g i), (fun i => if i =? m then a0 else al i), (fun i => if i =? m then t0 else th i).
    split; [exact Hp|]. split; [intros i; destruct (i =? m); auto|].
    set (B := swps (fun i => if i =? m then g0 else g i) (fun i => if i =? m then a0 else al i) (fun i => if i =? m then t0 else th i)).
    assert (HB : forall x k, B m x k = A x k).
    { intros x k. unfold B, swps, A. rewrite Nat.eqb_refl. now replace (N - m - 1) with (S d) by lia. }
    assert (HB' : forall j, m + 1 <= j -> forall x k, swps g al th j x k = B j x k).
    { intros j Hj x k. unfold B, swps. destruct (Nat.eqb_spec j m); [lia|reflexivity]. }
    assert (HUs : forall j, m + 1 <= j -> j < m + 1 + d -> exists M', zuni (S (m + 1 + d - j)) (swps g al th j) M').
    { intros j H1 H2. replace (S (m + 1 + d - j)) with (N - j) by lia. apply swps_uni; [lia|apply Hg]. }
    assert (HC : forall x k, k <= d -> zcascade B ph (m + 1) d x k = zcascade (swps g al th) ph (m + 1) d x k).
    { intros x k Lk. symmetry. apply (cascade_ext HB' HUs Hp); exact Lk. }
    assert (HCu : exists M', zuni (S d) (zcascade (swps g al th) ph (m + 1) d) M').
    { apply (cascade_uni RTheory (N := N) Hp); [lia|]. intros i Hi. apply swps_uni; [lia|apply Hg]. }
    destruct HCu as (C' & HCu).
    intros k j Lk Lj. cbn [cascade]. unfold lift. destruct (Nat.ltb_spec j 1) as [Hj|Hj].
    + assert (j = 0) by lia. subst j. rewrite HB. destruct k as [|k]; [apply E0; lia|]. rewrite E1 by lia. reflexivity.
    + rewrite HC by lia. rewrite (uni_local RTheory _ (if k =? 0 then fun _ => z0 else Y' (k - 1)) HCu); [| |lia].
      * destruct k as [|k]; cbn [Nat.eqb].
        -- rewrite (uni_zero HCu); [|auto|lia]. unfold unit_vec. destruct (Nat.eqb_spec j 0); [lia|reflexivity].
        -- replace (S k - 1) with k by lia. rewrite HF by lia. unfold unit_vec. destruct (Nat.eqb_spec (j - 1) k), (Nat.eqb_spec j (S k)); auto; lia.
      * intros i Li. rewrite HB. destruct k as [|k]; cbn [Nat.eqb]; [|unfold Y'; now replace (S k - 1) with k by lia].
        rewrite E0 by lia. unfold unit_vec. destruct (Nat.eqb_spec (1 + i) 0); [lia|reflexivity].
Qed.
End Casc.
