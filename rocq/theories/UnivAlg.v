(** Complex numbers over the reals: polar form, and interferometers steering light. *)
From Coq Require Import Ring Reals Lra Lia.
From Verif Require Import Base NetModel SimModel SimAlg SimSpec CircuitProofs UniSpec UniProofs.
Set Implicit Arguments.
Unset Strict Implicit.
Local Open Scope R_scope.

Notation cR := (R * R)%type.
Notation z0 := (SimAlg.c0 0).
Notation z1 := (SimAlg.c1 0 1).
Notation zadd := (SimAlg.cadd Rplus).
Notation zmul := (SimAlg.cmul Rplus Rmult Rminus).
Notation zbar := (cbar Ropp).
Notation zsum := (lsum z0 zadd).
Notation zdot := (dot 0 Rplus Rmult Rminus Ropp).
Notation zuni := (uni 0 Rplus Rmult Rminus Ropp).
Notation zunitary := (unitary 0 1 Rplus Rmult Rminus Ropp).
Definition zcr := cx_ring RTheory.
Add Ring Zring : zcr.

Definition zopp (z : cR) : cR := (- fst z, - snd z).
Definition cis (a : R) : cR := (cos a, sin a).
Definition rl (r : R) : cR := (r, 0).
Definition nrm2 (z : cR) : R := fst z * fst z + snd z * snd z.
Ltac zz := unfold rl, cis, cbar, zopp, nrm2, SimAlg.cmul, SimAlg.cadd, SimAlg.c1, SimAlg.c0 in *; cbn [fst snd] in *.

Lemma nrm2_pos z : 0 <= nrm2 z. Proof. unfold nrm2. nra. Qed.
Lemma nrm2_0 z : nrm2 z = 0 -> z = z0.
Proof. destruct z as [x y]. zz. intros H. assert (x = 0) by nra. assert (y = 0) by nra. now subst. Qed.
Lemma nrm2_mul a b : nrm2 (zmul a b) = nrm2 a * nrm2 b.
Proof. destruct a, b. zz. ring. Qed.
Lemma nrm2_bar z : zmul (zbar z) z = rl (nrm2 z).
Proof. destruct z. zz. f_equal; ring. Qed.
Lemma zmul_0 a b : zmul a b = z0 -> a = z0 \/ b = z0.
Proof.
  intros H. assert (E : nrm2 a * nrm2 b = 0) by (rewrite <- nrm2_mul, H; zz; ring).
  apply Rmult_integral in E. destruct E as [E|E]; [left|right]; now apply nrm2_0.
Qed.
Lemma zinv z : z <> z0 -> exists i, zmul z i = z1.
Proof.
  intros H. assert (Hn : nrm2 z <> 0) by (intros E; apply H, nrm2_0, E). exists (fst z / nrm2 z, - snd z / nrm2 z).
  destruct z as [x y]. zz. f_equal; field; exact Hn.
Qed.
Lemma z1_neq : z1 <> z0. Proof. zz. intros [= E]. lra. Qed.
Lemma z_dec (z : cR) : {z = z0} + {z <> z0}.
Proof. destruct z as [x y]. destruct (Req_EM_T x 0) as [->|H]; [destruct (Req_EM_T y 0) as [->|H]|]; [now left|right|right]; zz; congruence. Qed.

Lemma cis_unit a : zmul (zbar (cis a)) (cis a) = z1.
Proof. zz. pose proof (sin2_cos2 a) as H. unfold Rsqr in H. f_equal; [|ring]. rewrite <- H. ring. Qed.
Lemma cis_unit' a : zmul (cis a) (zbar (cis a)) = z1.
Proof. rewrite <- (cis_unit a). ring. Qed.
Lemma cis_neq a : cis a <> z0.
Proof. intros H. pose proof (cis_unit a) as E. rewrite H in E. apply z1_neq. rewrite <- E. zz. f_equal; ring. Qed.
Lemma angle x y : x * x + y * y = 1 -> exists a, cos a = x /\ sin a = y.
Proof.
  intros H. assert (Hx : -1 <= x <= 1) by nra.
  assert (HS : sin (acos x) * sin (acos x) = y * y).
  { pose proof (sin2_cos2 (acos x)) as E. unfold Rsqr in E. rewrite cos_acos in E by exact Hx. lra. }
  assert (E : sin (acos x) = y \/ sin (acos x) = - y) by nra. destruct E as [E|E].
  - exists (acos x). split; [now apply cos_acos|exact E].
  - exists (- acos x). rewrite cos_neg, sin_neg, E. split; [now apply cos_acos|ring].
Qed.
Lemma unit_cis z : zmul (zbar z) z = z1 -> exists a, z = cis a.
Proof.
  intros H. rewrite nrm2_bar in H. destruct z as [x y]. zz. injection H as H. destruct (angle H) as (a & <- & <-). now exists a.
Qed.
Lemma unit_mul a b : zmul (zbar a) a = z1 -> zmul (zbar b) b = z1 -> zmul (zbar (zmul a b)) (zmul a b) = z1.
Proof.
  intros Ha Hb. rewrite (bar_mul RTheory). transitivity (zmul (zmul (zbar a) a) (zmul (zbar b) b)); [ring|]. rewrite Ha, Hb. ring.
Qed.
Lemma unit_bar a : zmul (zbar a) a = z1 -> zmul (zbar (zbar a)) (zbar a) = z1.
Proof. intros H. rewrite (bar_bar RTheory), <- H. ring. Qed.
Lemma unit_opp a : zmul (zbar a) a = z1 -> zmul (zbar (zopp a)) (zopp a) = z1.
Proof. intros H. rewrite <- H. destruct a. zz. f_equal; ring. Qed.

(** Polar form. *)
Lemma polar z : exists a, z = zmul (rl (sqrt (nrm2 z))) (cis a).
Proof.
  destruct (z_dec z) as [->|H].
  - exists 0. zz. rewrite !Rmult_0_l, Rplus_0_l, sqrt_0. f_equal; ring.
  - assert (Hn : 0 < nrm2 z) by (destruct (Rle_lt_or_eq_dec _ _ (nrm2_pos z)) as [L|E]; [exact L|destruct H; apply nrm2_0; auto]).
    assert (Hs : sqrt (nrm2 z) <> 0) by (pose proof (sqrt_lt_R0 _ Hn); lra).
    assert (Hq : sqrt (nrm2 z) * sqrt (nrm2 z) = nrm2 z) by (apply sqrt_sqrt; lra).
    destruct (@angle (fst z / sqrt (nrm2 z)) (snd z / sqrt (nrm2 z))) as (a & Ec & Es).
    { transitivity (nrm2 z / (sqrt (nrm2 z) * sqrt (nrm2 z))); [unfold nrm2 at 5; field; exact Hs|]. rewrite Hq. field. lra. }
    exists a. unfold cis. rewrite Ec, Es. destruct z as [x y]. zz. f_equal; field; exact Hs.
Qed.

(** The transfer matrix of an Mzi: [b] is fixed, the two angles are free (mzis.py:82-113). *)
Definition mixm (b : cR) (al th : R) (i j : nat) : cR :=
  if (i =? 0)%nat then (if (j =? 0)%nat then zmul (cis al) (rl (cos th)) else zmul (zopp b) (rl (sin th)))
  else (if (j =? 0)%nat then zmul (cis al) (rl (sin th)) else zmul b (rl (cos th))).

Lemma two_squares r s : r * r + s * s <> 0 -> exists th n, n <> 0 /\ n * n = r * r + s * s /\ 0 <= n /\ cos th * n = r /\ sin th * n = s.
Proof.
  intros H. set (m := r * r + s * s) in *. assert (Hm : 0 < m) by (unfold m in *; nra).
  pose proof (sqrt_lt_R0 _ Hm) as Hn. assert (Hq : sqrt m * sqrt m = m) by (apply sqrt_sqrt; lra).
  destruct (@angle (r / sqrt m) (s / sqrt m)) as (th & E1 & E2).
  { transitivity (m / (sqrt m * sqrt m)); [unfold m at 5; field; lra|]. rewrite Hq. field. lra. }
  exists th, (sqrt m). rewrite E1, E2. split; [lra|]. split; [exact Hq|]. split; [lra|]. split; field; lra.
Qed.

(** The first output can be any combination of the inputs. *)
Lemma steer b be ga : zmul (zbar b) b = z1 -> (be <> z0 \/ ga <> z0) ->
  exists al th l, l <> z0 /\ mixm b al th 0 0 = zmul l be /\ mixm b al th 0 1 = zmul l ga.
Proof.
  intros Hb Hn. destruct (polar be) as (ab & Eb), (polar ga) as (ag & Eg).
  set (r := sqrt (nrm2 be)) in *. set (s := sqrt (nrm2 ga)) in *.
  assert (Hr : r * r = nrm2 be) by (apply sqrt_sqrt, nrm2_pos). assert (Hs : s * s = nrm2 ga) by (apply sqrt_sqrt, nrm2_pos).
  destruct (@two_squares r s) as (th & n & Hn0 & Hnn & _ & Ec & Es).
  { rewrite Hr, Hs. intros E. pose proof (nrm2_pos be). pose proof (nrm2_pos ga). destruct Hn as [H'|H']; apply H', nrm2_0; lra. }
  destruct (@unit_cis (zmul (zopp b) (zmul (cis ab) (zbar (cis ag))))) as (al & Ea).
  { apply unit_mul; [now apply unit_opp|]. apply unit_mul; [apply cis_unit|apply unit_bar, cis_unit]. }
  assert (Hi : zmul (rl n) (rl (/ n)) = z1) by (zz; f_equal; field; exact Hn0).
  exists al, th, (zmul (zmul (zopp b) (zbar (cis ag))) (rl (/ n))). split; [|split].
  - intros E. assert (E2 : zmul (zmul (zmul (zopp b) (zbar (cis ag))) (rl (/ n))) (zmul (rl n) (zmul (zbar (zopp b)) (cis ag))) = z0) by (rewrite E; ring).
    apply z1_neq. rewrite <- E2.
    transitivity (zmul (zmul (zmul (zbar (zopp b)) (zopp b)) (zmul (zbar (cis ag)) (cis ag))) (zmul (rl n) (rl (/ n)))); [|ring].
    rewrite (unit_opp Hb), cis_unit, Hi. ring.
  - unfold mixm. cbn [Nat.eqb]. rewrite <- Ea, Eb. replace (rl (cos th)) with (zmul (rl r) (rl (/ n))); [ring|].
    rewrite <- Ec. zz. f_equal; field; exact Hn0.
  - unfold mixm. cbn [Nat.eqb]. rewrite Eg. replace (rl (sin th)) with (zmul (rl s) (rl (/ n))).
    + transitivity (zmul (zmul (zmul (zopp b) (rl s)) (rl (/ n))) (zmul (zbar (cis ag)) (cis ag))); [rewrite cis_unit; ring|ring].
    + rewrite <- Es. zz. f_equal; field; exact Hn0.
Qed.

(** Two inputs can be brought together at the first output, with any phase. *)
Lemma focus b ze x rho : zmul (zbar b) b = z1 -> zmul (zbar ze) ze = z1 -> 0 <= rho ->
  exists al th ze', zmul (zbar ze') ze' = z1
   /\ zadd (zmul (mixm b al th 0 0) x) (zmul (mixm b al th 0 1) (zmul (rl rho) ze')) = zmul (rl (sqrt (nrm2 x + rho * rho))) ze
   /\ zadd (zmul (mixm b al th 1 0) x) (zmul (mixm b al th 1 1) (zmul (rl rho) ze')) = z0.
Proof.
  intros Hb Hz Hr. destruct (polar x) as (ax & Ex). set (r := sqrt (nrm2 x)) in *.
  assert (Hrr : r * r = nrm2 x) by (apply sqrt_sqrt, nrm2_pos).
  destruct (Req_EM_T (r * r + rho * rho) 0) as [E0|E0].
  - assert (r = 0) by nra. assert (rho = 0) by nra. exists 0, 0, z1. split; [rewrite (bar_1 RTheory); ring|].
    rewrite <- Hrr, E0, sqrt_0, Ex, H, H0. replace (rl 0) with z0 by reflexivity. split; ring.
  - destruct (two_squares E0) as (th & n & Hn0 & Hnn & Hpos & Ec & Es).
    destruct (@unit_cis (zmul ze (zbar (cis ax)))) as (al & Ea); [apply unit_mul; [exact Hz|apply unit_bar, cis_unit]|].
    exists al, th, (zopp (zmul ze (zbar b))).
    assert (Hsq : sqrt (nrm2 x + rho * rho) = n).
    { rewrite <- Hrr, <- Hnn. apply sqrt_square. exact Hpos. }
    split; [apply unit_opp, unit_mul; [exact Hz|now apply unit_bar]|].
    assert (Hopp : forall u, zopp u = zmul (rl (-1)) u) by (intros [u1 u2]; zz; f_equal; ring).
    unfold mixm. cbn [Nat.eqb]. rewrite Hsq, <- Ea, Ex, !Hopp.
    assert (Hm : zmul (rl (-1)) (rl (-1)) = z1) by (zz; f_equal; ring).
    split.
    + transitivity (zadd (zmul (zmul (zbar (cis ax)) (cis ax)) (zmul (zmul (rl (cos th)) (rl r)) ze))
        (zmul (zmul (zmul (rl (-1)) (rl (-1))) (zmul (zbar b) b)) (zmul (zmul (rl (sin th)) (rl rho)) ze))); [ring|].
      rewrite cis_unit, Hm, Hb. transitivity (zmul (zadd (zmul (rl (cos th)) (rl r)) (zmul (rl (sin th)) (rl rho))) ze); [ring|]. f_equal.
      zz. f_equal; [|ring]. rewrite !Rmult_0_l, !Rminus_0_r. rewrite <- Ec, <- Es in *. pose proof (sin2_cos2 th) as H. unfold Rsqr in H.
      transitivity (n * (sin th * sin th + cos th * cos th)); [ring|]. rewrite H. ring.
    + transitivity (zadd (zmul (zmul (zbar (cis ax)) (cis ax)) (zmul (zmul (rl (sin th)) (rl r)) ze))
        (zmul (zmul (rl (-1)) (zmul (zbar b) b)) (zmul (zmul (rl (cos th)) (rl rho)) ze))); [ring|].
      rewrite cis_unit, Hb. transitivity (zmul (zadd (zmul (rl (sin th)) (rl r)) (zmul (rl (-1)) (zmul (rl (cos th)) (rl rho)))) ze); [ring|].
      assert (E : zadd (zmul (rl (sin th)) (rl r)) (zmul (rl (-1)) (zmul (rl (cos th)) (rl rho))) = z0).
      { zz. rewrite <- Ec, <- Es. f_equal; ring. }
      rewrite E. ring.
Qed.
