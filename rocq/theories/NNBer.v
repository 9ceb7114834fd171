(** The bit error rate of streams. *)
From Coq Require Import QArith Lqa Reals Lra.
From Verif Require Import Base SimModel NNModel NNSpec NNProofs.
Set Implicit Arguments.
Unset Strict Implicit.
Local Open Scope nat_scope.

(** BER of expanded tensors. *)
Definition ber_target (g0 : tensor) : tensor :=
  {| t_len := t_len g0; t_w := t_w g0; t_d := t_d g0; t_b := t_b g0;
     t_val := fun i q => if normalized_above_0 g0 i q then 1%R else 0%R |}.
Definition ber_core (p g : tensor) (threshold : R) (s l w : Z) : res (option R) :=
  if (w <? 0)%Z then Err ValueError
  else if (w + s / 2 + l <? 0)%Z then Err ValueError
  else if (s <=? 0)%Z then Err ValueError
  else
    let g := sample (Z.to_nat (w + s / 2)) (Z.to_nat s) g in
    let p := sample (Z.to_nat (w + s / 2 + l)) (Z.to_nat s) p in
    let m := Nat.min (t_len g) (t_len p) in
    let g := take m g in
    let p := take m p in
    Ok (mean_of (map (fun e => if Bool.eqb (gtb (t_val p (fst e) (snd e)) threshold)
                                           (gtb (t_val g (fst e) (snd e)) 0) then 0%R else 1%R)
                     (entries p))).

Lemma ber_unfold : forall p g threshold latency W br sr, ber p g threshold latency W br sr =
  do pg <- broadcast p g;
  let rb := (rint br / Z.gcd (rint sr) (rint br))%Z in
  let sr' := (inject_Z rb * sr)%Q in
  do p <- stretch rb (fst pg);
  do g <- stretch rb (ber_target (snd pg));
  do s <- samples_of 1 sr' br;
  do l <- samples_of latency sr' br;
  do w <- samples_of (inject_Z (rint (inject_Z W))) sr' br;
  ber_core p g threshold s l w.
Proof.
  intros. unfold ber, ber_core, ber_target. destruct (broadcast p g) as [[P G]|]; reflexivity.
Qed.

Lemma sample_len : forall n s x, 1 <= s -> t_len (sample n s x) = ceil_div (t_len x - n) s.
Proof. intros n s x H. cbn. unfold ceil_div. f_equal. lia. Qed.

(** [rs] samples per bit after repeating every sample [rb] times; the prediction is read [e]
    samples after the start of the bit [D] bits later. *)
Lemma ber_core_val : forall L n rs rb nw nd nb p g thr l D W (pb gb : nat -> place -> bool),
  1 <= rb -> rb - 1 <= rs / 2 -> L = ceil_div (n * rs) rb ->
  (Z.of_nat (rb - 1) <= Z.of_nat (rs / 2) + l - D * Z.of_nat rs < Z.of_nat rs)%Z ->
  (0 <= W)%Z -> (0 <= W + D)%Z ->
  same_size (L * rb) nw nd nb p -> same_size (L * rb) nw nd nb g ->
  (forall i q, i < L * rb -> In q (all_places nw nd nb) ->
     gtb (t_val p i q) thr = pb (i / rb * rb / rs) q) ->
  (forall i q, i < L * rb -> In q (all_places nw nd nb) ->
     gtb (t_val g i q) 0 = gb (i / rb * rb / rs) q) ->
  ber_core p g thr (Z.of_nat rs) l (W * Z.of_nat rs) =
  Ok (average (fun e => if Bool.eqb (pb (Z.to_nat (Z.of_nat (fst e) + D)) (snd e)) (gb (fst e) (snd e))
                        then 0%R else 1%R)
    (list_prod (compared n (Z.to_nat W) D) (all_places nw nd nb))).
Proof.
  intros L n rs rb nw nd nb p g thr l D W pb gb Hb Hm EL He HW HD
    (E1 & E2 & E3 & E4) (F1 & F2 & F3 & F4) Hp Hg.
  assert (Hrs : 1 <= rs). { destruct rs; [|lia]. cbn [Z.of_nat] in He. lia. }
  assert (Wr : (W * Z.of_nat rs = Z.of_nat (Z.to_nat W * rs))%Z).
  { rewrite Nat2Z.inj_mul, Z2Nat.id by lia. reflexivity. }
  assert (WDr : (W * Z.of_nat rs + D * Z.of_nat rs = Z.of_nat (Z.to_nat (W + D) * rs))%Z).
  { rewrite Nat2Z.inj_mul, Z2Nat.id by lia. ring. }
  unfold ber_core.
  destruct (Z.ltb_spec (W * Z.of_nat rs) 0); [lia|].
  assert (Ediv : (Z.of_nat rs / 2)%Z = Z.of_nat (rs / 2)) by (rewrite Nat2Z.inj_div; reflexivity).
  rewrite Ediv.
  destruct (Z.ltb_spec (W * Z.of_nat rs + Z.of_nat (rs / 2) + l) 0); [lia|].
  destruct (Z.leb_spec (Z.of_nat rs) 0); [lia|].
  f_equal. rewrite mean_of_map. unfold compared, from_to. rewrite average_shift.
  unfold entries, places, all_places. rewrite Nat2Z.id.
  set (tg := Z.to_nat (W * Z.of_nat rs + Z.of_nat (rs / 2))).
  set (tp := Z.to_nat (W * Z.of_nat rs + Z.of_nat (rs / 2) + l)).
  assert (Htg : tg = Z.to_nat W * rs + rs / 2) by lia.
  set (e := Z.to_nat (Z.of_nat (rs / 2) + l - D * Z.of_nat rs)).
  assert (Htp : tp = Z.to_nat (W + D) * rs + e) by lia.
  assert (Ber : e < rs) by lia. assert (Bel : rb - 1 <= e) by lia.
  clearbody tg tp e. clear Wr WDr He Ediv.
  destruct (@ceil_bounds n rs rb Hb) as [B1 B2]. rewrite <- EL in B1, B2.
  assert (Hhalf : rs / 2 < rs) by (apply Nat.div_lt; lia).
  assert (Lg : t_len (sample tg rs g) = n - Z.to_nat W).
  { rewrite sample_len by exact Hrs. rewrite F1, Htg. apply nat_ext. intros k.
    rewrite ceil_lt by exact Hrs. split; intros Hk.
    - destruct (Nat.lt_ge_cases k (n - Z.to_nat W)) as [C|C]; [exact C|]. exfalso.
      assert (X : n * rs <= (Z.to_nat W + k) * rs) by (apply Nat.mul_le_mono_r; lia).
      rewrite Nat.mul_add_distr_r in X. lia.
    - assert (X : (Z.to_nat W + k + 1) * rs <= n * rs) by (apply Nat.mul_le_mono_r; lia).
      rewrite !Nat.mul_add_distr_r in X. lia. }
  assert (Lp : t_len (sample tp rs p) = n - Z.to_nat (W + D)).
  { rewrite sample_len by exact Hrs. rewrite E1, Htp. apply nat_ext. intros k.
    rewrite ceil_lt by exact Hrs. split; intros Hk.
    - destruct (Nat.lt_ge_cases k (n - Z.to_nat (W + D))) as [C|C]; [exact C|]. exfalso.
      assert (X : n * rs <= (Z.to_nat (W + D) + k) * rs) by (apply Nat.mul_le_mono_r; lia).
      rewrite Nat.mul_add_distr_r in X. lia.
    - assert (X : (Z.to_nat (W + D) + k + 1) * rs <= n * rs) by (apply Nat.mul_le_mono_r; lia).
      rewrite !Nat.mul_add_distr_r in X. lia. }
  change (t_len (take (Nat.min (t_len (sample tg rs g)) (t_len (sample tp rs p))) (sample tp rs p)))
    with (Nat.min (Nat.min (t_len (sample tg rs g)) (t_len (sample tp rs p))) (t_len (sample tp rs p))).
  rewrite Lg, Lp. cbn [take sample t_w t_d t_b t_val]. rewrite E2, E3, E4, !from_to_0.
  replace (Nat.min (Nat.min (n - Z.to_nat W) (n - Z.to_nat (W + D))) (n - Z.to_nat (W + D)))
    with (Nat.min n (Z.to_nat (Z.of_nat n - D)) - Z.to_nat W) by (clear - HW HD; lia).
  apply average_ext. intros [i q] Hin. apply in_prod_iff in Hin. destruct Hin as [Hi Hq].
  apply in_seq in Hi. cbn [fst snd].
  assert (Hq' : In q (all_places nw nd nb)).
  { unfold all_places. rewrite !from_to_0. exact Hq. }
  assert (X1 : (Z.to_nat (W + D) + i + 1) * rs <= n * rs) by (apply Nat.mul_le_mono_r; lia).
  assert (X2 : (Z.to_nat W + i + 1) * rs <= n * rs) by (apply Nat.mul_le_mono_r; lia).
  rewrite !Nat.mul_add_distr_r in X1, X2.
  rewrite Hp, Hg by (first [exact Hq' | lia]).
  replace (tp + i * rs) with ((Z.to_nat (W + D) + i) * rs + e)
    by (rewrite Nat.mul_add_distr_r; clear - Htp; lia).
  replace (tg + i * rs) with ((Z.to_nat W + i) * rs + rs / 2)
    by (rewrite Nat.mul_add_distr_r; clear - Htg; lia).
  rewrite !pick by lia.
  replace (Z.to_nat (Z.of_nat (Z.to_nat W + i) + D)) with (Z.to_nat (W + D) + i)
    by (clear - HW HD; lia).
  reflexivity.
Qed.

(** Every bit has a sample, if there are as many samples as bits. *)
Lemma bit_sampled : forall n b s i, 1 <= b -> b <= s -> i < n ->
  exists k, k < ceil_div (n * s) b /\ k * b / s = i.
Proof.
  intros n b s i Hb Hs Hi. exists (ceil_div (i * s) b).
  destruct (@ceil_bounds i s b Hb) as [A B]. split.
  - apply ceil_lt; [exact Hb|]. assert (X : (i + 1) * s <= n * s) by (apply Nat.mul_le_mono_r; lia).
    rewrite Nat.mul_add_distr_r in X. lia.
  - symmetry. apply Nat.div_unique with (r := ceil_div (i * s) b * b - i * s); nia.
Qed.

Lemma rint_over : forall x rb s b rs g, (0 < g)%Z -> (0 < rb)%Z -> s = (rs * g)%Z -> b = (rb * g)%Z ->
  rint (inject_Z x * (inject_Z rb * inject_Z s) / inject_Z b) = rint (inject_Z (x * rs)).
Proof.
  intros x rb s b rs g Hg Hb -> ->. apply rint_comp. rewrite !inject_Z_mult. field.
  split; intros E; [change 0%Q with (inject_Z 0) in E; rewrite inject_Z_injective in E; lia|
                    change 0%Q with (inject_Z 0) in E; rewrite inject_Z_injective in E; lia].
Qed.

Lemma inject_ne : forall b, 1 <= b -> ~ (inject_Z (Z.of_nat b) == 0)%Q.
Proof.
  intros b H E. change 0%Q with (inject_Z 0) in E. rewrite inject_Z_injective in E. lia.
Qed.

Lemma ber_value : forall n b s nw nd nb pv gv thr D W (pb gb : nat -> place -> bool) (hi lo : place -> R),
  1 <= b -> 2 * b <= s -> 1 <= nw -> 1 <= nd -> 1 <= nb ->
  (forall k w d c, k < ceil_div (n * s) b -> In (w, d, c) (all_places nw nd nb) ->
     ((thr < pv k w d c)%R <-> pb (k * b / s) (w, d, c) = true)) ->
  (forall k w d c, k < ceil_div (n * s) b -> In (w, d, c) (all_places nw nd nb) ->
     gv k w d c = if gb (k * b / s) (w, d, c) then hi (w, d, c) else lo (w, d, c)) ->
  (forall q, In q (all_places nw nd nb) -> (lo q < hi q)%R) ->
  (forall q, In q (all_places nw nd nb) -> exists i j, i < n /\ j < n /\ gb i q = true /\ gb j q = false) ->
  (0 <= W)%Z -> (0 <= W + D)%Z -> ((0 <= D)%Z \/ 2 * b < s) ->
  ber (Dim4 (ceil_div (n * s) b) nw nd nb pv) (Dim4 (ceil_div (n * s) b) nw nd nb gv) thr
      (inject_Z D) W (inject_Z (Z.of_nat b)) (inject_Z (Z.of_nat s)) =
  Ok (average (fun e => if Bool.eqb (pb (Z.to_nat (Z.of_nat (fst e) + D)) (snd e)) (gb (fst e) (snd e))
                        then 0%R else 1%R)
    (list_prod (compared n (Z.to_nat W) D) (all_places nw nd nb))).
Proof.
  intros n b s nw nd nb pv gv thr D W pb gb hi lo Hb Hs Hw Hd Hc Hpv Hgv Hlh Hnc HW HWD HD.
  set (N := ceil_div (n * s) b) in *.
  rewrite ber_unfold, broadcast_same. cbn [bind fst snd]. rewrite !rint_Z by lia.
  destruct (@gcd_split (Z.of_nat s) (Z.of_nat b) ltac:(lia) ltac:(lia))
    as (g & rs & rb & Eg & Pg & Prs & Prb & Es & Eb & Ds & Db).
  cbv zeta. rewrite Eg, Db.
  match goal with |- (do p <- stretch _ ?P; do g <- stretch _ (ber_target ?G); _) = _ =>
    set (P0 := P); set (G0 := G) end.
  assert (VP : forall k q, k < N -> In q (all_places nw nd nb) ->
    t_val P0 k q = pv k (fst (fst q)) (snd (fst q)) (snd q)).
  { intros k [[w d] c] Hk Hq. apply in_places in Hq. cbn in Hq. destruct Hq as (Q1 & Q2 & Q3).
    unfold P0. cbn [expand t_val t_len t_w t_d t_b fst snd]. rewrite !bindex_lt by lia. reflexivity. }
  assert (VG : forall k q, k < N -> In q (all_places nw nd nb) ->
    t_val G0 k q = gv k (fst (fst q)) (snd (fst q)) (snd q)).
  { intros k [[w d] c] Hk Hq. apply in_places in Hq. cbn in Hq. destruct Hq as (Q1 & Q2 & Q3).
    unfold G0. cbn [expand t_val t_len t_w t_d t_b fst snd]. rewrite !bindex_lt by lia. reflexivity. }
  assert (SP : same_size N nw nd nb P0) by (repeat split).
  assert (SG : same_size N nw nd nb G0) by (repeat split).
  clearbody P0 G0.
  assert (St : forall x, same_size N nw nd nb x -> stretch rb x =
    Ok {| t_len := N * Z.to_nat rb; t_w := nw; t_d := nd; t_b := nb;
          t_val := fun i q => t_val x (i / Z.to_nat rb) q |}).
  { intros x (X1 & X2 & X3 & X4). unfold stretch. destruct (Z.leb_spec rb 0); [lia|].
    rewrite X1, X2, X3, X4. destruct (Nat.eqb_spec (nw * nd * nb) 0); [nia|]. reflexivity. }
  rewrite (St P0 SP). cbn [bind].
  assert (SG' : same_size N nw nd nb (ber_target G0)).
  { destruct SG as (X1 & X2 & X3 & X4). repeat split; assumption. }
  rewrite (St _ SG'). cbn [bind].
  rewrite !samples_of_ok by (apply inject_ne; exact Hb). cbn [bind].
  change 1%Q with (inject_Z 1).
  rewrite !(@rint_over _ rb (Z.of_nat s) (Z.of_nat b) rs g Pg Prb Es Eb).
  rewrite (@rint_Z (1 * rs)) by lia. rewrite (@rint_Z (W * rs)) by nia.
  rewrite Z.mul_1_l.
  assert (Ns : s = Z.to_nat rs * Z.to_nat g) by nia.
  assert (Nb : b = Z.to_nat rb * Z.to_nat g) by nia.
  assert (R2 : 2 * Z.to_nat rb <= Z.to_nat rs) by nia.
  assert (Half : Z.to_nat rb <= Z.to_nat rs / 2) by (apply Nat.div_le_lower_bound; lia).
  assert (Half' : Z.to_nat rs / 2 < Z.to_nat rs) by (apply Nat.div_lt; lia).
  replace rs with (Z.of_nat (Z.to_nat rs)) by lia.
  apply ber_core_val with (L := N) (rb := Z.to_nat rb).
  - lia.
  - lia.
  - unfold N. rewrite Ns at 1. rewrite Nb. apply ceil_scale; lia.
  - rewrite Z2Nat.id by lia.
    assert (Rd : (rint (inject_Z (D * rs)) = D * rs \/
                  rint (inject_Z (D * rs)) = D * rs + 1 /\ (Z.to_nat rs / 2 + 1 < Z.to_nat rs)%nat)%Z).
    { destruct (Z.lt_ge_cases D 0) as [L|L].
      - right. split; [apply rint_neg_Z; nia|].
        assert (L2 : 2 * b < s) by (destruct HD; [lia|assumption]).
        assert (L3 : 3 <= Z.to_nat rs) by nia.
        pose proof (Nat.div_mod (Z.to_nat rs) 2 ltac:(lia)).
        pose proof (Nat.mod_upper_bound (Z.to_nat rs) 2 ltac:(lia)). lia.
      - left. apply rint_Z. nia. }
    clear - Rd Half Half' Prs Prb.
    destruct Rd as [->|[-> Rd]]; lia.
  - exact HW.
  - exact HWD.
  - repeat split.
  - repeat split.
  - intros i q Hi Hq. cbn [t_val].
    assert (Hk : i / Z.to_nat rb < N) by (apply Nat.div_lt_upper_bound; lia).
    rewrite VP by assumption. destruct q as [[w d] c]. cbn [fst snd].
    apply Bool.eq_true_iff_eq. rewrite gtb_true, (Hpv _ w d c Hk Hq).
    rewrite Ns, Nb. rewrite div_scale by lia. reflexivity.
  - intros i q Hi Hq. cbn [t_val ber_target].
    assert (Hk : i / Z.to_nat rb < N) by (apply Nat.div_lt_upper_bound; lia).
    set (k := i / Z.to_nat rb) in *.
    destruct (Hnc q Hq) as (i1 & i2 & H1 & H2 & G1 & G2).
    destruct (@bit_sampled n b s i1 Hb ltac:(lia) H1) as (k1 & K1 & T1).
    destruct (@bit_sampled n b s i2 Hb ltac:(lia) H2) as (k2 & K2 & T2).
    fold N in K1, K2.
    assert (V : forall j, j < N -> t_val G0 j q = if gb (j * b / s) q then hi q else lo q).
    { intros j Hj. rewrite VG by assumption. destruct q as [[w d] c]. apply Hgv; assumption. }
    pose proof (Hlh q Hq) as LH.
    destruct (@mean_between nat (fun j => t_val G0 j q) (seq 0 N) (lo q) (hi q)) as (m & Em & Lm & Um).
    + intros j Hj. apply in_seq in Hj. rewrite V by lia. destruct (gb (j * b / s) q); split; lra.
    + exists k2. split; [apply in_seq; lia|]. rewrite V, T2, G2 by assumption. exact LH.
    + exists k1. split; [apply in_seq; lia|]. rewrite V, T1, G1 by assumption. exact LH.
    + destruct SG as (X1 & X2 & X3 & X4).
      destruct (@std_some G0) as (sd & Esd).
      { unfold entries. rewrite prod_length, seq_length, X1.
        assert (Hne : k1 <> k2). { intros ->. rewrite T1 in T2. subst i2. congruence. }
        assert (Hp : 1 <= length (places G0)).
        { unfold places, place. rewrite !prod_length, !seq_length, X2, X3, X4. nia. }
        nia. }
      assert (Cm : column_mean G0 q = Some m).
      { unfold column_mean. rewrite mean_of_map, X1. exact Em. }
      rewrite (@normalized _ k q _ _ Cm Esd).
      replace (k * Z.to_nat rb / Z.to_nat rs) with (k * b / s)
        by (rewrite Ns, Nb; apply div_scale; lia).
      rewrite V by exact Hk. destruct (gb (k * b / s) q).
      * replace (gtb (hi q) m) with true by (symmetry; apply gtb_true; exact Um).
        apply gtb_true. lra.
      * destruct (gtb (lo q) m) eqn:E; [apply gtb_true in E; lra|].
        destruct (gtb 0 0) eqn:E0; [apply gtb_true in E0; lra|reflexivity].
Qed.
