(** MMIs, waveguides in series, bounded parameters, circuits of built-in components. *)
From Coq Require Import QArith Reals Qreals Lra Lia Psatz.
From Verif Require Import Base NetModel NetSpec NetProofs WireProofs OrderProofs NetBuild SimModel SimAlg SimSpec CircuitSpec CircuitProofs EnergyNet CompModel CompSpec CompProofs.
Set Implicit Arguments.
Unset Strict Implicit.
Local Open Scope R_scope.
Local Open Scope list_scope.
Local Open Scope nat_scope.

Lemma RcR : ring_theory (0, 0)%R (1, 0)%R rcadd rcmul (csub Rminus) (copp Ropp) (@eq (R * R)).
Proof. exact (cx_ring RTheory). Qed.
Add Ring Rcx : RcR.

(** ** MMI *)
Lemma seq_split m n : seq 0 (m + n) = seq 0 m ++ map (fun j => m + j) (seq 0 n).
Proof.
  rewrite seq_app. f_equal. rewrite Nat.add_0_l. revert m. induction n as [|n IH]; intros m; [reflexivity|].
  cbn [seq map]. rewrite Nat.add_0_r. f_equal. rewrite (IH (S m)), <- seq_shift, map_map. apply map_ext. intros; lia.
Qed.

Lemma rpower_split m n x : (rpower (m + n) x = rpower m x + rpower n (fun j => x (m + j)%nat))%R.
Proof. unfold power_all. rewrite seq_split, (lsum_app RTheory), lsum_map. reflexivity. Qed.

Lemma mmi_scatter m n W w x :
  (forall i, i < m -> rscatter (mmi m n W) w x i = apply_mat n W (fun j => x (m + j)) i) /\
  (forall j, j < n -> rscatter (mmi m n W) w x (m + j) = apply_mat m (transposed W) x j).
Proof.
  unfold scatter, apply_mat, mmi, simple, component, transposed. cbn [b_np b_S]. split; intros i Hi; rewrite seq_split, (lsum_app RcR), lsum_map.
  - match goal with |- rcadd ?s _ = _ => assert (Z : s = (0, 0)%R) end.
    { apply (lsum_0 RcR). intros j Hj. apply in_seq in Hj. destruct (Nat.ltb_spec i m), (Nat.leb_spec m j), (Nat.leb_spec m i); cbn [andb]; try lia. ring. }
    rewrite Z. transitivity (lsum (0, 0)%R rcadd (fun j => rcmul (W i j) (x (m + j))) (seq 0 n)); [|reflexivity].
    match goal with |- rcadd _ ?s = _ => transitivity s; [ring|] end.
    apply (lsum_ext (K := (R * R)%type) (0, 0)%R rcadd). intros j Hj.
    destruct (Nat.ltb_spec i m), (Nat.leb_spec m (m + j)); cbn [andb]; try lia. do 2 f_equal. lia.
  - match goal with |- rcadd _ ?s = _ => assert (Z : s = (0, 0)%R) end.
    { apply (lsum_0 RcR). intros j Hj. destruct (Nat.ltb_spec (m + i) m), (Nat.ltb_spec (m + j) m), (Nat.leb_spec m (m + i)); cbn [andb]; try lia. ring. }
    rewrite Z. match goal with |- rcadd ?s _ = _ => transitivity s; [ring|] end.
    apply (lsum_ext (K := (R * R)%type) (0, 0)%R rcadd). intros j Hj. apply in_seq in Hj.
    destruct (Nat.ltb_spec (m + i) m), (Nat.leb_spec m (m + i)), (Nat.ltb_spec j m); cbn [andb]; try lia. do 2 f_equal. lia.
Qed.

Lemma rpower_ext n x y : (forall i, i < n -> x i = y i) -> rpower n x = rpower n y.
Proof. intros H. apply (lsum_ext (K := R) 0%R Rplus). intros i Hi. apply in_seq in Hi. rewrite H; [reflexivity|lia]. Qed.

Lemma apply_ext n W x y i : (forall j, j < n -> x j = y j) -> apply_mat n W x i = apply_mat n W y i.
Proof. intros H. apply (lsum_ext (K := (R * R)%type) (0, 0)%R rcadd). intros j Hj. apply in_seq in Hj. rewrite H; [reflexivity|lia]. Qed.

Lemma mmi_power m n W w x : (rpower (m + n) (rscatter (mmi m n W) w x)
  = rpower m (apply_mat n W (fun j => x (m + j)%nat)) + rpower n (apply_mat m (transposed W) x))%R.
Proof.
  rewrite rpower_split. destruct (mmi_scatter m n W w x) as [H1 H2]. f_equal; apply rpower_ext; auto.
Qed.

Definition joined (m : nat) (x y : nat -> R * R) (i : nat) : R * R := if i <? m then x i else y (i - m).
Lemma joined_l m x y i : i < m -> joined m x y i = x i.
Proof. intros H. unfold joined. destruct (Nat.ltb_spec i m); [reflexivity|lia]. Qed.
Lemma joined_r m x y i : joined m x y (m + i) = y i.
Proof. unfold joined. destruct (Nat.ltb_spec (m + i) m); [lia|]. f_equal. lia. Qed.

Lemma joined_power m n W w x y :
  (rpower (m + n) (rscatter (mmi m n W) w (joined m x y)) = rpower m (apply_mat n W y) + rpower n (apply_mat m (transposed W) x) /\
   rpower (m + n) (joined m x y) = rpower m x + rpower n y)%R.
Proof.
  rewrite mmi_power, rpower_split. split; f_equal; apply rpower_ext; intros i Hi.
  - apply apply_ext. intros; apply joined_r.
  - apply apply_ext. intros; apply joined_l; assumption.
  - apply joined_l; assumption.
  - apply joined_r.
Qed.

Lemma rpower_0 n x : (forall i, i < n -> x i = (0, 0)%R) -> rpower n x = 0%R.
Proof. intros H. apply (lsum_0 RTheory). intros i Hi. apply in_seq in Hi. rewrite H by lia. unfold norm2. cbn. ring. Qed.
Lemma apply_0 n W i : apply_mat n W (fun _ => (0, 0)%R) i = (0, 0)%R.
Proof. apply (lsum_0 RcR). intros. ring. Qed.

(** *** A matrix is a contraction iff its transpose is *)
Definition conj (z : R * R) : R * R := (fst z, - snd z)%R.
Lemma conj_norm z : norm2 Rplus Rmult (conj z) = norm2 Rplus Rmult z.
Proof. unfold norm2, conj. cbn. ring. Qed.

Lemma contraction_transposed m n W : contraction m n W -> contraction n m (transposed W).
Proof.
  intros H y. set (v := fun j => conj (apply_mat m (transposed W) y j)). set (u := apply_mat n W v).
  specialize (H v). fold u in H.
  assert (Ev : rpower n v = rpower n (apply_mat m (transposed W) y)).
  { unfold power_all, v. apply (lsum_ext (K := R) 0%R Rplus). intros. apply conj_norm. }
  rewrite <- Ev in *.
  assert (Es : fst (lsum (0, 0)%R rcadd (fun i => rcmul (y i) (u i)) (seq 0 m)) = rpower n v).
  { transitivity (fst (lsum (0, 0)%R rcadd (fun j => rcmul (apply_mat m (transposed W) y j) (v j)) (seq 0 n))).
    - f_equal. unfold u, apply_mat.
      transitivity (lsum (0, 0)%R rcadd (fun i => lsum (0, 0)%R rcadd (fun j => rcmul (y i) (rcmul (W i j) (v j))) (seq 0 n)) (seq 0 m)).
      { apply (lsum_ext (K := (R * R)%type) (0, 0)%R rcadd). intros i _. symmetry. apply (lsum_mul RcR (y i) (fun j => rcmul (W i j) (v j))). }
      rewrite (lsum_swap RcR). apply (lsum_ext (K := (R * R)%type) (0, 0)%R rcadd). intros j _.
      transitivity (lsum (0, 0)%R rcadd (fun i => rcmul (rcmul (transposed W j i) (y i)) (v j)) (seq 0 m)).
      { apply (lsum_ext (K := (R * R)%type) (0, 0)%R rcadd). intros i _. unfold transposed. ring. }
      apply (lsum_mul_r RcR (v j) (fun i => rcmul (transposed W j i) (y i))).
    - etransitivity; [exact (fst_csum 0%R Rplus _ _)|]. unfold power_all. apply (lsum_ext (K := R) 0%R Rplus). intros j _.
      unfold v, conj, norm2, cmul. cbn [fst snd]. ring. }
  assert (P : (0 <= rpower m (fun i => csub Rminus (conj (y i)) (u i)))%R) by apply rpower_nonneg.
  assert (E : (rpower m (fun i => csub Rminus (conj (y i)) (u i)) = rpower m y + rpower m u - 2 * rpower n v)%R).
  { rewrite <- Es. change (0, 0)%R with (c0 0%R). rewrite fst_csum. unfold power_all. rewrite <- (lsum_mul RTheory 2%R), <- (lsum_add RTheory), <- (lsum_sub RTheory).
    apply (lsum_ext (K := R) 0%R Rplus). intros i _. unfold norm2, csub, conj, cmul. cbn [fst snd]. ring. }
  lra.
Qed.

Lemma mmi_passive m n W w : passive (mmi m n W) w <-> contraction m n W.
Proof.
  split.
  - intros H y. specialize (H (joined m (fun _ => (0, 0)%R) y)). unfold mmi, simple, component in H. cbn [b_np] in H.
    fold (simple (m + n)) in H. destruct (joined_power m n W w (fun _ => (0, 0)%R) y) as [E1 E2].
    unfold mmi, simple, component in E1. rewrite E1, E2 in H.
    rewrite (rpower_0 (n := m) (x := fun _ => (0, 0)%R)) in H by reflexivity.
    rewrite (rpower_0 (n := n) (x := apply_mat m (transposed W) (fun _ => (0, 0)%R))) in H by (intros; apply apply_0). lra.
  - intros H x. assert (HT := contraction_transposed H). change (b_np (mmi m n W)) with (m + n). rewrite mmi_power, rpower_split.
    specialize (H (fun j => x (m + j))). specialize (HT x). lra.
Qed.

Lemma mmi_lossless m n W w : lossless 0%R Rplus Rmult Rminus (mmi m n W) w <-> isometry m n W /\ isometry n m (transposed W).
Proof.
  split.
  - intros H. split; intros y.
    + specialize (H (joined m (fun _ => (0, 0)%R) y)). change (b_np (mmi m n W)) with (m + n) in H.
      destruct (joined_power m n W w (fun _ => (0, 0)%R) y) as [E1 E2]. rewrite E1, E2 in H.
      rewrite (rpower_0 (n := m) (x := fun _ => (0, 0)%R)) in H by reflexivity.
      rewrite (rpower_0 (n := n) (x := apply_mat m (transposed W) (fun _ => (0, 0)%R))) in H by (intros; apply apply_0). lra.
    + specialize (H (joined m y (fun _ => (0, 0)%R))). change (b_np (mmi m n W)) with (m + n) in H.
      destruct (joined_power m n W w y (fun _ => (0, 0)%R)) as [E1 E2]. rewrite E1, E2 in H.
      rewrite (rpower_0 (n := n) (x := fun _ => (0, 0)%R)) in H by reflexivity.
      rewrite (rpower_0 (n := m) (x := apply_mat n W (fun _ => (0, 0)%R))) in H by (intros; apply apply_0). lra.
  - intros [H HT] x. change (b_np (mmi m n W)) with (m + n). rewrite mmi_power, rpower_split, H, HT. lra.
Qed.

(** ** Waveguides in series *)
Section Wg.
Variable c : Q.
Variable wl : nat -> R.

Definition same_kind (g1 g2 : guide) : Prop :=
  g_ng g1 = g_ng g2 /\ g_neff g1 = g_neff g2 /\ g_wl0 g1 = g_wl0 g2 /\ g_loss g1 = g_loss g2.
Definition longer (g1 g2 : guide) : guide :=
  {| g_length := (g_length g1 + g_length g2)%Q; g_ng := g_ng g1; g_neff := g_neff g1; g_wl0 := g_wl0 g1; g_loss := g_loss g1 |}.

Lemma waveguide_chain g1 g2 ph1 ph2 w i j : same_kind g1 g2 -> i <> j -> i < 2 -> j < 2 ->
  rcmul (b_S (waveguide c wl g1 ph1) i j w) (b_S (waveguide c wl g2 ph2) i j w)
  = b_S (waveguide c wl (longer g1 g2) (ph1 + ph2)%R) i j w.
Proof.
  intros (E1 & E2 & E3 & E4) N Li Lj.
  destruct (waveguide_S c wl g1 ph1 w) as (_ & _ & A1 & A2). destruct (waveguide_S c wl g2 ph2 w) as (_ & _ & B1 & B2).
  destruct (waveguide_S c wl (longer g1 g2) (ph1 + ph2) w) as (_ & _ & C1 & C2).
  assert (E : rcmul (polar (guide_amp g1) (pure_phase wl g1 w + ph1)) (polar (guide_amp g2) (pure_phase wl g2 w + ph2))
    = polar (guide_amp (longer g1 g2)) (pure_phase wl (longer g1 g2) w + (ph1 + ph2))).
  { rewrite polar_mul. f_equal.
    - unfold guide_amp. rewrite <- Rpower_plus. f_equal. unfold longer. cbn [g_loss g_length]. rewrite <- E4, Q2R_plus. field.
    - unfold pure_phase, guide_neff, longer. cbn [g_ng g_neff g_wl0 g_length]. rewrite <- E1, <- E2, <- E3, Q2R_plus. unfold Rdiv. ring. }
  ports i; ports j; try lia; rewrite ?A1, ?A2, ?B1, ?B2, ?C1, ?C2; exact E.
Qed.

Lemma waveguide_delays g1 g2 : same_kind g1 g2 ->
  (guide_delay c (longer g1 g2) == guide_delay c g1 + guide_delay c g2)%Q.
Proof. intros (E1 & _). unfold guide_delay, longer. cbn [g_ng g_length]. rewrite <- E1. unfold Qdiv. ring. Qed.

(** Waves through two waveguides: [a] enters, [o] leaves; ports 0, 1 of the first, 2, 3 of the second. *)
Lemma waveguide_series g1 g2 ph1 ph2 w (a o : nat -> R * R) : same_kind g1 g2 ->
  (forall i, i < 2 -> o i = rscatter (waveguide c wl g1 ph1) w a i) ->
  (forall i, i < 2 -> o (2 + i) = rscatter (waveguide c wl g2 ph2) w (fun i => a (2 + i)) i) ->
  a 1 = o 2 -> a 2 = o 1 ->
  let x := fun i => a (if i =? 0 then 0 else 3) in
  o 0 = rscatter (waveguide c wl (longer g1 g2) (ph1 + ph2)%R) w x 0 /\
  o 3 = rscatter (waveguide c wl (longer g1 g2) (ph1 + ph2)%R) w x 1.
Proof.
  intros K H1 H2 E1 E2.
  pose proof (waveguide_chain (i := 0) (j := 1) ph1 ph2 w K ltac:(lia) ltac:(lia) ltac:(lia)) as C1.
  pose proof (waveguide_chain (i := 1) (j := 0) ph1 ph2 w K ltac:(lia) ltac:(lia) ltac:(lia)) as C2.
  destruct (waveguide_S c wl g1 ph1 w) as (A0 & A1 & A2 & A3). destruct (waveguide_S c wl g2 ph2 w) as (B0 & B1 & B2 & B3).
  destruct (waveguide_S c wl (longer g1 g2) (ph1 + ph2) w) as (D0 & D1 & D2 & D3).
  pose proof (H1 0 ltac:(lia)) as I0. pose proof (H1 1 ltac:(lia)) as I1.
  pose proof (H2 0 ltac:(lia)) as I2. pose proof (H2 1 ltac:(lia)) as I3. clear H1 H2.
  assert (Sc : forall g ph y, rscatter (waveguide c wl g ph) w y 0 = rcmul (b_S (waveguide c wl g ph) 0 1 w) (y 1)
                          /\ rscatter (waveguide c wl g ph) w y 1 = rcmul (b_S (waveguide c wl g ph) 1 0 w) (y 0)).
  { intros g ph y. unfold scatter. change (b_np (waveguide c wl g ph)) with 2. cbn [seq]. rewrite !lsum_cons, !lsum_nil.
    destruct (waveguide_S c wl g ph w) as (-> & -> & _ & _). unfold c0. split; ring. }
  rewrite (proj1 (Sc g1 ph1 a)) in I0. rewrite (proj2 (Sc g1 ph1 a)) in I1.
  rewrite (proj1 (Sc g2 ph2 (fun i => a (2 + i)))) in I2. rewrite (proj2 (Sc g2 ph2 (fun i => a (2 + i)))) in I3.
  cbn [Nat.add] in I2, I3. cbv zeta. rewrite (proj1 (Sc (longer g1 g2) (ph1 + ph2)%R _)), (proj2 (Sc (longer g1 g2) (ph1 + ph2)%R _)).
  cbn [Nat.eqb]. rewrite <- C1, <- C2, I0, I3, E1, E2, I1, I2. split; ring.
Qed.

(** ** Circuits of built-in components *)
Lemma builtin_passive b w : builtin c wl b -> passive b w.
Proof.
  intros [ |g ph H|Rf H|Tmax bw wl0 H|k H|g ph k H Hk|p|m n W H|g phi theta].
  - apply (keeps_passive (g := 1)); [lra|apply connection_keeps].
  - eapply keeps_passive; [|apply waveguide_keeps]. apply loss_le1, H.
  - apply (keeps_passive (g := 1)); [lra|apply mirror_keeps, H].
  - eapply keeps_passive; [|apply grating_keeps]. pose proof (grating_le bw wl0 (wl w) (proj1 H)). lra.
  - apply (keeps_passive (g := 1)); [lra|apply coupler_keeps, H].
  - eapply keeps_passive; [|apply length_keeps, Hk]. apply loss_le1, H.
  - apply (keeps_passive (g := 1)); [lra|apply realistic_keeps].
  - apply mmi_passive, H.
  - apply (keeps_passive (g := 1)); [lra|apply mzi_keeps].
Qed.

Lemma ideal_lossless b w : ideal c wl b -> lossless 0%R Rplus Rmult Rminus b w.
Proof.
  intros [ |g ph H|Rf H|k H|g ph k H Hk|p|m n W H HT|g phi theta]; try apply keeps_lossless.
  - apply connection_keeps.
  - rewrite <- (no_loss H). apply waveguide_keeps.
  - apply mirror_keeps, H.
  - apply coupler_keeps, H.
  - rewrite <- (no_loss H). apply length_keeps, Hk.
  - apply realistic_keeps.
  - intros x. rewrite (proj2 (mmi_lossless m n W w) (Logic.conj H HT) x). ring.
  - apply mzi_keeps.
Qed.
Lemma ideal_builtin b : ideal c wl b -> builtin c wl b.
Proof. intros []; constructor; auto; try (rewrite H; lra). intros x. rewrite H. lra. Qed.
Lemma ending_unmixed b e w : ending b -> unmixed 0%R e b w.
Proof. intros [] i j _ _ _; reflexivity. Qed.
Lemma builtin_unmixed b e w : builtin c wl b -> unmixed 0%R e b w.
Proof. intros H. destruct (builtin_delay H) as [d Hd]. eapply delay_unmixed; [eapply builtin_plain; eauto|exact Hd]. Qed.
Lemma builtin_uniform b e w : builtin c wl b -> uniform 0%R e b w.
Proof. intros H. destruct (builtin_delay H) as [d Hd]. eapply delay_uniform; [eapply builtin_plain; eauto|exact Hd]. Qed.
End Wg.

(** ** Bounded parameters *)
Lemma sigmoid_range x : (0 <= sigmoid x <= 1)%R.
Proof.
  destruct x as [x| |]; cbn; [|lra|lra]. pose proof (exp_pos (- x)) as E.
  split; [left; apply Rinv_0_lt_compat; lra|]. apply (Rle_trans _ (/ 1)); [apply Rinv_le_contravar; lra|rewrite Rinv_1; lra].
Qed.

Lemma bounded_value_range a b x : (a <= b -> a <= bounded_value a b x <= b)%R.
Proof. intros H. unfold bounded_value. destruct (sigmoid_range x). split; nra. Qed.

Lemma bounded_roundtrip a b d : (a < b -> a <= d <= b -> bounded_value a b (inverse_sigmoid a b d) = d)%R.
Proof.
  intros H [Ha Hb]. unfold bounded_value, inverse_sigmoid.
  destruct (Req_EM_T ((d - a) / (b - a)) 0) as [E|E].
  - cbn. assert (d - a = 0)%R; [|lra]. apply (f_equal (fun x => x * (b - a))%R) in E. replace ((d - a) / (b - a) * (b - a))%R with (d - a)%R in E by (field; lra). lra.
  - set (s := ((d - a) / (b - a))%R) in *. assert (Es : (s * (b - a) = d - a)%R) by (unfold s; field; lra).
    assert (s <= 1)%R by nra. assert (0 <= s)%R by nra.
    destruct (Req_EM_T (1 / s - 1) 0) as [F|F].
    + cbn. assert (s = 1)%R; [|nra]. apply (f_equal (fun x => x * s)%R) in F. replace ((1 / s - 1) * s)%R with (1 - s)%R in F by (field; auto). lra.
    + cbn [sigmoid]. rewrite Ropp_involutive.
      assert (0 < 1 / s - 1)%R.
      { assert (s <> 1)%R by (intros ->; apply F; field). assert (s * (1 / s - 1) = 1 - s)%R by (field; auto).
        destruct (Rtotal_order (1 / s - 1) 0) as [L|[L|L]]; [exfalso; nra|contradiction|assumption]. }
      rewrite exp_ln by assumption. replace (1 + (1 / s - 1))%R with (/ s)%R by (field; auto). rewrite Rinv_inv. lra.
Qed.

Definition in_bounds (a b : R) (data : list R) : Prop := Forall (fun d => a <= d <= b)%R data.

Lemma existsb_dec_false {A} (P : A -> Prop) (D : forall x, {P x} + {~ P x}) l :
  existsb (fun x => if D x then true else false) l = false <-> Forall (fun x => ~ P x) l.
Proof.
  induction l as [|x l IH]; cbn; [split; auto|]. rewrite orb_false_iff, IH. destruct (D x); split.
  - intros [E _]. discriminate.
  - intros F. inversion F; subst. contradiction.
  - intros [_ F]. constructor; auto.
  - intros F. inversion F; subst. auto.
Qed.

Lemma bounded_new_ok data a b : (exists p, bounded_new data a b = Ok p) <-> (a < b)%R /\ in_bounds a b data.
Proof.
  unfold bounded_new, in_bounds. destruct (Rle_dec b a) as [L|L].
  - split; [intros [p E]; discriminate|intros [H _]; lra].
  - assert (E : existsb (fun d => if Rlt_dec d a then true else false) data || existsb (fun d => if Rlt_dec b d then true else false) data = false
      <-> Forall (fun d => a <= d <= b)%R data).
    { rewrite orb_false_iff, (existsb_dec_false (fun d => Rlt_dec d a)), (existsb_dec_false (fun d => Rlt_dec b d)), !Forall_forall.
      split; [intros [H1 H2] x Hx; specialize (H1 x Hx); specialize (H2 x Hx); lra|].
      intros H; split; intros x Hx; specialize (H x Hx); lra. }
    destruct (_ || _) eqn:B.
    + split; [intros [p E']; discriminate|intros [_ H]; apply E in H; discriminate].
    + split; [intros _; split; [lra|apply E; reflexivity]|intros _; eexists; reflexivity].
Qed.

Lemma bounded_new_fields data a b p : bounded_new data a b = Ok p ->
  bp_lo p = a /\ bp_hi p = b /\ bp_weights p = map (inverse_sigmoid a b) data.
Proof. unfold bounded_new. destruct (Rle_dec b a); [discriminate|]. destruct (_ || _); [discriminate|]. intros E. injection E as <-. auto. Qed.

Lemma bounded_new_read data a b p : bounded_new data a b = Ok p -> bounded_read p = data.
Proof.
  intros H. assert (H' := proj1 (bounded_new_ok data a b) (ex_intro _ p H)). destruct H' as [L F].
  destruct (bounded_new_fields H) as (E1 & E2 & E3). unfold bounded_read. rewrite E1, E2, E3, map_map.
  rewrite <- (map_id data) at 2. apply map_ext_in. intros d Hd. apply bounded_roundtrip; [exact L|].
  unfold in_bounds in F. rewrite Forall_forall in F. apply F, Hd.
Qed.

Lemma bounded_train_inv p us : bp_lo (bounded_train p us) = bp_lo p /\ bp_hi (bounded_train p us) = bp_hi p
  /\ length (bp_weights (bounded_train p us)) = length (bp_weights p).
Proof.
  revert p. induction us as [|[k x] us IH]; intros p; [cbn; auto|].
  change (bounded_train p ((k, x) :: us)) with (bounded_train (bounded_update p (k, x)) us).
  destruct (IH (bounded_update p (k, x))) as (-> & -> & ->).
  cbn. split; [reflexivity|split; [reflexivity|]]. rewrite app_length, firstn_length.
  assert (L : length (skipn k (bp_weights p)) = length (bp_weights p) - k) by apply skipn_length.
  destruct (skipn k (bp_weights p)) as [|y r]; cbn in *; lia.
Qed.

Lemma bounded_train_range data a b p us : bounded_new data a b = Ok p ->
  in_bounds a b (bounded_read (bounded_train p us)) /\ length (bounded_read (bounded_train p us)) = length data.
Proof.
  intros H. assert (L := proj1 (proj1 (bounded_new_ok data a b) (ex_intro _ p H))).
  destruct (bounded_new_fields H) as (E1 & E2 & E3). destruct (bounded_train_inv p us) as (F1 & F2 & F3).
  unfold bounded_read. rewrite map_length, F3, E3, map_length. split; [|reflexivity].
  unfold in_bounds. rewrite F1, F2, E1, E2. apply Forall_forall. intros d Hd. apply in_map_iff in Hd as (x & <- & _).
  apply bounded_value_range. lra.
Qed.

(** ** Circuits of built-in components *)
Section Circuits.
Notation net := (net R).
Notation build := (@build (nat -> R * R) Q (fun _ => (0, 0)%R) 0%Q).
Notation compile := (@compile (nat -> R * R) Q (fun _ => (0, 0)%R) 0%Q).
Notation net_buf := (@net_buf (nat -> R * R) Q (fun _ => (0, 0)%R) 0%Q).

Lemma net_plain (cs : list (string * net)) conns (b : net) : net_buf cs conns = Ok b ->
  (forall n c, In (n, c) cs -> plain c) -> plain b.
Proof.
  intros Hb H i Li. eapply (@term_plain R 0%R (fun _ => false) cs conns b Hb); [|exact Li|reflexivity].
  intros n c I _. exact (H n c I).
Qed.
Lemma compile_plain c b : every_leaf (@plain R) c -> compile c = Ok b -> plain b.
Proof. apply (@compile_ind' _ _ _ _ (@plain R)). intros cs cn b' _ HN HU. eapply net_plain; eauto. Qed.

Lemma every_leaf_impl (P Q : net -> Prop) c : (forall b, P b -> Q b) -> every_leaf P c -> every_leaf Q c.
Proof. intros HPQ. induction 1; constructor; auto. Qed.

(** The parts of a closed circuit: terminations (by name) and circuits of components of kind [P]. *)
Definition made_of (P : net -> Prop) (term : string -> bool) (mods : list (string * net)) : Prop :=
  forall n d, In (n, d) mods -> if term n then ending d else exists ct, every_leaf P ct /\ compile ct = Ok d.

Definition no_wires (b : net) : Prop := forall i j, b_C b i j = false.
Lemma no_wires_sym b : no_wires b -> sym_C b.
Proof. intros H i j _ _. rewrite !H. reflexivity. Qed.

Section Env.
Variable c : Q.
Variable wl : nat -> R.

Lemma builtin_wires b : builtin c wl b -> no_wires b.
Proof. intros [] i j; reflexivity. Qed.
Lemma ending_wires b : ending b -> no_wires b.
Proof. intros [] i j; reflexivity. Qed.

Section Made.
Variables (P : net -> Prop) (term : string -> bool) (mods : list (string * net)) (conns : list string) (b : net).
Hypothesis PB : forall d, P d -> builtin c wl d.
Hypothesis HM : made_of P term mods.
Hypothesis HB : build mods conns = Ok b.

Lemma made_sub n d : In (n, d) mods -> sym_C d /\ (forall e w, unmixed 0%R e d w) /\
  if term n then ending d else plain d.
Proof.
  intros I. specialize (HM I). destruct (term n).
  - split; [apply no_wires_sym, ending_wires, HM|]. split; [intros; apply ending_unmixed, HM|exact HM].
  - destruct HM as (ct & He & Hc). split; [|split].
    + eapply compile_sym; [|exact Hc]. eapply every_leaf_impl; [|exact He]. intros d' Hd'. eapply no_wires_sym, builtin_wires, PB, Hd'.
    + intros e w. eapply compile_unmixed; [|exact Hc]. eapply every_leaf_impl; [|exact He]. intros d' Hd'. eapply builtin_unmixed, PB, Hd'.
    + eapply compile_plain; [|exact Hc]. eapply every_leaf_impl; [|exact He]. intros d' Hd'. eapply builtin_plain, PB, Hd'.
Qed.

Lemma made_facts : sym_C b /\ flags_ok b /\ num_act b = 0 /\ (forall e w, unmixed 0%R e b w).
Proof.
  split; [|split; [|split]].
  - eapply (@build_ind _ _ _ _ (@sym_C _ _)); [|intros n d I; apply (made_sub I)|exact HB].
    intros cs cn b' ND HN HS. apply (net_sym ND HN). exact HS.
  - destruct (build_inv HB) as (cs' & _ & Hn). unfold NetModel.net_buf in Hn. inv_res. eapply check_flags; eassumption.
  - destruct (build_inv HB) as (cs' & Hs & Hn).
    assert (H : forall i, i < b_np b -> b_act b i = false).
    { intros i Li. destruct (@term_located R 0%R (fun _ => false) cs' _ b Hn i Li) as (n & d & q & L & I & Lq & _).
      destruct (net_buf_inv Hn) as (_ & _ & _ & _ & _ & -> & _). rewrite !(block_vec_located _ _ L).
      assert (J : In (n, d) mods) by (apply assoc_In_s; exact (sc_from Hs I)).
      destruct (made_sub J) as (_ & _ & G). destruct (term n); [destruct G; reflexivity|apply (G q Lq)]. }
    unfold num_act. assert (F : filter (b_act b) (seq 0 (b_np b)) = []); [|rewrite F; reflexivity].
    assert (G : forall l, (forall i, In i l -> i < b_np b) -> filter (b_act b) l = []).
    { induction l as [|i l IH]; intros Hl; [reflexivity|]. cbn. rewrite H by (apply Hl; now left). apply IH. intros; apply Hl; now right. }
    apply G. intros i Hi. apply in_seq in Hi. lia.
  - intros e w. eapply build_unmixed; [exact HB|]. intros n d I. apply (made_sub I).
Qed.
End Made.

Variable solve : nat -> nat -> mat R -> mat R -> option (mat R).
Variables (A : Type) (act : A -> nat -> field R -> A * field R).
Notation forward := (forward 0%R 1%R Rplus Rmult Rminus Ropp solve act).

Theorem circuit_passive (term : string -> bool) mods conns b e s0 source outs w col :
  solver_sound 0%R Rplus Rmult solve ->
  made_of (builtin c wl) term mods -> build mods conns = Ok b -> one_partner b -> w < e_num_wl e ->
  forward e b s0 source = Ok outs ->
  forall T, T <= e_num_t e ->
  (sent 0 Rplus Rmult (num_det b) T (fun t => nth t outs (zero_field 0)) w col <= sent 0 Rplus Rmult (num_src b) T source w col)%R.
Proof.
  intros SS HM HB OP Lw HF. destruct (made_facts (P := builtin c wl) (fun d H => H) HM HB) as (SY & FL & NA & U).
  eapply (@forward_passive solve A act SS term); eauto.
  intros n d I. destruct (made_sub (P := builtin c wl) (fun d H => H) HM I) as (_ & _ & G). specialize (HM n d I).
  destruct (term n); [apply ending_dark, HM|]. split; [|exact G].
  destruct HM as (ct & He & Hc). eapply compile_passive; [|exact Hc]. eapply every_leaf_impl; [|exact He]. intros d' Hd'. eapply builtin_passive, Hd'.
Qed.

Theorem circuit_conserves (term : string -> bool) mods conns b e s0 source outs w col :
  solver_sound 0%R Rplus Rmult solve ->
  made_of (ideal c wl) term mods -> build mods conns = Ok b -> one_partner b -> w < e_num_wl e ->
  forward e b s0 source = Ok outs ->
  exists cs a o, sub_components mods conns cs /\
    waves 0%R Rplus Rmult Rminus e b w (e_num_t e) (injected 0%R b source w col) a o /\ reads 0%R b outs w col (e_num_t e) a /\
    (forall T, T <= e_num_t e ->
      (energy_on 0 Rplus Rmult (term_ports term cs) (b_np b) T a
       + stored 0 Rplus Rmult e b (fun i => negb (term_ports term cs i)) T a
      = sent 0 Rplus Rmult (num_src b) T source w col)%R) /\
    (e_dt e = None -> energy_on 0%R Rplus Rmult (term_ports term cs) (b_np b) (e_num_t e) a
      = sent 0%R Rplus Rmult (num_src b) (e_num_t e) source w col).
Proof.
  intros SS HM HB OP Lw HF. destruct (made_facts (@ideal_builtin c wl) HM HB) as (SY & FL & NA & U).
  eapply (@forward_conserves R 0%R 1%R Rplus Rmult Rminus Ropp RTheory solve A act SS term); eauto.
  intros n d I. destruct (made_sub (@ideal_builtin c wl) HM I) as (_ & _ & G). specialize (HM n d I).
  destruct (term n); [apply ending_dark, HM|]. split; [|exact G].
  destruct HM as (ct & He & Hc). eapply (compile_lossless RTheory); [|exact Hc]. eapply every_leaf_impl; [|exact He]. intros d' Hd'. eapply ideal_lossless, Hd'.
Qed.
End Env.
End Circuits.
