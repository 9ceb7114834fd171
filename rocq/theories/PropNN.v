(** Bit streams and losses: C53 - C56, C70 - C73. *)
From Coq Require Import QArith Lqa Reals Lra.
From Verif Require Import Base SimModel NNModel NNSpec NNProofs NNBer.
Set Implicit Arguments.
Unset Strict Implicit.
Local Open Scope nat_scope.

Definition hz (n : nat) : Q := inject_Z (Z.of_nat n).
Definition bit (x : bool) : R := if x then 1%R else 0%R.

Section Streams.
Variables (rng : Type) (seeded : option Z -> rng) (draw : rng -> nat -> list R * rng).
Variable lowpass : option Z -> Q -> list R -> list R.
Notation run := (generate seeded draw lowpass).

(** C53: a given sequence of bits, whole rates b and s (in Hz) given to the call. *)
Theorem C53_stream : forall g eb es bits b s o sd, 1 <= b -> 1 <= s -> g_cutoff g = None ->
  exists out, run g eb es (Rows bits) (Some (hz b)) (Some (hz s)) None o sd = Ok (out, g) /\
    holds_bits bits b s out.
Proof.
  intros g eb es bits b s o sd Hb Hs Hc. unfold generate. cbn [bind rate opt_or]. rewrite Hc.
  destruct (@make_stream_plain R lowpass bits b s (opt_or (option_map rint o) (g_order g)) Hb Hs)
    as (out & E & H).
  unfold hz. rewrite E. cbn [bind]. exists out. split; [reflexivity|exact H].
Qed.

(** The same with the rates of the environment or of the constructor, and random bits. *)
Theorem C53_random : forall g n eb es b s o, 1 <= b -> 1 <= s -> g_cutoff g = None ->
  rate None eb (g_bitrate g) = hz b -> rate None es (g_samplerate g) = hz s ->
  exists out g', run g eb es (Count (Z.of_nat n)) None None None o None = Ok (out, g') /\
    holds_bits (fst (draw (g_rng g) n)) b s out /\ g_rng g' = snd (draw (g_rng g) n).
Proof.
  intros g n eb es b s o Hb Hs Hc Eb Es. unfold generate. rewrite Eb, Es.
  cbn [bind opt_or option_map]. rewrite Hc.
  assert (Own : oz_eqb (g_seed g) (g_seed g) = true).
  { destruct (g_seed g); cbn; [apply Z.eqb_refl|reflexivity]. }
  rewrite Own. destruct (Z.ltb_spec (Z.of_nat n) 0); [lia|]. rewrite Nat2Z.id.
  destruct (draw (g_rng g) n) as [l r']. cbn [bind fst snd].
  destruct (@make_stream_plain R lowpass l b s (opt_or (option_map rint o) (g_order g)) Hb Hs)
    as (out & E & HH).
  unfold hz. rewrite E. cbn [bind]. eexists. eexists. split; [reflexivity|]. split; [exact HH|reflexivity].
Qed.

(** With a cutoff frequency: the bits, held m samples each, are filtered, and the stream takes
    every q-th value, where m bits last as long as q samples; with a filter that changes nothing
    the bits are held for their bit time. *)
Theorem C53_filtered : forall g eb es bits b s c o sd, 1 <= b -> 1 <= s ->
  exists m q wn out, run g eb es (Rows bits) (Some (hz b)) (Some (hz s)) (Some c) o sd = Ok (out, g) /\
    1 <= m /\ 1 <= q /\ q * s = m * b /\
    let fine := lowpass (opt_or (option_map rint o) (g_order g)) wn (flat_map (fun x => repeat x m) bits) in
    (forall k, nth_error out k = nth_error fine (k * q)) /\
    (length fine = length bits * m -> length out = ceil_div (length bits * s) b) /\
    (fine = flat_map (fun x => repeat x m) bits -> holds_bits bits b s out).
Proof.
  intros g eb es bits b s c o sd Hb Hs. unfold generate. cbn [bind rate opt_or].
  destruct (@make_stream_filtered R lowpass bits b s c (opt_or (option_map rint o) (g_order g)) Hb Hs)
    as (m & q & wn & out & E & Hm & Hq & Eq & Hn & Hl).
  unfold hz. rewrite E. cbn [bind]. exists m, q, wn, out. split; [reflexivity|].
  split; [exact Hm|]. split; [exact Hq|]. split; [exact Eq|]. cbv zeta.
  assert (Len : length (lowpass (opt_or (option_map rint o) (g_order g)) wn (repeat_rows m bits)) =
    length bits * m -> length out = ceil_div (length bits * s) b).
  { intros L. rewrite Hl, L. apply nat_ext. intros k. rewrite !ceil_lt by assumption. nia. }
  split; [exact Hn|]. split; [exact Len|]. intros F. split.
  - apply Len. unfold repeat_rows. rewrite F. apply repeat_rows_length.
  - intros k Hk. rewrite Hn. unfold repeat_rows. rewrite F.
    change (flat_map (fun x => repeat x m) bits) with (repeat_rows m bits).
    rewrite repeat_rows_nth by exact Hm. f_equal.
    assert (E2 : k * q / m = k * q * s / (m * s)) by (symmetry; apply Nat.div_mul_cancel_r; lia).
    rewrite E2. replace (k * q * s) with (k * b * m) by nia. rewrite (Nat.mul_comm m s).
    apply Nat.div_mul_cancel_r; lia.
Qed.

(** C70: the documentation allows any sequence of bits; a Python list or tuple is refused. *)
Theorem C70_array : forall g eb es bits b s o sd, 1 <= b -> 1 <= s -> g_cutoff g = None ->
  exists out, run g eb es (Rows bits) (Some (hz b)) (Some (hz s)) None o sd = Ok (out, g).
Proof.
  intros g eb es bits b s o sd Hb Hs Hc.
  destruct (@C53_stream g eb es bits b s o sd Hb Hs Hc) as (out & E & _). exists out. exact E.
Qed.
Theorem C70_refuted : forall g eb es bits br sr c o sd,
  run g eb es (Sequence bits) br sr c o sd = Err AttributeError.
Proof. reflexivity. Qed.

(** C71: a seed given to the call decides the random bits, whatever was drawn before - unless it
    is the seed given to the constructor. *)
Theorem C71_seed_partial : forall g h n eb es br sr c o sd,
  g_bitrate g = g_bitrate h -> g_samplerate g = g_samplerate h -> g_cutoff g = g_cutoff h ->
  g_order g = g_order h -> g_seed g = g_seed h -> g_seed g <> Some (rint sd) ->
  bind (run g eb es (Count n) br sr c o (Some sd)) (fun r => Ok (fst r)) =
  bind (run h eb es (Count n) br sr c o (Some sd)) (fun r => Ok (fst r)).
Proof.
  intros g h n eb es br sr c o sd E1 E2 E3 E4 E5 N. unfold generate.
  rewrite <- E1, <- E2, <- E3, <- E4, <- E5. cbn [opt_or option_map].
  assert (Own : oz_eqb (Some (rint sd)) (g_seed g) = false).
  { destruct (g_seed g) as [z|]; cbn; [|reflexivity]. apply Z.eqb_neq. intros E. apply N. congruence. }
  rewrite Own. destruct (n <? 0)%Z; [reflexivity|]. destruct (draw _ _) as [l r']. cbn [bind].
  destruct (make_stream _ _ _ _ _ _); reflexivity.
Qed.
End Streams.

(** A generator of bits 0,1,0,1,... whose state is the next bit: seed 7 given to the constructor
    and to two calls. *)
Definition alternate (r : bool) (n : nat) : list R * bool :=
  (map (fun i => bit (xorb r (Nat.odd i))) (seq 0 n), xorb r (Nat.odd n)).

Theorem C71_refuted : exists (g0 g1 g2 : generator bool) s1 s2,
  g0 = new_generator (fun _ => false) (hz 1) (hz 1) None None (Some 7%Q) /\
  generate (fun _ => false) alternate (fun _ _ l => l) g0 None None (Count 1) None None None None
    (Some 7%Q) = Ok (s1, g1) /\
  generate (fun _ => false) alternate (fun _ _ l => l) g1 None None (Count 1) None None None None
    (Some 7%Q) = Ok (s2, g2) /\ s1 <> s2.
Proof.
  eexists. eexists. eexists. eexists. eexists.
  split; [reflexivity|]. split; [reflexivity|]. split; [reflexivity|].
  cbn. intros E. injection E as E. lra.
Qed.

Example C71_example : exists (g : generator bool) s1 s2 g1 g2,
  generate (fun _ => false) alternate (fun _ _ l => l) g None None (Count 1) None None None None
    (Some 5%Q) = Ok (s1, g1) /\
  generate (fun _ => false) alternate (fun _ _ l => l) g1 None None (Count 1) None None None None
    (Some 5%Q) = Ok (s2, g2) /\ s1 = s2.
Proof.
  exists (new_generator (fun _ => false) (hz 1) (hz 1) None None (Some 7%Q)).
  eexists. eexists. eexists. eexists. split; [reflexivity|]. split; reflexivity.
Qed.

(** Bits 1 0 1 at 2 Hz, sampled with 5 Hz. *)
Example C53_example :
  make_stream (fun _ _ l => l) [true; false; true] (hz 2) (hz 5) None None =
  Ok [true; true; true; false; false; true; true; true] /\ ceil_div (3 * 5) 2 = 8.
Proof. split; reflexivity. Qed.
Example C53_filtered_example : exists out,
  make_stream (fun _ _ l => l) [true; false; true] (hz 2) (hz 5) (Some (hz 3)) None = Ok out /\
  length out = 8.
Proof. eexists. split; reflexivity. Qed.

(** C72: the rate of the call counts before that of the environment, that before the
    constructor's. *)
Theorem C72_precedence : forall a e o,
  rate (Some a) e o = a /\ rate None (Some a) o = a /\ rate None None o = o.
Proof. intros. repeat split. Qed.

(** C56: latencies (in samples) not below -1/2 are rounded to the nearest whole number, halves
    up; all others come out one too high. *)
Theorem C56_nearest : forall latency sr br, ~ (br == 0)%Q -> (- (1 # 2) <= latency * sr / br)%Q ->
  exists l, samples_of latency sr br = Ok l /\ nearest l (latency * sr / br).
Proof.
  intros latency sr br Hb H. rewrite samples_of_ok by exact Hb. eexists. split; [reflexivity|].
  unfold nearest, rint. set (x := (latency * sr / br)%Q) in *. clearbody x.
  assert (P : (0 <= x + (1 # 2))%Q) by Lqa.lra. pose proof (@long_spec _ P). Lqa.lra.
Qed.
Theorem C56_negative : forall latency sr br, ~ (br == 0)%Q -> (latency * sr / br < - (1 # 2))%Q ->
  exists l, samples_of latency sr br = Ok l /\ next_nearest l (latency * sr / br).
Proof.
  intros latency sr br Hb H. rewrite samples_of_ok by exact Hb. eexists. split; [reflexivity|].
  apply rint_below. exact H.
Qed.
Theorem C56_refuted : exists latency sr br l, ~ (br == 0)%Q /\ samples_of latency sr br = Ok l /\
  ~ nearest l (latency * sr / br) /\ (latency * sr / br == inject_Z (-4))%Q /\ l = (-3)%Z.
Proof.
  exists (-1)%Q, 160%Q, 40%Q, (-3)%Z. split; [discriminate|]. split; [reflexivity|].
  split; [|split; reflexivity]. intros [A B]. revert A B. vm_compute. intros _ B. apply B. reflexivity.
Qed.
Example C56_example : samples_of (13 # 10) 160 40 = Ok 5%Z /\ samples_of (-13 # 10) 160 40 = Ok (-4)%Z.
Proof. split; reflexivity. Qed.

(** C55: the mean over all compared samples (target sample i after the warm-up, prediction sample
    i + l), all wavelengths, detectors and batches. *)
Definition square_error (pv gv : nat -> nat -> nat -> nat -> R) (l : Z) (e : nat * (nat * nat * nat)) : R :=
  let '(i, (k, d, b)) := e in ((gv i k d b - pv (Z.to_nat (Z.of_nat i + l)) k d b) ^ 2)%R.
Definition wanted (sr br latency : Q) (W : Z) (l w : Z) : Prop :=
  (0 < br)%Q /\ (0 < sr)%Q /\ (0 <= W)%Z /\ nearest w (inject_Z W * sr / br) /\
  ((0 <= latency)%Q /\ nearest l (latency * sr / br) \/
   (latency * sr / br < - (1 # 2))%Q /\ next_nearest l (latency * sr / br)).

Lemma unique_nearest : forall a b x, nearest a x -> nearest b x -> a = b.
Proof.
  intros a b x [A1 A2] [B1 B2].
  assert (a < b + 1)%Z. { rewrite Zlt_Qlt, inject_Z_plus. change (inject_Z 1) with 1%Q. Lqa.lra. }
  assert (b < a + 1)%Z. { rewrite Zlt_Qlt, inject_Z_plus. change (inject_Z 1) with 1%Q. Lqa.lra. }
  lia.
Qed.
Lemma unique_next : forall a b x, next_nearest a x -> next_nearest b x -> a = b.
Proof.
  intros a b x [A1 A2] [B1 B2].
  assert (a < b + 1)%Z. { rewrite Zlt_Qlt, inject_Z_plus. change (inject_Z 1) with 1%Q. Lqa.lra. }
  assert (b < a + 1)%Z. { rewrite Zlt_Qlt, inject_Z_plus. change (inject_Z 1) with 1%Q. Lqa.lra. }
  lia.
Qed.

Lemma product_nonneg : forall x sr br, (0 < br)%Q -> (0 < sr)%Q -> (0 <= x)%Q -> (0 <= x * sr / br)%Q.
Proof.
  intros x sr br Hb Hs Hx. apply Qle_shift_div_l; [exact Hb|]. rewrite Qmult_0_l.
  apply Qmult_le_0_compat; [exact Hx|apply Qlt_le_weak; exact Hs].
Qed.

Lemma wanted_rint : forall sr br latency W l w, wanted sr br latency W l w ->
  ~ (br == 0)%Q /\ (0 <= W)%Z /\ rint (latency * sr / br) = l /\
  rint (inject_Z W * sr / br) = w /\ (0 <= w)%Z.
Proof.
  intros sr br latency W l w (Hb & Hs & HW & Nw & Nl).
  assert (Xw : (0 <= inject_Z W * sr / br)%Q).
  { apply product_nonneg; [exact Hb|exact Hs|]. change 0%Q with (inject_Z 0). rewrite <- Zle_Qle. exact HW. }
  assert (Rw : forall x, (- (1 # 2) <= x)%Q -> nearest (rint x) x).
  { intros x Hx. unfold nearest, rint. assert (P : (0 <= x + (1 # 2))%Q) by Lqa.lra.
    pose proof (@long_spec _ P). Lqa.lra. }
  split; [intros E; rewrite E in Hb; discriminate Hb|]. split; [exact HW|]. split; [|split].
  - destruct Nl as [[Hl Nl]|[Hl Nl]].
    + pose proof (product_nonneg Hb Hs Hl) as X. apply (@unique_nearest _ _ (latency * sr / br)%Q); [|exact Nl].
      apply Rw. eapply Qle_trans; [|exact X]. discriminate.
    + apply (@unique_next _ _ (latency * sr / br)%Q); [|exact Nl]. apply rint_below. exact Hl.
  - apply (@unique_nearest _ _ (inject_Z W * sr / br)%Q); [|exact Nw].
    apply Rw. eapply Qle_trans; [|exact Xw]. discriminate.
  - destruct Nw as [A B]. assert (-1 < w)%Z; [|lia]. rewrite Zlt_Qlt.
    set (x := (inject_Z W * sr / br)%Q) in *. clearbody x. change (inject_Z (-1)) with (-1)%Q. Lqa.lra.
Qed.

Theorem C55_value : forall N nw nd nb pv gv latency W br sr l w, wanted sr br latency W l w ->
  mse (Dim4 N nw nd nb pv) (Dim4 N nw nd nb gv) latency W br sr =
  if (w + l <? 0)%Z then Err ValueError
  else Ok (average (square_error pv gv l)
             (list_prod (compared N (Z.to_nat w) l) (all_places nw nd nb))).
Proof.
  intros N nw nd nb pv gv latency W br sr l w H.
  destruct (wanted_rint H) as (Hb & HW & El & Ew & Hw).
  destruct (Z.ltb_spec (w + l) 0) as [L|L].
  - rewrite mse_unfold, broadcast_same. cbn [bind]. rewrite !samples_of_ok by exact Hb. cbn [bind].
    rewrite (rint_Z HW), El, Ew. unfold mse_core.
    destruct (Z.ltb_spec w 0); [reflexivity|]. destruct (Z.ltb_spec (w + l) 0); [reflexivity|lia].
  - apply (mse_value N nw nd nb pv gv Hb HW El Ew Hw L).
Qed.

Lemma in_compared : forall N w l i, In i (compared N w l) <->
  w <= i < N /\ (Z.of_nat i + l < Z.of_nat N)%Z.
Proof. intros N w l i. unfold compared, from_to. rewrite in_seq. lia. Qed.

(** Zero exactly if all compared samples agree; never negative; nan if none is compared. *)
Theorem C55_zero : forall N nw nd nb pv gv latency W br sr l w, wanted sr br latency W l w ->
  (0 <= w + l)%Z -> 1 <= nw -> 1 <= nd -> 1 <= nb ->
  (Z.to_nat w < N) -> (w + l < Z.of_nat N)%Z ->
  (mse (Dim4 N nw nd nb pv) (Dim4 N nw nd nb gv) latency W br sr = Ok (Some 0%R) <->
   forall i j k d b, (w <= Z.of_nat i)%Z -> i < N -> j < N -> (Z.of_nat j = Z.of_nat i + l)%Z ->
     k < nw -> d < nd -> b < nb -> gv i k d b = pv j k d b).
Proof.
  intros N nw nd nb pv gv latency W br sr l w H Hl H1 H2 H3 H4 H5.
  rewrite (C55_value N nw nd nb pv gv H). destruct (wanted_rint H) as (_ & _ & _ & _ & Hw).
  destruct (Z.ltb_spec (w + l) 0); [lia|].
  assert (Ne : list_prod (compared N (Z.to_nat w) l) (all_places nw nd nb) <> []).
  { intros E. assert (X : In (Z.to_nat w, (0, 0, 0)) (list_prod (compared N (Z.to_nat w) l) (all_places nw nd nb))).
    { apply in_prod_iff. rewrite in_compared, in_places. cbn. lia. }
    rewrite E in X. exact X. }
  assert (Sq : forall e, In e (list_prod (compared N (Z.to_nat w) l) (all_places nw nd nb)) ->
    (0 <= square_error pv gv l e)%R).
  { intros [i [[k d] b]] _. apply pow2_ge_0. }
  split.
  - intros E i j k d b A1 A2 A3 A4 A5 A6 A7. injection E as E.
    apply (average_zero Ne Sq) with (a := (i, (k, d, b))) in E.
    + unfold square_error in E. replace (Z.to_nat (Z.of_nat i + l)) with j in E by lia.
      apply Rminus_diag_uniq, Rsqr_0_uniq. rewrite <- E. unfold Rsqr. ring.
    + apply in_prod_iff. rewrite in_compared, in_places. cbn. lia.
  - intros E. f_equal. apply (average_zero Ne Sq). intros [i [[k d] b]] Hin.
    apply in_prod_iff in Hin. rewrite in_compared, in_places in Hin. cbn in Hin.
    unfold square_error. rewrite (E i (Z.to_nat (Z.of_nat i + l)) k d b) by lia. ring.
Qed.

Theorem C55_nonneg : forall p g latency W br sr x, mse p g latency W br sr = Ok (Some x) -> (0 <= x)%R.
Proof.
  intros p g latency W br sr x H. rewrite mse_unfold in H.
  destruct (broadcast p g) as [[P G]|]; [|discriminate H]. cbn [bind fst snd] in H.
  destruct (samples_of latency sr br); [|discriminate H].
  destruct (samples_of (inject_Z (rint (inject_Z W))) sr br); [|discriminate H]. cbn [bind] in H.
  unfold mse_core in H. destruct (_ <? _)%Z; [discriminate H|]. destruct (_ <? _)%Z; [discriminate H|].
  rewrite mean_of_map in H. injection H as H.
  apply (average_nonneg (l := entries _)) in H; [exact H|]. intros e _. apply pow2_ge_0.
Qed.

Theorem C55_nan : forall N nw nd nb pv gv latency W br sr l w, wanted sr br latency W l w ->
  (0 <= w + l)%Z -> N <= Z.to_nat w \/ (Z.of_nat N <= w + l)%Z ->
  mse (Dim4 N nw nd nb pv) (Dim4 N nw nd nb gv) latency W br sr = Ok None.
Proof.
  intros N nw nd nb pv gv latency W br sr l w H Hl Hn. rewrite (C55_value N nw nd nb pv gv H).
  destruct (Z.ltb_spec (w + l) 0); [lia|]. unfold compared, from_to.
  replace (Nat.min N (Z.to_nat (Z.of_nat N - l)) - Z.to_nat w) with 0 by lia. reflexivity.
Qed.

(** One-dimensional signals are signals with one wavelength, detector and batch; a
    one-dimensional target is compared with all of them. *)
Theorem C55_one_dimension : forall N pv gv latency W br sr,
  mse (Dim1 N pv) (Dim1 N gv) latency W br sr =
  mse (Dim4 N 1 1 1 (fun i _ _ _ => pv i)) (Dim4 N 1 1 1 (fun i _ _ _ => gv i)) latency W br sr.
Proof. reflexivity. Qed.
Theorem C55_one_target : forall N nw nd nb pv gv latency W br sr l w, wanted sr br latency W l w ->
  mse (Dim4 N nw nd nb pv) (Dim1 N gv) latency W br sr =
  mse (Dim4 N nw nd nb pv) (Dim4 N nw nd nb (fun i _ _ _ => gv i)) latency W br sr.
Proof.
  intros N nw nd nb pv gv latency W br sr l w H.
  destruct (wanted_rint H) as (Hb & HW & El & Ew & Hw).
  rewrite !mse_unfold, broadcast_same. unfold broadcast. cbn [four bind t_len t_w t_d t_b].
  rewrite bsize_same. cbn [bind].
  assert (B : forall n, bsize n 1 = Ok n).
  { intros n. unfold bsize. destruct (Nat.eqb_spec n 1) as [->|]; [reflexivity|]. reflexivity. }
  rewrite !B. cbn [bind fst snd]. rewrite !samples_of_ok by exact Hb. cbn [bind].
  rewrite (rint_Z HW), El, Ew.
  destruct (Z.lt_ge_cases (w + l) 0) as [L|L].
  - unfold mse_core. destruct (Z.ltb_spec w 0); [reflexivity|].
    destruct (Z.ltb_spec (w + l) 0); [reflexivity|lia].
  - rewrite !(@mse_core_val N nw nd nb) by (first [assumption | repeat split]).
    reflexivity.
Qed.

(** The second of two dimensions is the batch; two of three are detector and batch. *)
Theorem C55_matrix : forall N M nb mb pv gv latency W br sr,
  mse (Dim2 N nb pv) (Dim2 M mb gv) latency W br sr =
  mse (Dim4 N 1 1 nb (fun i _ _ b => pv i b)) (Dim4 M 1 1 mb (fun i _ _ b => gv i b)) latency W br sr.
Proof. reflexivity. Qed.
Theorem C55_matrix_full : forall N M nb nw nd mb pv gv latency W br sr,
  mse (Dim2 N nb pv) (Dim4 M nw nd mb gv) latency W br sr =
  mse (Dim4 N 1 1 nb (fun i _ _ b => pv i b)) (Dim4 M nw nd mb gv) latency W br sr.
Proof. reflexivity. Qed.
Theorem C55_cube : forall N M nd nb md mb pv gv latency W br sr,
  mse (Dim3 N nd nb pv) (Dim3 M md mb gv) latency W br sr =
  mse (Dim4 N 1 nd nb (fun i _ d b => pv i d b)) (Dim4 M 1 md mb (fun i _ d b => gv i d b)) latency W br sr.
Proof. reflexivity. Qed.
(** So a (time, detector) prediction does not agree with the same values given with all dimensions. *)
Theorem C55_detectors_refuted : exists N nd (v : nat -> nat -> R) x,
  mse (Dim2 N nd v) (Dim4 N 1 nd 1 (fun i _ d _ => v i d)) 0 0 1 1 = Ok (Some x) /\ x <> 0%R.
Proof.
  exists 1, 2, (fun _ d => INR d). eexists. split.
  - rewrite C55_matrix_full. reflexivity.
  - cbn. lra.
Qed.

Example C55_example : wanted 160 40 (13 # 10) 2 5 8 /\
  mse (Dim1 20 (fun i => if i <? 5 then 7%R else INR (i - 5))) (Dim1 20 INR) (13 # 10) 2 40 160 = Ok (Some 0%R).
Proof.
  assert (H : wanted 160 40 (13 # 10) 2 5 8).
  { unfold wanted, nearest, next_nearest. repeat split; try reflexivity; try discriminate.
    left. repeat split; try reflexivity; discriminate. }
  split; [exact H|]. rewrite C55_one_dimension. apply (C55_zero _ _ H); try lia.
  intros i j k d b A1 A2 A3 A4 _ _ _. destruct (Nat.ltb_spec j 5); [lia|]. f_equal. lia.
Qed.

(** C73: negative warm-ups are refused - not -1 and -2. *)
Theorem C73_refuted : forall p g latency br sr,
  mse p g latency (used_warmup None (stored_warmup (-1))) br sr = mse p g latency 0 br sr /\
  mse p g latency (used_warmup None (stored_warmup (-2))) br sr = mse p g latency 0 br sr /\
  mse p g latency (used_warmup (Some (-2)%Q) 0) br sr = mse p g latency 0 br sr.
Proof.
  intros. split; [reflexivity|]. split; reflexivity.
Qed.
Theorem C73_refused_partial : forall p g latency W br sr a b,
  (W <= -3)%Z -> (0 < br)%Q -> (2 * br <= sr)%Q -> broadcast p g = Ok (a, b) ->
  mse p g latency (used_warmup None (stored_warmup (inject_Z W))) br sr = Err ValueError.
Proof.
  intros p g latency W br sr a b HW Hb Hs E. rewrite mse_unfold, E. cbn [bind].
  assert (Nb : ~ (br == 0)%Q) by (intros X; rewrite X in Hb; discriminate Hb).
  rewrite !samples_of_ok by exact Nb. cbn [bind used_warmup]. unfold stored_warmup.
  rewrite (@rint_neg_Z W) by lia. rewrite (@rint_neg_Z (W + 1)) by lia.
  assert (R : (sr / br >= 2)%Q).
  { apply Qle_shift_div_l; [exact Hb|exact Hs]. }
  assert (X : (inject_Z (W + 1 + 1) * sr / br <= -2)%Q).
  { assert (Y : (inject_Z (W + 1 + 1) <= -1)%Q). { change (-1)%Q with (inject_Z (-1)). rewrite <- Zle_Qle. lia. }
    setoid_replace (inject_Z (W + 1 + 1) * sr / br)%Q with (inject_Z (W + 1 + 1) * (sr / br))%Q
      by (field; exact Nb).
    set (y := inject_Z (W + 1 + 1)) in *. set (r := (sr / br)%Q) in *. clearbody y r. Lqa.nra. }
  assert (Z1 : (rint (inject_Z (W + 1 + 1) * sr / br) < 0)%Z).
  { assert (L : (inject_Z (W + 1 + 1) * sr / br < - (1 # 2))%Q) by Lqa.lra.
    pose proof (@rint_below _ L) as [_ B].
    set (x := (inject_Z (W + 1 + 1) * sr / br)%Q) in *. clearbody x. rewrite Zlt_Qlt.
    change (inject_Z 0) with 0%Q. Lqa.lra. }
  unfold mse_core. destruct (Z.ltb_spec (rint (inject_Z (W + 1 + 1) * sr / br)) 0); [reflexivity|lia].
Qed.

(** C54: [n] bits, whole rates with s >= 2b.  The prediction is above the threshold exactly where
    its bit is 1; the target has one value for 1 and a lower one for 0, and both kinds of bits.
    After W bits of warm-up, with a latency of D bits (D may be negative if s > 2b), the result is
    the fraction of differing bits. *)
Definition differ (pb gb : nat -> nat * nat * nat -> bool) (D : Z) (e : nat * (nat * nat * nat)) : bool :=
  xorb (pb (Z.to_nat (Z.of_nat (fst e) + D)) (snd e)) (gb (fst e) (snd e)).
Definition fraction {A} (f : A -> bool) (l : list A) : option R :=
  if length l =? 0 then None else Some (INR (number f l) / INR (length l))%R.

Lemma average_fraction : forall A (f : A -> bool) l,
  average (fun a => if f a then 1%R else 0%R) l = fraction f l.
Proof.
  intros A f l. unfold average, fraction. destruct (length l =? 0); [reflexivity|].
  f_equal. f_equal. unfold number. induction l as [|a l IH]; cbn [sum_of fold_right filter].
  - reflexivity.
  - fold (sum_of (fun a => if f a then 1%R else 0%R) l). rewrite IH. destruct (f a).
    + cbn [length]. rewrite S_INR. ring.
    + ring.
Qed.

Lemma fraction_unit : forall A (f : A -> bool) l x, fraction f l = Some x -> (0 <= x <= 1)%R.
Proof.
  intros A f l x. unfold fraction. destruct (Nat.eqb_spec (length l) 0) as [E|E]; [discriminate|].
  intros X. injection X as <-.
  assert (L : number f l <= length l).
  { unfold number. clear E. induction l as [|a l IH]; cbn; [lia|]. destruct (f a); cbn; lia. }
  apply le_INR in L. pose proof (pos_INR (number f l)).
  assert (P : (0 < INR (length l))%R) by (apply lt_0_INR; lia).
  split.
  - apply Rmult_le_pos; [assumption|]. apply Rlt_le, Rinv_0_lt_compat. exact P.
  - apply (Rmult_le_reg_r (INR (length l))); [exact P|]. unfold Rdiv.
    rewrite Rmult_assoc, Rinv_l by lra. lra.
Qed.

Lemma unit_average : forall A (f : A -> R) l x, (forall a, f a = 0%R \/ f a = 1%R) ->
  average f l = Some x -> (0 <= x <= 1)%R.
Proof.
  intros A f l x H E.
  rewrite (@average_ext _ f (fun a => if Req_EM_T (f a) 1 then 1%R else 0%R)) in E.
  - rewrite (@average_ext _ _ (fun a => if (if Req_EM_T (f a) 1 then true else false) then 1%R else 0%R)) in E.
    + rewrite average_fraction in E. apply fraction_unit in E. exact E.
    + intros a _. destruct (Req_EM_T (f a) 1); reflexivity.
  - intros a _. destruct (Req_EM_T (f a) 1); destruct (H a); congruence.
Qed.

Theorem C54_fraction : forall n b s nw nd nb pv gv thr D W (pb gb : nat -> nat * nat * nat -> bool) (hi lo : nat * nat * nat -> R),
  1 <= b -> 2 * b <= s -> 1 <= nw -> 1 <= nd -> 1 <= nb ->
  (forall k w d c, k < ceil_div (n * s) b -> In (w, d, c) (all_places nw nd nb) ->
     ((thr < pv k w d c)%R <-> pb (k * b / s) (w, d, c) = true)) ->
  (forall k w d c, k < ceil_div (n * s) b -> In (w, d, c) (all_places nw nd nb) ->
     gv k w d c = if gb (k * b / s) (w, d, c) then hi (w, d, c) else lo (w, d, c)) ->
  (forall q, In q (all_places nw nd nb) -> (lo q < hi q)%R) ->
  (forall q, In q (all_places nw nd nb) -> exists i j, i < n /\ j < n /\ gb i q = true /\ gb j q = false) ->
  (0 <= W)%Z -> (0 <= W + D)%Z -> ((0 <= D)%Z \/ 2 * b < s) ->
  ber (Dim4 (ceil_div (n * s) b) nw nd nb pv) (Dim4 (ceil_div (n * s) b) nw nd nb gv) thr
      (inject_Z D) W (hz b) (hz s) =
  Ok (fraction (differ pb gb D) (list_prod (compared n (Z.to_nat W) D) (all_places nw nd nb))).
Proof.
  intros n b s nw nd nb pv gv thr D W pb gb hi lo H1 H2 H3 H4 H5 H6 H7 H8 H9 H10 H11 H12.
  unfold hz. rewrite (@ber_value n b s nw nd nb pv gv thr D W pb gb hi lo) by assumption.
  rewrite <- average_fraction. f_equal. apply average_ext. intros e _. unfold differ.
  destruct (pb _ _), (gb _ _); reflexivity.
Qed.

Theorem C54_unit : forall p g thr latency W br sr x, ber p g thr latency W br sr = Ok (Some x) ->
  (0 <= x <= 1)%R.
Proof.
  intros p g thr latency W br sr x H. rewrite ber_unfold in H.
  destruct (broadcast p g) as [[P G]|]; [|discriminate H]. cbn [bind fst snd] in H. cbv zeta in H.
  destruct (stretch _ P); [|discriminate H]. cbn [bind] in H.
  destruct (stretch _ _); [|discriminate H]. cbn [bind] in H.
  destruct (samples_of 1 _ br); [|discriminate H]. cbn [bind] in H.
  destruct (samples_of latency _ br); [|discriminate H]. cbn [bind] in H.
  destruct (samples_of _ _ br); [|discriminate H]. cbn [bind] in H.
  unfold ber_core in H. destruct (_ <? _)%Z; [discriminate H|]. destruct (_ <? _)%Z; [discriminate H|].
  destruct (_ <=? _)%Z; [discriminate H|]. cbv zeta in H. rewrite mean_of_map in H. injection H as H.
  apply unit_average in H; [exact H|]. intros e. cbv beta.
  destruct (Bool.eqb _ _); [left|right]; reflexivity.
Qed.

(** One stream of each, made by the generator from bit sequences of equal length. *)
Definition value (l : list R) (k : nat) : R := nth k l 0%R.
Theorem C54_streams : forall (pbits gbits : list bool) b s po go,
  length pbits = length gbits -> In true gbits -> In false gbits -> 1 <= b -> 2 * b <= s ->
  make_stream (fun _ _ l => l) (map bit pbits) (hz b) (hz s) None None = Ok po ->
  make_stream (fun _ _ l => l) (map bit gbits) (hz b) (hz s) None None = Ok go ->
  ber (Dim1 (length po) (value po)) (Dim1 (length go) (value go)) (/ 2) 0 0 (hz b) (hz s) =
  Ok (Some (INR (number (fun e => xorb (fst e) (snd e)) (combine pbits gbits)) / INR (length gbits))%R).
Proof.
  intros pbits gbits b s po go Hl Ht Hf Hb Hs Ep Eg.
  assert (Bs : b <= s) by lia.
  destruct (@make_stream_plain R (fun _ _ l => l) (map bit pbits) b s None Hb ltac:(lia)) as (po' & Ep' & P1 & P2).
  unfold hz in Ep. rewrite Ep in Ep'. injection Ep' as <-.
  destruct (@make_stream_plain R (fun _ _ l => l) (map bit gbits) b s None Hb ltac:(lia)) as (go' & Eg' & G1 & G2).
  unfold hz in Eg. rewrite Eg in Eg'. injection Eg' as <-.
  rewrite map_length in P1, G1. rewrite Hl in P1. rewrite P1, G1. set (n := length gbits) in *.
  assert (V : forall l o k, length o = ceil_div (n * s) b ->
    (forall k, k < length o -> nth_error o k = nth_error (map bit l) (k * b / s)) -> length l = n ->
    k < ceil_div (n * s) b -> value o k = bit (nth (k * b / s) l false)).
  { intros l o k Ho Hn Hln Hk. unfold value. apply nth_error_nth.
    rewrite Hn by lia. rewrite nth_error_map.
    apply ceil_lt in Hk; [|exact Hb].
    rewrite (@nth_error_nth' _ l (k * b / s) false); [reflexivity|].
    rewrite Hln. apply Nat.div_lt_upper_bound; lia. }
  change (ber (Dim1 (ceil_div (n * s) b) (value po)) (Dim1 (ceil_div (n * s) b) (value go)) (/ 2) 0 0 (hz b) (hz s))
    with (ber (Dim4 (ceil_div (n * s) b) 1 1 1 (fun i _ _ _ => value po i))
              (Dim4 (ceil_div (n * s) b) 1 1 1 (fun i _ _ _ => value go i)) (/ 2) (inject_Z 0) 0 (hz b) (hz s)).
  rewrite (@C54_fraction n b s 1 1 1 _ _ (/ 2) 0 0 (fun i _ => nth i pbits false)
             (fun i _ => nth i gbits false) (fun _ => 1%R) (fun _ => 0%R)); try lia.
  - f_equal. unfold fraction, compared, from_to, all_places.
    replace (Nat.min n (Z.to_nat (Z.of_nat n - 0)) - Z.to_nat 0) with n by lia.
    change (list_prod (list_prod (seq 0 (1 - 0)) (seq 0 (1 - 0))) (seq 0 (1 - 0))) with [(0, 0, 0)].
    rewrite prod_length, seq_length. cbn [length Z.to_nat]. rewrite Nat.mul_1_r.
    destruct (Nat.eqb_spec n 0) as [E|E].
    { unfold n in E. destruct gbits; [destruct Ht|discriminate E]. }
    f_equal. f_equal. f_equal. unfold number.
    assert (C : forall l m k, length l = length m ->
      length (filter (fun e => xorb (nth (fst e - k) l false) (nth (fst e - k) m false))
                (list_prod (seq k (length m)) [(0, 0, 0)])) =
      length (filter (fun e => xorb (fst e) (snd e)) (combine l m))).
    { induction l as [|x l IH]; intros m k Hlm; destruct m as [|y m]; try discriminate Hlm; [reflexivity|].
      cbn [length seq list_prod map app combine filter fst snd]. rewrite Nat.sub_diag.
      change (nth 0 (x :: l) false) with x. change (nth 0 (y :: m) false) with y.
      assert (Hlm' : length l = length m) by (cbn in Hlm; lia).
      assert (F : filter (fun e : nat * (nat * nat * nat) =>
          xorb (nth (fst e - k) (x :: l) false) (nth (fst e - k) (y :: m) false))
          (list_prod (seq (S k) (length m)) [(0, 0, 0)]) =
        filter (fun e : nat * (nat * nat * nat) =>
          xorb (nth (fst e - S k) l false) (nth (fst e - S k) m false))
          (list_prod (seq (S k) (length m)) [(0, 0, 0)])).
      { apply filter_ext_in. intros [i q] Hi. apply in_prod_iff in Hi. destruct Hi as [Hi _].
        apply in_seq in Hi. cbn [fst]. replace (i - k) with (S (i - S k)) by lia. reflexivity. }
      destruct (xorb x y); cbn [length]; rewrite F, (IH m (S k) Hlm'); reflexivity. }
    rewrite <- (C pbits gbits 0 Hl). f_equal. apply filter_ext. intros [i q]. unfold differ.
    cbn [fst snd]. rewrite Nat.sub_0_r. replace (Z.to_nat (Z.of_nat i + 0)) with i by lia. reflexivity.
  - intros k w d c Hk _. rewrite (V pbits po k) by assumption. unfold bit.
    destruct (nth _ pbits false); split; intros; try reflexivity; try discriminate; lra.
  - intros k w d c Hk _. rewrite (V gbits go k) by (try assumption; reflexivity). reflexivity.
  - intros. lra.
  - intros q _. apply In_nth with (d := false) in Ht. apply In_nth with (d := false) in Hf.
    destruct Ht as (i & Hi & Ei). destruct Hf as (j & Hj & Ej). exists i, j. repeat split; assumption.
Qed.

(** Identical streams: 0. *)
Theorem C54_identical : forall (bits : list bool) b s o,
  In true bits -> In false bits -> 1 <= b -> 2 * b <= s ->
  make_stream (fun _ _ l => l) (map bit bits) (hz b) (hz s) None None = Ok o ->
  ber (Dim1 (length o) (value o)) (Dim1 (length o) (value o)) (/ 2) 0 0 (hz b) (hz s) = Ok (Some 0%R).
Proof.
  intros bits b s o Ht Hf Hb Hs E. rewrite (@C54_streams bits bits b s o o) by (try assumption; reflexivity).
  f_equal. f_equal.
  assert (Z0 : number (fun e => xorb (fst e) (snd e)) (combine bits bits) = 0).
  { unfold number. clear. induction bits as [|x l IH]; [reflexivity|]. cbn. rewrite xorb_nilpotent. exact IH. }
  rewrite Z0. cbn [INR]. unfold Rdiv. ring.
Qed.

Example C54_example : exists po go,
  make_stream (fun _ _ l => l) (map bit [true; true; false]) (hz 2) (hz 5) None None = Ok po /\
  make_stream (fun _ _ l => l) (map bit [true; false; true]) (hz 2) (hz 5) None None = Ok go /\
  length po = 8 /\
  ber (Dim1 (length po) (value po)) (Dim1 (length go) (value go)) (/ 2) 0 0 (hz 2) (hz 5) =
  Ok (Some (2 / 3)%R).
Proof.
  eexists. eexists. split; [reflexivity|]. split; [reflexivity|]. split; [reflexivity|].
  erewrite (@C54_streams [true; true; false] [true; false; true] 2 5); try reflexivity; try lia.
  - cbn. f_equal. f_equal. lra.
  - left. reflexivity.
  - right. left. reflexivity.
Qed.

(** The standard deviation by which the target is divided is the unbiased one over all values; a single value has none. *)
Theorem C54_std x s : std x = Some s <-> 2 <= length (entries x) /\ (0 <= s)%R /\
  exists m, average (fun e => t_val x (fst e) (snd e)) (entries x) = Some m /\
  (s * s * INR (length (entries x) - 1) = total (map (fun e => (t_val x (fst e) (snd e) - m) * (t_val x (fst e) (snd e) - m)) (entries x)))%R.
Proof.
  unfold std. rewrite mean_of_map, map_length. set (n := length (entries x)).
  assert (Nn : forall l, (0 <= total (map (fun e => (fst e * fst e)%R) (l : list (R * R))))%R).
  { intros l. unfold total. induction l as [|a l IH]; cbn; [lra|]. pose proof (Rle_0_sqr (fst a)). unfold Rsqr in *. lra. }
  assert (Sq : forall m, total (map (fun v => ((v - m) ^ 2)%R) (map (fun e => t_val x (fst e) (snd e)) (entries x))) =
    total (map (fun e => ((t_val x (fst e) (snd e) - m) * (t_val x (fst e) (snd e) - m))%R) (entries x))).
  { intros m. rewrite map_map. f_equal. apply map_ext. intros e. ring. }
  assert (Pos : forall m, (0 <= total (map (fun e => ((t_val x (fst e) (snd e) - m) * (t_val x (fst e) (snd e) - m))%R) (entries x)))%R).
  { intros m. specialize (Nn (map (fun e => ((t_val x (fst e) (snd e) - m)%R, 0%R)) (entries x))). rewrite map_map in Nn. exact Nn. }
  destruct (average _ _) as [m|] eqn:Ea.
  2:{ split; [discriminate|]. intros (_ & _ & m & H & _). discriminate. }
  rewrite Sq. specialize (Pos m). set (v := total _) in *.
  assert (n <> 0) by (intros E; unfold average in Ea; fold n in Ea; rewrite E in Ea; discriminate).
  destruct (Nat.eqb_spec n 1) as [E1|E1].
  { split; [discriminate|]. intros (H' & _). lia. }
  assert (Np : (0 < INR (n - 1))%R) by (apply lt_0_INR; lia).
  split.
  - intros E. injection E as <-. split; [lia|]. split; [apply sqrt_pos|]. exists m. split; [reflexivity|].
    rewrite sqrt_sqrt; [change (v / INR (n - 1) * INR (n - 1) = v)%R; field; lra|]. apply Rmult_le_pos; [exact Pos|]. left. apply Rinv_0_lt_compat. exact Np.
  - intros (_ & Hs & m' & Em & E). injection Em as <-. f_equal. fold v in E. rewrite <- E.
    replace (s * s * INR (n - 1) / INR (n - 1))%R with (s * s)%R by (field; lra). apply sqrt_square. exact Hs.
Qed.
Example C54_std_ex : std {| t_len := 2; t_w := 1; t_d := 1; t_b := 1; t_val := fun i _ => if i =? 0 then 0%R else 2%R |} = Some (sqrt 2).
Proof. unfold std. cbn. f_equal. f_equal. field. Qed.
Print Assumptions C54_std.

(** Below twice the bit rate the sampled bit can be the wrong one: 2 bits at 4 Hz, sampled with
    5 Hz; the second bits differ, the result is 0. *)
Theorem C54_low_rate_refuted : exists po go,
  make_stream (fun _ _ l => l) (map bit [false; false]) (hz 4) (hz 5) None None = Ok po /\
  make_stream (fun _ _ l => l) (map bit [false; true]) (hz 4) (hz 5) None None = Ok go /\
  ber (Dim1 (length po) (value po)) (Dim1 (length go) (value go)) (/ 2) 0 0 (hz 4) (hz 5) =
  Ok (Some 0%R).
Proof.
  exists [0; 0; 0]%R, [0; 0; 1]%R. split; [reflexivity|]. split; [reflexivity|].
  rewrite ber_unfold. cbn [broadcast four bind bsize t_len t_w t_d t_b fst snd].
  change (length [0; 0; 0]%R) with 3. change (length [0; 0; 1]%R) with 3. cbn [bsize Nat.eqb bind fst snd].
  cbv zeta. change (rint (hz 4)) with 4%Z. change (rint (hz 5)) with 5%Z.
  change (4 / Z.gcd 5 4)%Z with 4%Z.
  match goal with |- context [ber_target ?G] => set (G0 := G) end.
  assert (Cm : column_mean G0 (0, 0, 0) = Some (1 / 3)%R).
  { unfold column_mean, G0, value. cbn. f_equal. lra. }
  destruct (@std_some G0) as (sd & Esd). { cbn. lia. }
  match goal with |- (do p <- stretch 4 ?P; _) = _ => set (P0 := P) end.
  change (stretch 4 P0) with (Ok {| t_len := 12; t_w := 1; t_d := 1; t_b := 1;
    t_val := fun i q => t_val P0 (i / 4) q |}).
  change (stretch 4 (ber_target G0)) with (Ok {| t_len := 12; t_w := 1; t_d := 1; t_b := 1;
    t_val := fun i q => t_val (ber_target G0) (i / 4) q |}).
  cbn [bind].
  change (samples_of 1 (inject_Z 4 * hz 5) (hz 4)) with (Ok 5%Z).
  change (samples_of 0 (inject_Z 4 * hz 5) (hz 4)) with (Ok 0%Z).
  change (samples_of (inject_Z (rint (inject_Z 0))) (inject_Z 4 * hz 5) (hz 4)) with (Ok 0%Z).
  cbn [bind]. unfold ber_core. cbv zeta.
  change (0 <? 0)%Z with false. change (0 + 5 / 2 + 0 <? 0)%Z with false. change (5 <=? 0)%Z with false.
  cbv iota. change (Z.to_nat (0 + 5 / 2 + 0)) with 2. change (Z.to_nat (0 + 5 / 2)) with 2.
  change (Z.to_nat 5) with 5. rewrite mean_of_map.
  match goal with |- Ok (average ?f ?l) = _ => change l with [(0, (0, 0, 0)); (1, (0, 0, 0))];
    assert (F : f (0, (0, 0, 0)) = 0%R /\ f (1, (0, 0, 0)) = 0%R) end.
  { cbn [take sample t_val fst snd ber_target].
    change ((2 + 0 * 5) / 4) with 0. change ((2 + 1 * 5) / 4) with 1.
    rewrite !(@normalized G0 _ _ _ _ Cm Esd).
    change (t_val G0 0 (0, 0, 0)) with 0%R. change (t_val G0 1 (0, 0, 0)) with 0%R.
    change (t_val P0 0 (0, 0, 0)) with 0%R. change (t_val P0 1 (0, 0, 0)) with 0%R.
    assert (A : gtb 0 (/ 2) = false). { destruct (gtb 0 (/ 2)) eqn:X; [apply gtb_true in X; lra|reflexivity]. }
    assert (B : gtb 0 (1 / 3) = false). { destruct (gtb 0 (1 / 3)) eqn:X; [apply gtb_true in X; lra|reflexivity]. }
    assert (C : gtb 0 0 = false). { destruct (gtb 0 0) eqn:X; [apply gtb_true in X; lra|reflexivity]. }
    rewrite A, B, C. split; reflexivity. }
  destruct F as [F0 F1]. unfold average. cbn [length Nat.eqb sum_of fold_right].
  rewrite F0, F1. f_equal. f_equal. unfold Rdiv. ring.
Qed.

Print Assumptions C53_stream.
Print Assumptions C53_random.
Print Assumptions C53_filtered.
Print Assumptions C54_fraction.
Print Assumptions C54_unit.
Print Assumptions C54_streams.
Print Assumptions C54_low_rate_refuted.
Print Assumptions C55_matrix.
Print Assumptions C55_matrix_full.
Print Assumptions C55_cube.
Print Assumptions C55_detectors_refuted.
Print Assumptions C55_value.
Print Assumptions C55_zero.
Print Assumptions C56_nearest.
Print Assumptions C56_negative.
Print Assumptions C56_refuted.
Print Assumptions C71_seed_partial.
Print Assumptions C73_refused_partial.
