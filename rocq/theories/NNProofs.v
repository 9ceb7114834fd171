(** Proofs about bit streams and losses. *)
From Coq Require Import QArith Qround Qabs Lqa Reals Lra.
From Verif Require Import Base SimModel NNModel NNSpec.
Set Implicit Arguments.
Unset Strict Implicit.
Local Open Scope nat_scope.

Lemma every_from_nth : forall A n (l : list A) s k, 1 <= n ->
  nth_error (every_from n s l) k = nth_error l (s + k * n).
Proof.
  intros A n l. induction l as [|a l IH]; intros s k Hn.
  - cbn. destruct (s + k * n); destruct k; reflexivity.
  - cbn. destruct s as [|s].
    + destruct k as [|k]; [reflexivity|]. cbn [nth_error]. rewrite IH by lia.
      replace (0 + S k * n) with (S (n - 1 + k * n)) by (cbn; lia). reflexivity.
    + rewrite IH by lia. reflexivity.
Qed.

Lemma nth_length : forall A (l : list A) n,
  (forall k, nth_error l k <> None <-> k < n) -> length l = n.
Proof.
  intros A l n H.
  assert (P : length l <= n).
  { destruct (Nat.le_gt_cases (length l) n) as [E|E]; [exact E|]. apply nth_error_Some in E.
    apply H in E. lia. }
  assert (Q : n <= length l).
  { destruct (Nat.le_gt_cases n (length l)) as [E|E]; [exact E|]. apply H in E.
    apply nth_error_Some in E. lia. }
  lia.
Qed.

Lemma ceil_lt : forall a b k, 1 <= b -> (k < ceil_div a b <-> k * b < a).
Proof.
  intros a b k Hb. unfold ceil_div.
  pose proof (Nat.div_mod (a + b - 1) b ltac:(lia)) as D.
  pose proof (Nat.mod_upper_bound (a + b - 1) b ltac:(lia)) as M.
  split; intros H; nia.
Qed.

Lemma every_from_length : forall A n (l : list A) s, 1 <= n ->
  length (every_from n s l) = ceil_div (length l - s) n.
Proof.
  intros A n l s Hn. apply nth_length. intros k. rewrite every_from_nth by exact Hn.
  rewrite ceil_lt by exact Hn. rewrite nth_error_Some. lia.
Qed.

Lemma repeat_rows_length : forall A n (l : list A), length (repeat_rows n l) = length l * n.
Proof.
  intros A n l. unfold repeat_rows. induction l as [|a l IH]; [reflexivity|].
  cbn. rewrite app_length, repeat_length, IH. reflexivity.
Qed.

Lemma repeat_rows_nth : forall A n (l : list A) k, 1 <= n ->
  nth_error (repeat_rows n l) k = nth_error l (k / n).
Proof.
  intros A n l. unfold repeat_rows. induction l as [|a l IH]; intros k Hn.
  - cbn. destruct k; destruct (_ / n); reflexivity.
  - cbn [flat_map]. destruct (Nat.lt_ge_cases k n) as [L|L].
    + rewrite nth_error_app1 by (rewrite repeat_length; exact L).
      rewrite (Nat.div_small k n L). cbn. apply nth_error_repeat. exact L.
    + rewrite nth_error_app2 by (rewrite repeat_length; exact L).
      rewrite repeat_length, IH by exact Hn.
      replace (k / n) with (S ((k - n) / n)); [reflexivity|].
      replace k with ((k - n) + 1 * n) at 2 by lia. rewrite Nat.div_add by lia. lia.
Qed.

Lemma rint_Z : forall z, (0 <= z)%Z -> rint (inject_Z z) = z.
Proof.
  intros z Hz. unfold rint, long, inject_Z, Qplus. cbn [Qnum Qden Pos.mul].
  rewrite Z.quot_div_nonneg by lia. symmetry. apply Z.div_unique with (r := 1%Z); lia.
Qed.

Lemma inject_Z_mult' : forall a b, (inject_Z a * inject_Z b)%Q = inject_Z (a * b).
Proof. intros. unfold inject_Z, Qmult. cbn. reflexivity. Qed.

Lemma gcd_split : forall s b, (0 < s)%Z -> (0 < b)%Z ->
  exists g rs rb, Z.gcd s b = g /\ (0 < g)%Z /\ (0 < rs)%Z /\ (0 < rb)%Z /\
    s = (rs * g)%Z /\ b = (rb * g)%Z /\ (s / g = rs)%Z /\ (b / g = rb)%Z.
Proof.
  intros s b Hs Hb. set (g := Z.gcd s b).
  assert (G : (0 < g)%Z).
  { assert (g <> 0)%Z. { intros E. apply Z.gcd_eq_0_l in E. lia. }
    pose proof (Z.gcd_nonneg s b). unfold g in *. lia. }
  destruct (Z.gcd_divide_l s b) as (rs & Es). destruct (Z.gcd_divide_r s b) as (rb & Eb).
  fold g in Es, Eb. exists g, rs, rb.
  assert (0 < rs)%Z by nia. assert (0 < rb)%Z by nia.
  repeat split; try assumption.
  - rewrite Es. apply Z.div_mul. lia.
  - rewrite Eb. apply Z.div_mul. lia.
Qed.

Lemma div_scale : forall k rb rs g, 1 <= g -> 1 <= rs -> k * (rb * g) / (rs * g) = k * rb / rs.
Proof.
  intros k rb rs g Hg Hr. rewrite Nat.mul_assoc. apply Nat.div_mul_cancel_r; lia.
Qed.

Lemma ceil_scale : forall n rb rs g, 1 <= g -> 1 <= rb ->
  ceil_div (n * (rs * g)) (rb * g) = ceil_div (n * rs) rb.
Proof.
  intros n rb rs g Hg Hr.
  assert (A : forall k, k < ceil_div (n * (rs * g)) (rb * g) <-> k < ceil_div (n * rs) rb).
  { intros k. rewrite !ceil_lt by nia. nia. }
  destruct (Nat.lt_trichotomy (ceil_div (n * (rs * g)) (rb * g)) (ceil_div (n * rs) rb)) as [H|[H|H]];
    [|exact H|]; apply A in H; lia.
Qed.

(** The stream of a bit sequence, no filter. *)
Lemma make_stream_plain : forall A lp (bits : list A) b s o, 1 <= b -> 1 <= s ->
  exists out, make_stream lp bits (inject_Z (Z.of_nat b)) (inject_Z (Z.of_nat s)) None o = Ok out /\
    holds_bits bits b s out.
Proof.
  intros A lp bits b s o Hb Hs. unfold make_stream.
  cbn [bind]. rewrite !rint_Z by lia.
  destruct (@gcd_split (Z.of_nat s) (Z.of_nat b) ltac:(lia) ltac:(lia))
    as (g & rs & rb & Eg & Pg & Prs & Prb & Es & Eb & Ds & Db).
  rewrite Eg, Ds, Db.
  destruct (Z.leb_spec rs 0); [lia|].
  unfold step_slice. rewrite Z.mul_1_r.
  destruct (Z.eqb_spec rb 0); [lia|]. destruct (Z.ltb_spec 0 rb); [|lia].
  eexists. split; [reflexivity|].
  assert (Ns : s = Z.to_nat rs * Z.to_nat g) by nia.
  assert (Nb : b = Z.to_nat rb * Z.to_nat g) by nia.
  split.
  - rewrite every_from_length by lia. rewrite repeat_rows_length, Nat.sub_0_r.
    rewrite Ns, Nb. symmetry. apply ceil_scale; lia.
  - intros k _. rewrite every_from_nth by lia. rewrite repeat_rows_nth by lia.
    rewrite Nat.add_0_l, Ns, Nb. rewrite div_scale by lia. reflexivity.
Qed.

(** The stream of a bit sequence with a filter: the bits are held [m] samples each, filtered, and
    every [q]-th value is taken, where [q/m] is bitrate/samplerate. *)
Lemma make_stream_filtered : forall A lp (bits : list A) b s c o, 1 <= b -> 1 <= s ->
  exists m q wn out,
    make_stream lp bits (inject_Z (Z.of_nat b)) (inject_Z (Z.of_nat s)) (Some c) o = Ok out /\
    1 <= m /\ 1 <= q /\ q * s = m * b /\
    (forall k, nth_error out k = nth_error (lp o wn (repeat_rows m bits)) (k * q)) /\
    length out = ceil_div (length (lp o wn (repeat_rows m bits))) q.
Proof.
  intros A lp bits b s c o Hb Hs. unfold make_stream.
  rewrite !rint_Z by lia. cbn [bind].
  destruct (Z.eqb_spec (Z.of_nat s) 0); [lia|].
  set (q0 := (rint (8 * c) / Z.of_nat s)%Z). cbv zeta. cbn [bind].
  assert (T : exists rc, (1 <= rc)%Z /\
    (if Qle_bool (inject_Z q0 * inject_Z (Z.of_nat s)) (inject_Z (Z.of_nat s))
     then inject_Z (Z.of_nat s) else (inject_Z q0 * inject_Z (Z.of_nat s))%Q)
    = inject_Z (rc * Z.of_nat s)).
  { destruct (Qle_bool (inject_Z q0 * inject_Z (Z.of_nat s)) (inject_Z (Z.of_nat s))) eqn:E.
    - exists 1%Z. split; [lia|]. rewrite Z.mul_1_l. reflexivity.
    - exists q0. rewrite inject_Z_mult' in *. split; [|reflexivity].
      apply Bool.not_true_iff_false in E. rewrite Qle_bool_iff in E.
      rewrite <- Zle_Qle in E. nia. }
  destruct T as (rc & Hrc & ->).
  rewrite rint_Z by lia. rewrite Z.div_mul by lia.
  destruct (@gcd_split (rc * Z.of_nat s) (Z.of_nat b) ltac:(lia) ltac:(lia))
    as (g & rs & rb & Eg & Pg & Prs & Prb & Es & Eb & Ds & Db).
  rewrite Eg, Ds, Db.
  destruct (Z.leb_spec rs 0); [lia|].
  set (d := ((1 # 2) * inject_Z (rc * Z.of_nat s) * inject_Z rb)%Q).
  destruct (Qeq_bool d 0) eqn:E.
  { apply Qeq_bool_iff in E. exfalso.
    assert (P : (0 < d)%Q).
    { unfold d. assert (P1 : (0 < inject_Z (rc * Z.of_nat s))%Q).
      { change 0%Q with (inject_Z 0). rewrite <- Zlt_Qlt. nia. }
      assert (P2 : (0 < inject_Z rb)%Q).
      { change 0%Q with (inject_Z 0). rewrite <- Zlt_Qlt. lia. }
      apply Qmult_lt_0_compat; [|exact P2]. apply Qmult_lt_0_compat; [reflexivity|exact P1]. }
    rewrite E in P. discriminate P. }
  cbn [bind]. unfold step_slice.
  destruct (Z.eqb_spec (rb * rc) 0); [nia|]. destruct (Z.ltb_spec 0 (rb * rc)); [|nia].
  exists (Z.to_nat rs), (Z.to_nat (rb * rc)), (c / d)%Q. eexists.
  split; [reflexivity|]. split; [lia|]. split; [lia|]. split; [nia|]. split.
  - intros k. rewrite every_from_nth by lia. reflexivity.
  - rewrite every_from_length by lia. rewrite Nat.sub_0_r. reflexivity.
Qed.

(** Rounding. *)
Lemma long_spec : forall q, (0 <= q)%Q -> (inject_Z (long q) <= q < inject_Z (long q) + 1)%Q.
Proof.
  intros [n d] H. unfold long, Qle, Qlt, inject_Z, Qplus in *. cbn in *.
  assert (0 <= n)%Z by lia.
  rewrite Z.quot_div_nonneg by lia.
  pose proof (Z.div_mod n (Zpos d) ltac:(lia)). pose proof (Z.mod_pos_bound n (Zpos d) ltac:(lia)).
  split; nia.
Qed.

Lemma long_opp : forall q, long (- q) = (- long q)%Z.
Proof. intros [n d]. unfold long, Qopp. cbn. apply Z.quot_opp_l. lia. Qed.

Lemma long_comp : forall p q, (p == q)%Q -> long p = long q.
Proof.
  intros [n d] [n' d'] H. unfold Qeq in H. cbn in H. unfold long. cbn.
  rewrite <- (@Z.quot_mul_cancel_r n (Zpos d) (Zpos d')) by lia.
  rewrite <- (@Z.quot_mul_cancel_r n' (Zpos d') (Zpos d)) by lia.
  rewrite H. f_equal. lia.
Qed.

Lemma rint_comp : forall p q, (p == q)%Q -> rint p = rint q.
Proof. intros p q H. apply long_comp. rewrite H. reflexivity. Qed.

Lemma rint_nearest : forall x, (- (1 # 2) <= x)%Q -> nearest (rint x) x.
Proof.
  intros x H. unfold nearest, rint.
  assert (P : (0 <= x + (1 # 2))%Q) by Lqa.lra.
  pose proof (@long_spec _ P). Lqa.lra.
Qed.

(** Below -1/2 the result is the nearest number plus one, or (half-way) one of the two above. *)
Lemma rint_below : forall x, (x < - (1 # 2))%Q ->
  (x + (1 # 2) <= inject_Z (rint x) < x + (3 # 2))%Q.
Proof.
  intros x H. unfold rint.
  assert (P : (0 <= - (x + (1 # 2)))%Q) by Lqa.lra.
  pose proof (@long_spec _ P) as L. rewrite long_opp in L. rewrite inject_Z_opp in L. Lqa.lra.
Qed.

Lemma rint_neg_Z : forall z, (z < 0)%Z -> rint (inject_Z z) = (z + 1)%Z.
Proof.
  intros z Hz.
  assert (L : (inject_Z z < - (1 # 2))%Q).
  { unfold Qlt, inject_Z. cbn. lia. }
  pose proof (@rint_below _ L) as [A B].
  set (r := rint (inject_Z z)) in *.
  assert (z < r)%Z. { rewrite Zlt_Qlt. Lqa.lra. }
  assert (r < z + 2)%Z. { rewrite Zlt_Qlt, inject_Z_plus. change (inject_Z 2) with 2%Q. Lqa.lra. }
  lia.
Qed.

Lemma total_map : forall A (f : A -> R) l, total (map f l) = sum_of f l.
Proof. intros A f l. induction l as [|a l IH]; [reflexivity|].
  unfold total, sum_of in *. cbn [map fold_right]. rewrite IH. reflexivity.
Qed.

Lemma mean_of_map : forall A (f : A -> R) l, mean_of (map f l) = average f l.
Proof.
  intros A f l. unfold average. rewrite <- total_map. destruct l as [|a l]; [reflexivity|].
  cbn [map mean_of length Nat.eqb]. rewrite map_length. reflexivity.
Qed.

Lemma list_prod_map_l : forall A B C (f : A -> B) (l : list A) (m : list C),
  list_prod (map f l) m = map (fun e => (f (fst e), snd e)) (list_prod l m).
Proof.
  intros A B C f l m. induction l as [|a l IH]; [reflexivity|].
  cbn. rewrite map_app, <- IH. f_equal. rewrite map_map. reflexivity.
Qed.

Lemma average_map : forall A B (f : B -> R) (g : A -> B) l,
  average f (map g l) = average (fun a => f (g a)) l.
Proof.
  intros A B f g l. unfold average. rewrite map_length, <- !total_map, map_map. reflexivity.
Qed.

Lemma average_ext : forall A (f g : A -> R) l, (forall a, In a l -> f a = g a) ->
  average f l = average g l.
Proof.
  intros A f g l H. rewrite <- !mean_of_map. f_equal. apply map_ext_in. exact H.
Qed.

Lemma shift_seq : forall w m, seq w m = map (fun i => w + i) (seq 0 m).
Proof.
  intros w m. revert w. induction m as [|m IH]; intros w; [reflexivity|].
  cbn. f_equal; [lia|]. rewrite (IH (S w)), (IH 1), map_map. apply map_ext. intros. lia.
Qed.

Lemma from_to_0 : forall n, from_to 0 n = seq 0 n.
Proof. intros n. unfold from_to. rewrite Nat.sub_0_r. reflexivity. Qed.

(** Average over shifted times. *)
Lemma average_shift : forall B (f : nat * B -> R) w m (qs : list B),
  average f (list_prod (seq w m) qs) = average (fun e => f (w + fst e, snd e)) (list_prod (seq 0 m) qs).
Proof.
  intros B f w m qs. rewrite shift_seq, list_prod_map_l, average_map. reflexivity.
Qed.

Lemma samples_of_ok : forall x sr br, ~ (br == 0)%Q ->
  samples_of x sr br = Ok (rint (x * sr / br)%Q).
Proof.
  intros x sr br H. unfold samples_of. destruct (Qeq_bool br 0) eqn:E; [|reflexivity].
  apply Qeq_bool_iff in E. contradiction.
Qed.

Definition same_size (N nw nd nb : nat) (x : tensor) : Prop :=
  t_len x = N /\ t_w x = nw /\ t_d x = nd /\ t_b x = nb.

Lemma bsize_same : forall n, bsize n n = Ok n.
Proof. intros n. unfold bsize. rewrite Nat.eqb_refl. reflexivity. Qed.

Lemma bindex_lt : forall n i, i < n -> bindex n i = i.
Proof. intros n i H. unfold bindex. destruct (Nat.eqb_spec n 1); [lia|reflexivity]. Qed.

Lemma broadcast_same : forall N nw nd nb pv gv,
  broadcast (Dim4 N nw nd nb pv) (Dim4 N nw nd nb gv) =
  Ok (expand {| t_len := N; t_w := nw; t_d := nd; t_b := nb;
                t_val := fun i p => pv i (fst (fst p)) (snd (fst p)) (snd p) |} N nw nd nb,
      expand {| t_len := N; t_w := nw; t_d := nd; t_b := nb;
                t_val := fun i p => gv i (fst (fst p)) (snd (fst p)) (snd p) |} N nw nd nb).
Proof.
  intros. unfold broadcast. cbn [four bind t_len t_w t_d t_b]. rewrite !bsize_same. reflexivity.
Qed.

Lemma in_places : forall nw nd nb q, In q (all_places nw nd nb) <->
  fst (fst q) < nw /\ snd (fst q) < nd /\ snd q < nb.
Proof.
  intros nw nd nb [[w d] b]. unfold all_places. rewrite !from_to_0, !in_prod_iff, !in_seq. cbn. lia.
Qed.

(** MSE of tensors already expanded. *)
Definition mse_core (p g : tensor) (l w : Z) : res (option R) :=
  if (w <? 0)%Z then Err ValueError
  else if (w + l <? 0)%Z then Err ValueError
  else
    let g := drop (Z.to_nat w) g in
    let p := drop (Z.to_nat (w + l)) p in
    let m := Nat.min (t_len g) (t_len p) in
    let g := take m g in
    let p := take m p in
    Ok (mean_of (map (fun e => (t_val g (fst e) (snd e) - t_val p (fst e) (snd e)) ^ 2)%R (entries p))).

Lemma mse_core_val : forall N nw nd nb p g l w, same_size N nw nd nb p -> same_size N nw nd nb g ->
  (0 <= w)%Z -> (0 <= w + l)%Z ->
  mse_core p g l w = Ok (average (fun e =>
    (t_val g (fst e) (snd e) - t_val p (Z.to_nat (Z.of_nat (fst e) + l)) (snd e)) ^ 2)%R
    (list_prod (compared N (Z.to_nat w) l) (all_places nw nd nb))).
Proof.
  intros N nw nd nb p g l w (E1 & E2 & E3 & E4) (F1 & F2 & F3 & F4) Hw Hl. unfold mse_core.
  destruct (Z.ltb_spec w 0); [lia|]. destruct (Z.ltb_spec (w + l) 0); [lia|].
  f_equal. rewrite mean_of_map. unfold compared, from_to. rewrite average_shift.
  unfold entries, places, all_places. cbn [take drop t_len t_w t_d t_b t_val].
  rewrite E1, E2, E3, E4, F1, !from_to_0.
  replace (Nat.min (Nat.min (N - Z.to_nat w) (N - Z.to_nat (w + l))) (N - Z.to_nat (w + l)))
    with (Nat.min N (Z.to_nat (Z.of_nat N - l)) - Z.to_nat w) by lia.
  apply average_ext. intros [i q] _. cbn [fst snd].
  replace (Z.to_nat (Z.of_nat (Z.to_nat w + i) + l)) with (Z.to_nat (w + l) + i) by lia.
  reflexivity.
Qed.

Lemma mse_unfold : forall p g latency W br sr, mse p g latency W br sr =
  do pg <- broadcast p g;
  do l <- samples_of latency sr br;
  do w <- samples_of (inject_Z (rint (inject_Z W))) sr br;
  mse_core (fst pg) (snd pg) l w.
Proof.
  intros. unfold mse, mse_core. destruct (broadcast p g) as [[P G]|]; reflexivity.
Qed.

Lemma mse_value : forall N nw nd nb pv gv latency W bitrate samplerate l w,
  ~ (bitrate == 0)%Q -> (0 <= W)%Z ->
  rint (latency * samplerate / bitrate) = l -> rint (inject_Z W * samplerate / bitrate) = w ->
  (0 <= w)%Z -> (0 <= w + l)%Z ->
  mse (Dim4 N nw nd nb pv) (Dim4 N nw nd nb gv) latency W bitrate samplerate =
  Ok (average (fun e => let '(i, (k, d, b)) := e in
    (gv i k d b - pv (Z.to_nat (Z.of_nat i + l)) k d b) ^ 2)%R
    (list_prod (compared N (Z.to_nat w) l) (all_places nw nd nb))).
Proof.
  intros N nw nd nb pv gv latency W br sr l w Hb HW El Ew Hw Hl. rewrite mse_unfold.
  rewrite broadcast_same. cbn [bind fst snd]. rewrite !samples_of_ok by exact Hb. cbn [bind].
  rewrite (rint_Z HW), El, Ew.
  rewrite (@mse_core_val N nw nd nb) by (first [assumption | repeat split]).
  f_equal. apply average_ext. intros [i [[k d] b]] H. apply in_prod_iff in H.
  destruct H as [Hi Hq]. apply in_places in Hq. cbn in Hq. destruct Hq as (Qk & Qd & Qb).
  unfold compared, from_to in Hi. apply in_seq in Hi.
  cbn [fst snd expand t_val t_len t_w t_d t_b].
  rewrite !bindex_lt by lia. reflexivity.
Qed.

(** Sums of non-negative numbers. *)
Lemma sum_of_nonneg : forall A (f : A -> R) l, (forall a, In a l -> (0 <= f a)%R) -> (0 <= sum_of f l)%R.
Proof.
  intros A f l H. induction l as [|a l IH]; cbn.
  - apply Rle_refl.
  - apply Rplus_le_le_0_compat; [apply H; left; reflexivity|].
    apply IH. intros b Hb. apply H. right. exact Hb.
Qed.

Lemma sum_of_zero : forall A (f : A -> R) l, (forall a, In a l -> (0 <= f a)%R) ->
  (sum_of f l = 0%R <-> forall a, In a l -> f a = 0%R).
Proof.
  intros A f l H. induction l as [|a l IH]; cbn.
  - split; [intros _ b []|reflexivity].
  - assert (Ha : (0 <= f a)%R) by (apply H; left; reflexivity).
    assert (Hl : forall b, In b l -> (0 <= f b)%R) by (intros b Hb; apply H; right; exact Hb).
    pose proof (@sum_of_nonneg _ f l Hl) as Hs. specialize (IH Hl).
    fold (sum_of f l). split.
    + intros E. assert (f a = 0%R) by lra. assert (Es : sum_of f l = 0%R) by lra.
      intros b [->|Hb]; [assumption|]. apply IH; assumption.
    + intros E. rewrite (E a (or_introl eq_refl)).
      assert (Es : sum_of f l = 0%R). { apply IH. intros b Hb. apply E. right. exact Hb. }
      lra.
Qed.

Lemma average_zero : forall A (f : A -> R) l, l <> [] -> (forall a, In a l -> (0 <= f a)%R) ->
  (average f l = Some 0%R <-> forall a, In a l -> f a = 0%R).
Proof.
  intros A f l Hl H. unfold average. destruct l as [|b l]; [contradiction|].
  destruct (Nat.eqb_spec (length (b :: l)) 0) as [E|E]; [cbn in E; lia|].
  rewrite <- (@sum_of_zero _ f (b :: l) H).
  assert (P : (0 < INR (length (b :: l)))%R) by (apply lt_0_INR; cbn; lia).
  split.
  - intros X. injection X as X. apply (Rmult_eq_reg_r (/ INR (length (b :: l)))).
    + rewrite Rmult_0_l. exact X.
    + apply Rinv_neq_0_compat. lra.
  - intros ->. f_equal. unfold Rdiv. ring.
Qed.

Lemma average_nonneg : forall A (f : A -> R) l x, (forall a, In a l -> (0 <= f a)%R) ->
  average f l = Some x -> (0 <= x)%R.
Proof.
  intros A f l x H. unfold average. destruct (Nat.eqb_spec (length l) 0) as [E|E]; [discriminate|].
  intros X. injection X as <-.
  apply Rmult_le_pos; [apply sum_of_nonneg; exact H|].
  apply Rlt_le, Rinv_0_lt_compat, lt_0_INR. lia.
Qed.

(** Sampling positions: the sample at [x] bits plus [e] (of [rs] per bit), in a stream of which
    every sample is repeated [rb] times, belongs to bit [x]. *)
Lemma pick : forall x e rs rb, 1 <= rb -> rb - 1 <= e -> e < rs -> (x * rs + e) / rb * rb / rs = x.
Proof.
  intros x e rs rb Hb He Hr.
  pose proof (Nat.div_mod (x * rs + e) rb ltac:(lia)) as D.
  pose proof (Nat.mod_upper_bound (x * rs + e) rb ltac:(lia)) as M.
  set (q := (x * rs + e) / rb) in *. symmetry.
  apply Nat.div_unique with (r := q * rb - x * rs); nia.
Qed.

(** The length of such a stream in repeated samples. *)
Lemma ceil_bounds : forall n rs rb, 1 <= rb ->
  n * rs <= ceil_div (n * rs) rb * rb /\ ceil_div (n * rs) rb * rb <= n * rs + (rb - 1).
Proof.
  intros n rs rb Hb. unfold ceil_div.
  pose proof (Nat.div_mod (n * rs + rb - 1) rb ltac:(lia)) as D.
  pose proof (Nat.mod_upper_bound (n * rs + rb - 1) rb ltac:(lia)) as M.
  split; nia.
Qed.

Lemma ceil_ext : forall a b a' b', (forall k, k < ceil_div a b <-> k < ceil_div a' b') ->
  ceil_div a b = ceil_div a' b'.
Proof.
  intros a b a' b' H.
  destruct (Nat.lt_trichotomy (ceil_div a b) (ceil_div a' b')) as [E|[E|E]]; [|exact E|];
    apply H in E; lia.
Qed.

Lemma nat_ext : forall a b, (forall k, k < a <-> k < b) -> a = b.
Proof.
  intros a b H. destruct (Nat.lt_trichotomy a b) as [E|[E|E]]; [|exact E|]; apply H in E; lia.
Qed.

(** The mean of numbers not above [hi], one of them below. *)
Lemma sum_lt : forall A (f : A -> R) l hi, (forall a, In a l -> (f a <= hi)%R) ->
  (exists a, In a l /\ (f a < hi)%R) -> (sum_of f l < INR (length l) * hi)%R.
Proof.
  intros A f l hi H (a & Ha & La). induction l as [|b l IH]; [destruct Ha|].
  assert (W : (sum_of f l <= INR (length l) * hi)%R).
  { clear IH Ha. assert (H' : forall a, In a l -> (f a <= hi)%R) by (intros c Hc; apply H; right; exact Hc).
    clear H. induction l as [|c l IH]; cbn [sum_of fold_right length].
    - cbn. lra.
    - rewrite S_INR. fold (sum_of f l). pose proof (H' c (or_introl eq_refl)).
      assert (sum_of f l <= INR (length l) * hi)%R by (apply IH; intros d Hd; apply H'; right; exact Hd).
      lra. }
  cbn [sum_of fold_right length]. rewrite S_INR. fold (sum_of f l).
  pose proof (H b (or_introl eq_refl)).
  destruct Ha as [->|Ha]; [lra|].
  assert (sum_of f l < INR (length l) * hi)%R.
  { apply IH; [|exact Ha]. intros c Hc. apply H. right. exact Hc. }
  lra.
Qed.

Lemma sum_opp : forall A (f : A -> R) l, sum_of (fun a => (- f a)%R) l = (- sum_of f l)%R.
Proof.
  intros A f l. induction l as [|a l IH]; cbn [sum_of fold_right].
  - ring.
  - fold (sum_of f l). fold (sum_of (fun a => (- f a)%R) l). rewrite IH. ring.
Qed.

Lemma mean_between : forall A (f : A -> R) l lo hi,
  (forall a, In a l -> (lo <= f a <= hi)%R) ->
  (exists a, In a l /\ (f a < hi)%R) -> (exists a, In a l /\ (lo < f a)%R) ->
  exists m, average f l = Some m /\ (lo < m < hi)%R.
Proof.
  intros A f l lo hi H U L.
  assert (N : l <> []). { intros ->. destruct U as (a & [] & _). }
  unfold average. destruct (Nat.eqb_spec (length l) 0) as [E|E].
  { destruct l; [contradiction|cbn in E; lia]. }
  exists (sum_of f l / INR (length l))%R. split; [reflexivity|].
  assert (P : (0 < INR (length l))%R) by (apply lt_0_INR; lia).
  assert (S1 : (sum_of f l < INR (length l) * hi)%R).
  { apply sum_lt; [|exact U]. intros a Ha. apply H. exact Ha. }
  assert (S2 : (- sum_of f l < INR (length l) * - lo)%R).
  { rewrite <- sum_opp. apply sum_lt.
    - intros a Ha. pose proof (H a Ha). lra.
    - destruct L as (a & Ha & La). exists a. split; [exact Ha|lra]. }
  split.
  - apply (Rmult_lt_reg_r (INR (length l))); [exact P|]. unfold Rdiv.
    rewrite Rmult_assoc, Rinv_l by lra. lra.
  - apply (Rmult_lt_reg_r (INR (length l))); [exact P|]. unfold Rdiv.
    rewrite Rmult_assoc, Rinv_l by lra. lra.
Qed.

Lemma gtb_true : forall a b, gtb a b = true <-> (b < a)%R.
Proof. intros a b. unfold gtb. destruct (Rlt_dec b a); split; intros; congruence. Qed.

(** Where the normalised target is positive. *)
Lemma normalized : forall x i q m s, column_mean x q = Some m -> std x = Some s ->
  normalized_above_0 x i q = gtb (t_val x i q) m.
Proof.
  intros x i q m s Em Es. unfold normalized_above_0. rewrite Em, Es.
  assert (P : (0 <= s)%R).
  { unfold std in Es. destruct (mean_of _); [|discriminate].
    destruct (_ =? 1); [discriminate|]. injection Es as <-. apply sqrt_pos. }
  apply Bool.eq_true_iff_eq. destruct (Req_EM_T s 0) as [E|E]; rewrite !gtb_true.
  - split; intros; lra.
  - assert (Q : (0 < / s)%R) by (apply Rinv_0_lt_compat; lra). unfold Rdiv. split; intros H.
    + assert (0 < t_val x i q - m)%R; [|lra].
      apply (Rmult_lt_reg_r (/ s)); [exact Q|]. lra.
    + apply Rmult_lt_0_compat; [lra|exact Q].
Qed.

Lemma std_some : forall x, 2 <= length (entries x) -> exists s, std x = Some s.
Proof.
  intros x H. unfold std. rewrite mean_of_map. unfold average.
  destruct (Nat.eqb_spec (length (entries x)) 0); [lia|].
  rewrite map_length. destruct (Nat.eqb_spec (length (entries x)) 1); [lia|].
  eexists. reflexivity.
Qed.
