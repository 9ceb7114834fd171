(** Proofs about [lfilter]. *)
From Coq Require Import Ring Permutation Lia.
From Verif Require Import Base SimModel SimAlg FilterModel FilterSpec.
Set Implicit Arguments.
Unset Strict Implicit.
Local Open Scope nat_scope.

Section P.
Variables (K : Type) (k0 k1 : K) (kadd kmul ksub : K -> K -> K) (kopp : K -> K) (kdiv : K -> K -> K) (is0 : K -> bool).
Hypothesis KR : ring_theory k0 k1 kadd kmul ksub kopp (@eq K).
Add Ring Kring : KR.
Hypothesis DIV : forall x d, is0 d = false -> kmul d (kdiv x d) = x.
Hypothesis DIV' : forall x d, is0 d = false -> kdiv (kmul d x) d = x.
Notation sum := (lsum k0 kadd).
Notation "l @ k" := (nth k l k0) (at level 20).
Notation lfilter := (lfilter k0 kadd kmul ksub kdiv is0).
Notation filter_step := (filter_step k0 kadd kmul ksub).
Notation convolved := (convolved k0 kadd kmul).
Notation solves := (solves k0 kadd kmul ksub).

Lemma cancel d u v : is0 d = false -> kmul d u = kmul d v -> u = v.
Proof. intros H E. rewrite <- (DIV' u H), <- (DIV' v H), E. reflexivity. Qed.

(** Reading a sum backwards. *)
Lemma sum_rev f n : sum f (seq 0 n) = sum (fun k => f (n - 1 - k)) (seq 0 n).
Proof.
  transitivity (sum f (map (fun k => n - 1 - k) (seq 0 n))).
  2:{ apply (lsum_map k0 kadd). }
  apply (lsum_perm KR). apply NoDup_Permutation.
  - apply seq_NoDup.
  - assert (N : forall l, NoDup l -> (forall k, In k l -> k < n) -> NoDup (map (fun k => n - 1 - k) l)).
    { intros l Nl. induction Nl as [|a l Na Nl IH]; intros Hl; cbn [map]; constructor.
      - rewrite in_map_iff. intros (k & Ek & Ik). assert (k = a); [|congruence].
        pose proof (Hl k (or_intror Ik)). pose proof (Hl a (or_introl eq_refl)). lia.
      - apply IH. intros k Ik. apply Hl. right; exact Ik. }
    apply N; [apply seq_NoDup|]. intros k Ik. apply in_seq in Ik. lia.
  - intros x. rewrite in_map_iff, in_seq. split.
    + intros L. exists (n - 1 - x). rewrite in_seq. lia.
    + intros (k & <- & Hk). apply in_seq in Hk. lia.
Qed.

Lemma dot_sum u v : length u = length v -> dot k0 kadd kmul u v = sum (fun j => kmul (u @ j) (v @ j)) (seq 0 (length u)).
Proof.
  revert v. induction u as [|a u IH]; intros [|c v] L; try discriminate; [reflexivity|].
  cbn [dot length seq]. rewrite lsum_cons. f_equal. rewrite IH by (cbn in L; lia).
  rewrite <- seq_shift, (lsum_map k0 kadd). reflexivity.
Qed.

Lemma nth_cut {A} (l : list A) d i j k : k < j - i -> nth k (cut i j l) d = nth (i + k) l d.
Proof.
  intros L. unfold cut.
  assert (E : forall (m : list A) n k, k < n -> nth k (firstn n m) d = nth k m d).
  { clear. intros m n. revert m. induction n as [|n IH]; intros m k L; [lia|]. destruct m; [reflexivity|].
    destruct k as [|k]; [reflexivity|]. cbn. apply IH. lia. }
  rewrite E by auto. clear. revert i. induction l as [|x l IH]; intros i.
  - rewrite skipn_nil, !nth_overflow by (cbn; lia). reflexivity.
  - destruct i; [reflexivity|]. cbn. apply IH.
Qed.
Lemma cut_length {A} (l : list A) i j : j <= length l -> length (cut i j l) = j - i.
Proof. intros L. unfold cut. rewrite firstn_length, skipn_length. lia. Qed.
Lemma firstn_cut {A} (l : list A) n : firstn n l = cut 0 n l.
Proof. unfold cut. rewrite Nat.sub_0_r. reflexivity. Qed.
Lemma skipn_cut {A} (l : list A) n : skipn n l = cut n (length l) l.
Proof. unfold cut. rewrite firstn_all2; auto. rewrite skipn_length. lia. Qed.

(** A window of coefficients, stored backwards, times a window of values. *)
Lemma mulsum_conv (u v : list K) (c z : nat -> K) p : length u = p -> length v = p ->
  (forall j, j < p -> u @ j = c (p - 1 - j)) -> (forall j, j < p -> v @ j = z (p - 1 - j)) ->
  mulsum k0 kadd kmul u v = Ok (sum (fun k => kmul (c k) (z k)) (seq 0 p)).
Proof.
  intros Lu Lv Hu Hv. unfold mulsum. rewrite Lu, Lv, Nat.eqb_refl. f_equal.
  rewrite dot_sum by lia. rewrite Lu, sum_rev. apply lsum_ext. intros k Ik. apply in_seq in Ik.
  rewrite Hu, Hv by lia. replace (p - 1 - (p - 1 - k)) with k by lia. reflexivity.
Qed.

(** The stored coefficients: [b] as given, [a] without the first and backwards. *)
Definition stored_a (a : list K) : list K := rev (tl a).

Lemma nth_rev (l : list K) k : k < length l -> rev l @ k = l @ (length l - 1 - k).
Proof. intros L. rewrite rev_nth by auto. f_equal. lia. Qed.

(** One step of the filter, with coefficients [b] and [a] that are already divided. *)
Lemma step_ok (b a x y : list K) : length a + 1 = length b -> length y < length x -> 1 <= length y ->
  filter_step b a x y (length y) =
  Ok (y ++ [ksub (convolved (rev b) x (length y)) (convolved (k0 :: rev a) y (length y))]).
Proof.
  intros Lab Ly L1. set (n := length y) in *. set (m := length b) in *. unfold FilterModel.filter_step.
  cbv zeta. fold m. destruct (Nat.leb_spec (length x) n); [lia|].
  assert (CB : convolved (rev b) x n = sum (fun k => kmul (rev b @ k) (x @ (n - k))) (seq 0 (Nat.min (n + 1) m))).
  { unfold FilterSpec.convolved. rewrite rev_length. fold m.
    replace m with (Nat.min (n + 1) m + (m - Nat.min (n + 1) m)) at 1 by lia.
    rewrite seq_app, (lsum_app KR), (lsum_0 KR _ (seq (0 + Nat.min (n + 1) m) _)).
    - match goal with |- kadd ?u k0 = _ => transitivity u; [ring|] end.
      apply lsum_ext. intros k Ik. apply in_seq in Ik. destruct (Nat.leb_spec k n); [reflexivity|lia].
    - intros k Ik. apply in_seq in Ik. destruct (Nat.leb_spec k n); [lia|reflexivity]. }
  assert (CA : convolved (k0 :: rev a) y n = sum (fun k => kmul (rev a @ k) (y @ (n - 1 - k))) (seq 0 (Nat.min n (length a)))).
  { unfold FilterSpec.convolved. cbn [length seq]. rewrite lsum_cons. cbn [nth Nat.leb]. rewrite <- seq_shift, (lsum_map k0 kadd), rev_length.
    replace (length a) with (Nat.min n (length a) + (length a - Nat.min n (length a))) at 1 by lia.
    rewrite seq_app, (lsum_app KR), (lsum_0 KR _ (seq (0 + Nat.min n (length a)) _)).
    - match goal with |- kadd (kmul k0 _) (kadd ?u k0) = _ => transitivity u; [ring|] end.
      apply lsum_ext. intros k Ik. apply in_seq in Ik. destruct (Nat.leb_spec (S k) n); [|lia].
      cbn [nth]. f_equal. f_equal. lia.
    - intros k Ik. apply in_seq in Ik. destruct (Nat.leb_spec (S k) n); [lia|reflexivity]. }
  destruct (Nat.ltb_spec n m).
  - rewrite (@mulsum_conv _ _ (fun k => rev b @ k) (fun k => x @ (n - k)) (n + 1)).
    + cbn [bind]. rewrite (@mulsum_conv _ _ (fun k => rev a @ k) (fun k => y @ (n - 1 - k)) n).
      * cbn [bind]. rewrite CB, CA. replace (Nat.min (n + 1) m) with (n + 1) by lia. replace (Nat.min n (length a)) with n by lia. reflexivity.
      * rewrite skipn_length. lia.
      * rewrite firstn_length. lia.
      * intros j Lj. rewrite skipn_cut, nth_cut by lia. rewrite nth_rev by lia. f_equal. lia.
      * intros j Lj. rewrite firstn_cut, nth_cut by lia. f_equal. lia.
    + rewrite skipn_length. fold m. lia.
    + rewrite firstn_length. lia.
    + intros j Lj. rewrite skipn_cut, nth_cut by (fold m; lia). rewrite nth_rev by (fold m; lia). fold m. f_equal. lia.
    + intros j Lj. rewrite firstn_cut, nth_cut by lia. f_equal. lia.
  - rewrite (@mulsum_conv _ _ (fun k => rev b @ k) (fun k => x @ (n - k)) m).
    + cbn [bind]. rewrite (@mulsum_conv _ _ (fun k => rev a @ k) (fun k => y @ (n - 1 - k)) (length a)).
      * cbn [bind]. rewrite CB, CA. replace (Nat.min (n + 1) m) with m by lia. replace (Nat.min n (length a)) with (length a) by lia. reflexivity.
      * reflexivity.
      * rewrite cut_length by (fold n; lia). lia.
      * intros j Lj. rewrite nth_rev by lia. f_equal. lia.
      * intros j Lj. rewrite nth_cut by lia. f_equal. lia.
    + reflexivity.
    + rewrite cut_length by lia. lia.
    + intros j Lj. rewrite nth_rev by (fold m; lia). fold m. f_equal. lia.
    + intros j Lj. rewrite nth_cut by lia. f_equal. lia.
Qed.

(** The equation up to length [N], for divided coefficients. *)
Definition upto (b a x y : list K) (N : nat) : Prop := length y = N /\
  forall n, n < N -> y @ n = ksub (convolved b x n) (convolved (k0 :: a) y n).

Lemma conv_app c y z n : n < length y -> convolved c (y ++ z) n = convolved c y n.
Proof.
  intros L. apply lsum_ext. intros k _. destruct (k <=? n); auto. rewrite app_nth1; auto. lia.
Qed.
Lemma conv_0 c y z n : n = length y -> convolved (k0 :: c) (y ++ z) n = convolved (k0 :: c) y n.
Proof.
  intros L. unfold FilterSpec.convolved. cbn [length seq]. rewrite !lsum_cons. cbn [nth Nat.leb]. f_equal; [ring|].
  apply lsum_ext. intros k Ik. apply in_seq in Ik. destruct (Nat.leb_spec k n); auto. rewrite app_nth1; auto. lia.
Qed.

Lemma upto_snoc b a x y : upto b a x y (length y) ->
  upto b a x (y ++ [ksub (convolved b x (length y)) (convolved (k0 :: a) y (length y))]) (S (length y)).
Proof.
  intros [_ H]. split; [rewrite app_length; cbn; lia|]. intros n L.
  destruct (Nat.eq_dec n (length y)) as [->|N].
  - rewrite app_nth2, Nat.sub_diag by lia. cbn [nth]. rewrite conv_0; auto.
  - rewrite app_nth1, conv_app by lia. apply H. lia.
Qed.

Lemma loop_ok (b a x : list K) : length a + 1 = length b -> forall d y, 1 <= length y -> length y + d <= length x ->
  upto (rev b) (rev a) x y (length y) ->
  exists y', foldM (filter_step b a x) y (seq (length y) d) = Ok y' /\ upto (rev b) (rev a) x y' (length y + d).
Proof.
  intros Lab. induction d as [|d IH]; intros y L1 Ly U.
  - exists y. split; [reflexivity|]. rewrite Nat.add_0_r. exact U.
  - cbn [seq foldM]. rewrite step_ok by (auto; lia). cbn [bind].
    pose proof (upto_snoc U) as U'. pose proof (proj1 U') as LU.
    edestruct IH as (y' & E & U2); [| |rewrite LU; exact U'|].
    { lia. } { lia. }
    rewrite LU in E, U2. exists y'. split; [exact E|]. replace (length y + S d) with (S (length y) + d) by lia. exact U2.
Qed.

Lemma conv_map d (c : list K) z n : is0 d = false -> kmul d (convolved (map (fun q => kdiv q d) c) z n) = convolved c z n.
Proof.
  intros H. unfold FilterSpec.convolved. rewrite map_length, <- (lsum_mul KR). apply lsum_ext. intros k Ik. apply in_seq in Ik.
  destruct (k <=? n); [|ring].
  rewrite nth_indep with (d' := kdiv k0 d) by (rewrite map_length; lia). rewrite (map_nth (fun q => kdiv q d)).
  rewrite <- (DIV (c @ k) H) at 2. ring.
Qed.
Lemma div_0 d : is0 d = false -> kdiv k0 d = k0.
Proof. intros H. rewrite <- (DIV' k0 H) at 2. f_equal. ring. Qed.

Lemma tl_map (f : K -> K) l : tl (map f l) = map f (tl l). Proof. destruct l; reflexivity. Qed.

(** From divided coefficients to the equation. *)
Lemma upto_solves b a x y : is0 (a @ 0) = false ->
  upto (map (fun q => kdiv q (a @ 0)) b) (map (fun q => kdiv q (a @ 0)) (tl a)) x y (length x) <-> solves b a x y.
Proof.
  intros H0. unfold upto, FilterSpec.solves. split; intros [L H]; split; auto; intros n Ln.
  - rewrite (H n Ln). rewrite <- (conv_map b x n H0), <- (conv_map (k0 :: tl a) y n H0). cbn [map]. rewrite (div_0 H0). ring.
  - apply (cancel H0). rewrite (H n Ln), <- (conv_map b x n H0), <- (conv_map (k0 :: tl a) y n H0). cbn [map]. rewrite (div_0 H0). ring.
Qed.

Theorem lfilter_ok (b a x : list K) : length a = length b -> 1 <= length b <= length x -> is0 (a @ 0) = false ->
  exists y, lfilter b a x = Ok y /\ solves (rev b) a x y.
Proof.
  intros Lab Lx H0. destruct a as [|a0 a]; [cbn in Lab; lia|]. cbn [nth] in H0.
  destruct x as [|x0 x]; [cbn in Lx; lia|].
  unfold FilterModel.lfilter. cbn [hd_error of_option bind tl]. rewrite H0.
  set (b' := map (fun z => kdiv z a0) b). set (a' := map (fun z => kdiv z a0) (rev a)).
  assert (Lb' : length b' = length b) by apply map_length.
  assert (La' : length a' + 1 = length b').
  { unfold a'. rewrite map_length, rev_length, Lb'. cbn in Lab. lia. }
  destruct (rev b') as [|bl br] eqn:EB.
  { apply (f_equal (@length K)) in EB. rewrite rev_length in EB. cbn in EB. lia. }
  cbn [hd_error of_option bind].
  set (X := x0 :: x) in *.
  assert (LX : 1 <= length X) by (cbn; lia).
  replace (Nat.max (length b) (length X) - 1) with (length X - 1) by lia.
  assert (U0 : upto (rev b') (rev a') X [kmul bl x0] (length [kmul bl x0])).
  { split; [reflexivity|]. intros n Ln. cbn in Ln. replace n with 0 by lia. cbn [nth].
    rewrite EB. unfold FilterSpec.convolved at 1. cbn [length seq]. rewrite lsum_cons, (lsum_0 KR).
    - unfold FilterSpec.convolved. cbn [length seq]. rewrite lsum_cons, (lsum_0 KR).
      + cbn. ring.
      + intros k Ik. apply in_seq in Ik. destruct (Nat.leb_spec k 0); [lia|reflexivity].
    - intros k Ik. apply in_seq in Ik. destruct (Nat.leb_spec k 0); [lia|reflexivity]. }
  destruct (@loop_ok b' a' X La' (length X - 1) [kmul bl x0]) as (y & E & U); auto.
  { cbn [length]. lia. }
  exists y. split; [exact E|]. apply upto_solves; [exact H0|]. cbn [nth tl].
  replace (length [kmul bl x0] + (length X - 1)) with (length X) in U by (cbn; lia).
  unfold b', a' in U. rewrite <- !map_rev, rev_involutive in U. exact U.
Qed.

Theorem lfilter_short (b a x : list K) : length a = length b -> 1 <= length x < length b -> is0 (a @ 0) = false ->
  lfilter b a x = Err IndexError.
Proof.
  intros Lab Lx H0. destruct a as [|a0 a]; [cbn in Lab; lia|]. cbn [nth] in H0.
  destruct x as [|x0 x]; [cbn in Lx; lia|].
  unfold FilterModel.lfilter. cbn [hd_error of_option bind tl]. rewrite H0.
  set (b' := map (fun z => kdiv z a0) b). set (a' := map (fun z => kdiv z a0) (rev a)).
  assert (Lb' : length b' = length b) by apply map_length.
  assert (La' : length a' + 1 = length b').
  { unfold a'. rewrite map_length, rev_length, Lb'. cbn in Lab. lia. }
  destruct (rev b') as [|bl br] eqn:EB.
  { reflexivity. }
  cbn [hd_error of_option bind].
  set (X := x0 :: x) in *.
  replace (Nat.max (length b) (length X) - 1) with ((length X - 1) + S (length b - length X - 1)) by lia.
  assert (U0 : upto (rev b') (rev a') X [kmul bl x0] (length [kmul bl x0])).
  { split; [reflexivity|]. intros n Ln. cbn in Ln. replace n with 0 by lia. cbn [nth].
    rewrite EB. unfold FilterSpec.convolved at 1. cbn [length seq]. rewrite lsum_cons, (lsum_0 KR).
    - unfold FilterSpec.convolved. cbn [length seq]. rewrite lsum_cons, (lsum_0 KR).
      + cbn. ring.
      + intros k Ik. apply in_seq in Ik. destruct (Nat.leb_spec k 0); [lia|reflexivity].
    - intros k Ik. apply in_seq in Ik. destruct (Nat.leb_spec k 0); [lia|reflexivity]. }
  destruct (@loop_ok b' a' X La' (length X - 1) [kmul bl x0]) as (y & E & U); auto.
  { cbn [length]. lia. }
  rewrite seq_app.
  assert (FA : forall A B (f : A -> B -> res A) l r s, foldM f s (l ++ r) = bind (foldM f s l) (fun s' => foldM f s' r)).
  { clear. intros A B f l r. induction l as [|z l IH]; intros s; [reflexivity|]. cbn. destruct (f s z); cbn; auto. }
  rewrite FA. cbn [length] in E. rewrite E. cbn [bind seq foldM].
  unfold FilterModel.filter_step. destruct (Nat.leb_spec (length X) (1 + (length X - 1))); [reflexivity|].
  exfalso. unfold X in *. cbn [length] in *. lia.
Qed.

Theorem solves_unique b a x y y' : is0 (a @ 0) = false -> solves b a x y -> solves b a x y' -> y = y'.
Proof.
  intros H0 [L H] [L' H']. apply (nth_ext _ _ k0 k0); [congruence|]. rewrite L. intros n.
  induction n as [n IH] using lt_wf_ind. intros Ln. apply (cancel H0). rewrite H, H' by auto. f_equal.
  unfold FilterSpec.convolved. cbn [length seq]. rewrite !lsum_cons. cbn [nth Nat.leb]. f_equal; [ring|].
  apply lsum_ext. intros k Ik. apply in_seq in Ik. destruct (Nat.leb_spec k n); auto. f_equal. apply IH; lia.
Qed.

(** Linearity. *)
Lemma comb_length u v (x x' : list K) : length x = length x' -> length (combine_lin kadd kmul u v x x') = length x.
Proof. intros L. unfold combine_lin. rewrite map_length, combine_length. lia. Qed.
Lemma comb_nth u v (x x' : list K) n : length x = length x' ->
  combine_lin kadd kmul u v x x' @ n = kadd (kmul u (x @ n)) (kmul v (x' @ n)).
Proof.
  intros L. unfold combine_lin. destruct (Nat.ltb_spec n (length x)).
  - rewrite nth_indep with (d' := kadd (kmul u (fst (k0, k0))) (kmul v (snd (k0, k0)))) by (rewrite map_length, combine_length; lia).
    rewrite (map_nth (fun p => kadd (kmul u (fst p)) (kmul v (snd p)))), combine_nth by auto. reflexivity.
  - rewrite !nth_overflow; try lia; [ring|]. rewrite map_length, combine_length. lia.
Qed.
Lemma conv_comb c u v x x' n : length x = length x' ->
  convolved c (combine_lin kadd kmul u v x x') n = kadd (kmul u (convolved c x n)) (kmul v (convolved c x' n)).
Proof.
  intros L. unfold FilterSpec.convolved. rewrite <- !(lsum_mul KR), <- (lsum_add KR). apply lsum_ext. intros k _.
  destruct (k <=? n); [|ring]. rewrite comb_nth by auto. ring.
Qed.
Lemma solves_comb b a u v x x' y y' : length x = length x' -> solves b a x y -> solves b a x' y' ->
  solves b a (combine_lin kadd kmul u v x x') (combine_lin kadd kmul u v y y').
Proof.
  intros L [Ly H] [Ly' H']. split; [rewrite !comb_length; lia|]. rewrite comb_length by auto. intros n Ln.
  rewrite comb_nth, !conv_comb by lia.
  transitivity (kadd (kmul u (kmul (a @ 0) (y @ n))) (kmul v (kmul (a @ 0) (y' @ n)))); [ring|].
  rewrite H, H' by lia. ring.
Qed.

(** Delays: leading zeros. *)
Lemma conv_delay c d x n : convolved c (repeat k0 d ++ x) (d + n) = convolved c x n.
Proof.
  apply lsum_ext. intros k _. destruct (Nat.leb_spec k n), (Nat.leb_spec k (d + n)); try lia; auto.
  - rewrite app_nth2; rewrite repeat_length; [|lia]. f_equal. f_equal. lia.
  - rewrite app_nth1 by (rewrite repeat_length; lia). rewrite nth_repeat. ring.
Qed.
Lemma conv_early c d x n : n < d -> convolved c (repeat k0 d ++ x) n = k0.
Proof.
  intros L. apply (lsum_0 KR). intros k _. destruct (k <=? n); auto.
  rewrite app_nth1 by (rewrite repeat_length; lia). rewrite nth_repeat. ring.
Qed.
Lemma solves_delay b a d x y : solves b a x y -> solves b a (repeat k0 d ++ x) (repeat k0 d ++ y).
Proof.
  intros [L H]. split; [rewrite !app_length; lia|]. intros n Ln. rewrite app_length, repeat_length in Ln.
  destruct (Nat.ltb_spec n d).
  - rewrite !conv_early, app_nth1, nth_repeat by (auto; rewrite ?repeat_length; lia). ring.
  - replace n with (d + (n - d)) by lia. rewrite !conv_delay, app_nth2; rewrite repeat_length; [|lia].
    replace (d + (n - d) - d) with (n - d) by lia. apply H. lia.
Qed.

(** Causality. *)
Lemma solves_causal b a x x' y y' N : is0 (a @ 0) = false -> solves b a x y -> solves b a x' y' ->
  N <= length x -> N <= length x' -> (forall n, n < N -> x @ n = x' @ n) -> forall n, n < N -> y @ n = y' @ n.
Proof.
  intros H0 [L H] [L' H'] Lx Lx' E. intros n. induction n as [n IH] using lt_wf_ind. intros Ln.
  apply (cancel H0). rewrite H, H' by lia. f_equal.
  - apply lsum_ext. intros k _. destruct (Nat.leb_spec k n); auto. rewrite E; auto. lia.
  - unfold FilterSpec.convolved. cbn [length seq]. rewrite !lsum_cons. cbn [nth Nat.leb]. f_equal; [ring|].
    apply lsum_ext. intros k Ik. apply in_seq in Ik. destruct (Nat.leb_spec k n); auto. f_equal. apply IH; lia.
Qed.
End P.
