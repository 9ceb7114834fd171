(** Alternating columns of interferometers take any orthonormal family to multiples of the unit
    vectors: every interferometer sorts two neighbouring leading entries. *)
From Coq Require Import Ring Reals Lra.
From Verif Require Import Base NetModel SimModel SimAlg SimSpec CircuitProofs UniSpec UniProofs MeshActs UnivAlg UnivReck SortNet.
Set Implicit Arguments.
Unset Strict Implicit.
Local Open Scope nat_scope.
Add Ring Zring : zcr.
Notation zcolumn := (column Rplus Rmult Rminus).

(** * Spans of lines *)
Section Span.
Variable N : nat.
(** [v] is, on rows below N, a combination of the first [n] columns of [Y]. *)
Definition span (Y : nat -> vecR) (n : nat) (v : vecR) : Prop :=
  exists c : vecR, forall r, r < N -> v r = zsum (fun j => zmul (c j) (Y r j)) (seq 0 n).
Definition col (Y : nat -> vecR) (k : nat) : vecR := fun r => Y r k.

Lemma span_ext Y n v v' : (forall r, r < N -> v r = v' r) -> span Y n v -> span Y n v'.
Proof. intros H (c & Hc). exists c. intros r Lr. rewrite <- H by exact Lr. now apply Hc. Qed.
Lemma span_zero Y n : span Y n (fun _ => z0).
Proof. exists (fun _ => z0). intros r _. symmetry. apply (lsum_0 zcr). intros; ring. Qed.
Lemma span_comb Y n a v w : span Y n v -> span Y n w -> span Y n (fun r => zadd (zmul a (v r)) (w r)).
Proof.
  intros (c & Hc) (d & Hd). exists (fun j => zadd (zmul a (c j)) (d j)). intros r Lr. rewrite Hc, Hd by exact Lr.
  rewrite <- (lsum_mul zcr), <- (lsum_add zcr). apply lsum_ext. intros j _. ring.
Qed.
Lemma span_scale Y n a v : span Y n v -> span Y n (fun r => zmul a (v r)).
Proof. intros H. eapply span_ext; [|apply (span_comb a H (span_zero Y n))]. intros r _. cbn beta. ring. Qed.
Lemma span_col Y n k : k < n -> span Y n (col Y k).
Proof.
  intros L. exists (fun j => if j =? k then z1 else z0). intros r _. unfold col.
  rewrite (@lsum_ext _ z0 zadd _ _ (fun j => if j =? k then Y r j else z0)).
  - rewrite (lsum_one zcr). destruct (Nat.ltb_spec k n); [reflexivity|lia].
  - intros j _. destruct (j =? k); ring.
Qed.
Lemma span_trans Y Y' n m v : (forall j, j < n -> span Y' m (col Y j)) -> span Y n v -> span Y' m v.
Proof.
  intros H (c & Hc). eapply span_ext; [intros r Lr; symmetry; apply Hc, Lr|]. clear v Hc.
  induction n as [|n IH].
  - eapply span_ext; [|apply span_zero]. reflexivity.
  - eapply span_ext; [|apply (@span_comb Y' m (c n)); [apply (H n); lia|apply IH; intros; apply H; lia]].
    intros r _. cbn beta. rewrite seq_S, (lsum_app zcr), lsum_cons, lsum_nil. unfold col. cbn [Nat.add]. ring.
Qed.
Lemma span_mono Y n m v : n <= m -> span Y n v -> span Y m v.
Proof. intros L. apply span_trans. intros j Lj. apply span_col. lia. Qed.

(** [v] starts at column [k]: a non-zero multiple of it, and earlier columns. *)
Definition lead (Y : nat -> vecR) (k : nat) (v : vecR) : Prop :=
  exists f u, f <> z0 /\ span Y k u /\ forall r, r < N -> v r = zadd (zmul f (Y r k)) (u r).
(** The last entry of [v] that is not zero. *)
Definition top (v : vecR) (p : nat) : Prop := p < N /\ v p <> z0 /\ forall r, p < r -> r < N -> v r = z0.

Lemma top_exists v : (exists r, r < N /\ v r <> z0) -> exists p, top v p.
Proof.
  assert (H : forall n, (exists r, r < n /\ v r <> z0) -> exists p, p < n /\ v p <> z0 /\ forall r, p < r -> r < n -> v r = z0).
  { induction n as [|n IH]; intros (r & Lr & Hr); [lia|]. destruct (z_dec (v n)) as [E|E].
    - destruct IH as (p & Lp & Hp & Ht). { exists r. split; [|exact Hr]. destruct (Nat.eq_dec r n) as [->|]; [contradiction|lia]. }
      exists p. split; [lia|]. split; [exact Hp|]. intros q Lq Lq'. destruct (Nat.eq_dec q n) as [->|]; [exact E|]. apply Ht; lia.
    - exists n. split; [lia|]. split; [exact E|]. intros; lia. }
  apply H.
Qed.

Definition independent (Y : nat -> vecR) : Prop := forall k v, k < N -> lead Y k v -> exists r, r < N /\ v r <> z0.
Lemma ortho_independent Y : (forall k l, k < N -> l < N -> zsum (fun r => zmul (zbar (Y r k)) (Y r l)) (seq 0 N) = if k =? l then z1 else z0) -> independent Y.
Proof.
  intros HO k v Lk (f & u & Hf & (c & Hc) & Hv).
  assert (HD : forall n, n <= N -> (exists r, r < n /\ v r <> z0) \/ forall r, r < n -> v r = z0).
  { induction n as [|n IH]; intros Ln; [right; intros; lia|]. destruct (z_dec (v n)) as [E|E]; [|left; exists n; auto].
    destruct IH as [(r & Lr & Hr)|H]; [lia|left; exists r; auto|]. right. intros r Lr. destruct (Nat.eq_dec r n) as [->|]; [exact E|apply H; lia]. }
  destruct (HD N (le_n _)) as [H|H]; [exact H|]. exfalso. apply Hf.
  assert (E : zsum (fun r => zmul (zbar (Y r k)) (v r)) (seq 0 N) = f).
  { rewrite (@lsum_ext _ z0 zadd _ _ (fun r => zadd (zmul f (zmul (zbar (Y r k)) (Y r k))) (zsum (fun j => zmul (c j) (zmul (zbar (Y r k)) (Y r j))) (seq 0 k)))).
    - rewrite (lsum_add zcr), (lsum_mul zcr), HO by exact Lk. rewrite Nat.eqb_refl. rewrite (lsum_swap zcr), (lsum_0 zcr); [ring|].
      intros j Hj. apply in_seq in Hj. rewrite (lsum_mul zcr), HO by lia. destruct (Nat.eqb_spec k j); [lia|]. ring.
    - intros r Hr. apply in_seq in Hr. rewrite Hv, Hc by lia.
      transitivity (zadd (zmul f (zmul (zbar (Y r k)) (Y r k))) (zmul (zbar (Y r k)) (zsum (fun j => zmul (c j) (Y r j)) (seq 0 k)))); [ring|].
      f_equal. rewrite <- (lsum_mul zcr). apply lsum_ext. intros j _. ring. }
  rewrite <- E. apply (lsum_0 zcr). intros r Hr. apply in_seq in Hr. rewrite H by lia. ring.
Qed.

(** Leading combinations with different tops. *)
Definition pivots (Y : nat -> vecR) (n : nat) (p : nat -> nat) : Prop := exists V : nat -> vecR, forall k, k < n -> lead Y k (V k) /\ top (V k) (p k).
Lemma pivots_exist Y : independent Y -> exists p, pivots Y N p /\ forall j k, j < N -> k < N -> p j = p k -> j = k.
Proof.
  intros HI. assert (H : forall n, n <= N -> exists p, pivots Y n p /\ forall j k, j < n -> k < n -> p j = p k -> j = k).
  2:{ apply (H N), le_n. }
  induction n as [|n IH]; intros Ln; [exists (fun _ => 0); split; [exists (fun _ _ => z0)|]; intros; lia|].
  destruct IH as (p & (V & HV) & Hp); [lia|].
  assert (HR : forall m v, lead Y n v -> top v m -> exists v' m', lead Y n v' /\ top v' m' /\ forall j, j < n -> p j <> m').
  { induction m as [m IHm] using lt_wf_ind. intros v Hl Ht.
    assert (HD : forall q, q <= n -> (exists j, j < q /\ p j = m) \/ forall j, j < q -> p j <> m).
    { induction q as [|q IHq]; intros Lq; [right; intros; lia|]. destruct (Nat.eq_dec (p q) m) as [E|E]; [left; exists q; auto|].
      destruct IHq as [(j & Lj & Ej)|Hq]; [lia|left; exists j; auto|]. right. intros j Lj. destruct (Nat.eq_dec j q) as [->|]; [exact E|apply Hq; lia]. }
    destruct (HD n (le_n _)) as [(j & Lj & Ej)|Hn]; [|exists v, m; auto].
    destruct (HV j Lj) as [(f & u & Hf & Hu & HVj) (_ & Hj & Htj)]. rewrite Ej in *. destruct (zinv Hj) as (i & Hi).
    set (a := zopp (zmul (v m) i)). set (v' := fun r => zadd (zmul a (V j r)) (v r)).
    assert (Ha : zadd (zmul a (V j m)) (v m) = z0).
    { unfold a. assert (HO : zopp (zmul (v m) i) = zmul (rl (-1)) (zmul (v m) i)) by (destruct (zmul (v m) i); zz; f_equal; ring). rewrite HO.
      transitivity (zadd (zmul (rl (-1)) (zmul (v m) (zmul (V j m) i))) (v m)); [ring|]. rewrite Hi. destruct (v m); zz; f_equal; ring. }
    assert (Hl' : lead Y n v').
    { destruct Hl as (f' & u' & Hf' & Hu' & Hv). exists f', (fun r => zadd (zmul a (V j r)) (u' r)). split; [exact Hf'|]. split.
      - apply span_comb; [|exact Hu']. eapply span_ext; [intros r Lr; symmetry; apply HVj, Lr|].
        apply (@span_comb Y n f (col Y j) u); [apply span_col, Lj|]. apply (@span_mono Y j n); [lia|exact Hu].
      - intros r Lr. unfold v'. rewrite Hv by exact Lr. ring. }
    destruct (@top_exists v' (HI n v' ltac:(lia) Hl')) as (m' & Ht'). apply (IHm m') with (v := v'); [|exact Hl'|exact Ht'].
    destruct Ht' as (Lm' & Hm' & _). destruct Ht as (Lm & _ & Htm). destruct (Nat.lt_trichotomy m' m) as [L|[E|L]]; [exact L| |]; exfalso; apply Hm'.
    - subst m'. exact Ha.
    - unfold v'. rewrite Htj, Htm by lia. ring. }
  assert (HL : lead Y n (col Y n)).
  { exists z1, (fun _ => z0). split; [apply z1_neq|]. split; [apply span_zero|]. intros r _. unfold col. ring. }
  destruct (@top_exists _ (HI n _ ltac:(lia) HL)) as (m0 & Ht0). destruct (HR m0 _ HL Ht0) as (v & m & Hl & Ht & Hn).
  exists (fun k => if k =? n then m else p k). split.
  - exists (fun k => if k =? n then v else V k). intros k Lk. destruct (Nat.eqb_spec k n) as [->|]; [auto|]. apply HV. lia.
  - intros j k Lj Lk. destruct (Nat.eqb_spec j n) as [->|Hj], (Nat.eqb_spec k n) as [->|Hk]; [reflexivity| | |apply Hp; lia].
    + intros E. exfalso. apply (Hn k); [lia|auto].
    + intros E. exfalso. apply (Hn j); [lia|auto].
Qed.

(** Tops in order: a triangular, hence diagonal, matrix. *)
Lemma pivots_triangular Y p : pivots Y N p -> (forall k, k < N -> p k = k) -> forall k, k < N -> forall r, k < r -> r < N -> Y r k = z0.
Proof.
  intros (V & HV) Hp. induction k as [k IH] using lt_wf_ind. intros Lk r Lr Lr'.
  destruct (HV k Lk) as [(f & u & Hf & (c & Hc) & Hv) (_ & _ & Ht)]. rewrite Hp in Ht by exact Lk.
  pose proof (Ht r Lr Lr') as E. rewrite Hv, Hc in E by exact Lr'. rewrite (lsum_0 zcr) in E.
  - assert (E' : zmul f (Y r k) = z0) by (rewrite <- E; ring). apply zmul_0 in E'. destruct E'; [contradiction|assumption].
  - intros j Hj. apply in_seq in Hj. rewrite (IH j) by lia. ring.
Qed.
Lemma triangular_diagonal Y : ortho N Y -> (forall k, k < N -> forall r, k < r -> r < N -> Y r k = z0) ->
  forall k j, k < N -> j < N -> k <> j -> Y k j = z0.
Proof.
  intros HO HT. assert (H : forall d k, k + d = N - 1 -> k < N -> forall j, j < N -> k <> j -> Y k j = z0).
  2:{ intros k j Lk Lj. apply (H (N - 1 - k) k); lia. }
  induction d as [d IH] using lt_wf_ind. intros k Ek Lk j Lj Hne. destruct (Nat.lt_trichotomy k j) as [L|[E|L]]; [|contradiction|now apply HT].
  assert (Hj : forall i, i < N -> i <> j -> Y j i = z0) by (intros i Li Hi; apply (IH (N - 1 - j)); auto; lia).
  assert (HD : forall l, l < N -> zdot N (Y j) (Y l) = zmul (zbar (Y j j)) (Y l j)).
  { intros l Ll. unfold dot. rewrite (@lsum_ext _ z0 zadd _ _ (fun i => if i =? j then zmul (zbar (Y j i)) (Y l i) else z0)).
    - rewrite (lsum_one zcr). destruct (Nat.ltb_spec j N); [reflexivity|lia].
    - intros i Hi. apply in_seq in Hi. destruct (Nat.eqb_spec i j); [reflexivity|]. rewrite Hj by lia. rewrite (bar_0 RTheory). ring. }
  pose proof (HO j k Lj Lk) as E1. rewrite HD in E1 by exact Lk. pose proof (HO j j Lj Lj) as E2. rewrite HD in E2 by exact Lj. rewrite Nat.eqb_refl in E2.
  destruct (Nat.eqb_spec j k); [lia|]. apply zmul_0 in E1. destruct E1 as [E1|E1]; [|exact E1]. exfalso. apply z1_neq. rewrite <- E2, E1. ring.
Qed.
End Span.

Lemma finite_choice A (d : A) n (P : nat -> A -> Prop) : (forall i, i < n -> exists a, P i a) -> exists f, forall i, i < n -> P i (f i).
Proof.
  induction n as [|n IH]; intros H; [exists (fun _ => d); intros; lia|]. destruct IH as (f & Hf); [intros; apply H; lia|]. destruct (H n) as (a & Ha); [lia|].
  exists (fun i => if i =? n then a else f i). intros i Li. destruct (Nat.eqb_spec i n) as [->|]; [exact Ha|]. apply Hf. lia.
Qed.

(** * One column *)
Ltac evens := repeat match goal with
  | |- context [?a + ?b - ?a] => replace (a + b - a) with b by lia
  end; rewrite ?even2, ?odd2;
  repeat match goal with
  | |- context [?a <? ?b] => first [rewrite (proj2 (Nat.ltb_lt a b)) by lia | rewrite (proj2 (Nat.ltb_ge a b)) by lia]
  end.
(** Lines [k] of a column starting at [s]: alone, first or second of a pair. *)
Definition by_line {A} (N s k : nat) (x y z : A) : A :=
  if k <? s then x else if Nat.even (k - s) then (if k + 1 <? N then y else x) else z.
Lemma by_low A N s k (x y z : A) : k < s -> by_line N s k x y z = x.
Proof. intros H. unfold by_line. evens. reflexivity. Qed.
Lemma by_end A N s k h (x y z : A) : k = s + 2 * h -> k + 1 = N -> by_line N s k x y z = x.
Proof. intros -> H. unfold by_line. evens. reflexivity. Qed.
Lemma by_even A N s k h (x y z : A) : k = s + 2 * h -> k + 1 < N -> by_line N s k x y z = y.
Proof. intros -> H. unfold by_line. evens. reflexivity. Qed.
Lemma by_odd A N s k h (x y z : A) : k = s + 2 * h -> by_line N s (k + 1) x y z = z.
Proof. intros ->. unfold by_line. replace (s + 2 * h + 1) with (s + (2 * h + 1)) by lia. evens. reflexivity. Qed.

(** The column compares the keys of its pairs. *)
Definition cmp (N s : nat) (p : nat -> nat) (k : nat) : nat := by_line N s k (p k) (min (p k) (p (k + 1))) (max (p (k - 1)) (p k)).

Section Step.
Variables (N s : nat) (b : vecR) (e : cR) (Y : nat -> vecR) (p : nat -> nat).
Hypothesis Hb : forall j, is_unit (b j).
Hypothesis He : is_unit e.
Hypothesis HP : pivots N Y N p.

Theorem column_step : exists al th : nat -> R,
  pivots N (fun r => zcolumn s N (fun j => mixm (b j) (al j) (th j)) (fun _ => e) (Y r)) N (cmp N s p).
Proof.
  destruct HP as (V & HV).
  set (good := fun i (at_ : R * R) => exists l be ga, l <> z0 /\ mixm (b i) (fst at_) (snd at_) 0 0 = zmul l be /\ mixm (b i) (fst at_) (snd at_) 0 1 = zmul l ga
    /\ ((p i <= p (i + 1) /\ be <> z0 /\ ga = z0)
       \/ (p (i + 1) < p i /\ ga <> z0 /\ exists u, span N Y i u /\ forall r, r < N -> V (i + 1) r = zadd (zadd (zmul be (Y r i)) (zmul ga (Y r (i + 1)))) (u r)))).
  destruct (@finite_choice (R * R) (0%R, 0%R) (N - 1) good) as (q & Hq).
  { intros i Li. destruct (Nat.le_gt_cases (p i) (p (i + 1))) as [L|L].
    - destruct (@steer (b i) z1 z0 (Hb i)) as (al & th & l & Hl & E1 & E2); [left; apply z1_neq|].
      exists (al, th). unfold good. exists l, z1, z0. cbn [fst snd]. split; [exact Hl|]. split; [exact E1|]. split; [exact E2|]. left. split; [exact L|]. split; [apply z1_neq|reflexivity].
    - destruct (HV (i + 1)) as [(f & u & Hf & (c & Hc) & Hv) _]; [lia|].
      destruct (@steer (b i) (c i) f (Hb i)) as (al & th & l & Hl & E1 & E2); [right; exact Hf|].
      exists (al, th). unfold good. exists l, (c i), f. cbn [fst snd]. split; [exact Hl|]. split; [exact E1|]. split; [exact E2|]. right. split; [exact L|]. split; [exact Hf|].
      exists (fun r => zsum (fun j => zmul (c j) (Y r j)) (seq 0 i)). split; [now exists c|]. intros r Lr. rewrite Hv, Hc by exact Lr.
      replace (i + 1) with (S i) at 2 by lia. rewrite seq_S, (lsum_app zcr), lsum_cons, lsum_nil. cbn [Nat.add]. ring. }
  exists (fun j => fst (q j)), (fun j => snd (q j)).
  set (U := fun j => mixm (b j) (fst (q j)) (snd (q j))). set (Y' := fun r => zcolumn s N U (fun _ => e) (Y r)).
  (* what the column does, and back *)
  assert (Yalone : forall k r, k < s \/ (exists h, k = s + 2 * h /\ k + 1 = N) -> Y' r k = zmul e (Y r k)).
  { intros k r [H|(h & E & H)]; unfold Y'; [now rewrite column_low|now rewrite (column_end _ _ _ _ _ _ E H)]. }
  assert (Balone : forall k r, k < s \/ (exists h, k = s + 2 * h /\ k + 1 = N) -> Y r k = zmul (zbar e) (Y' r k)).
  { intros k r H. rewrite Yalone by exact H. transitivity (zmul (zmul (zbar e) e) (Y r k)); [rewrite He|]; ring. }
  assert (Y0 : forall i h r, i = s + 2 * h -> i + 1 < N -> Y' r i = zadd (zmul (U i 0 0) (Y r i)) (zmul (U i 0 1) (Y r (i + 1)))).
  { intros i h r E H. unfold Y'. exact (column_even _ _ _ _ _ _ E H). }
  assert (Y1 : forall i h r, i = s + 2 * h -> i + 1 < N -> Y' r (i + 1) = zadd (zmul (U i 1 0) (Y r i)) (zmul (U i 1 1) (Y r (i + 1)))).
  { intros i h r E H. unfold Y'. exact (column_odd RTheory N U _ _ E). }
  assert (HU : forall i a c, a < 2 -> c < 2 -> zadd (zmul (zbar (U i 0 a)) (U i 0 c)) (zmul (zbar (U i 1 a)) (U i 1 c)) = (if a =? c then z1 else z0)
     /\ zadd (zmul (U i a 0) (zbar (U i c 0))) (zmul (U i a 1) (zbar (U i c 1))) = (if a =? c then z1 else z0)).
  { intros i a c La Lc. destruct (@mixm_unitary (b i) (fst (q i)) (snd (q i)) (Hb i) a c La Lc) as [E1 E2]. cbn [seq] in E1, E2. rewrite !lsum_cons, !lsum_nil in E1, E2.
    split; [rewrite <- E1|rewrite <- E2]; unfold U; ring. }
  assert (B0 : forall i h r, i = s + 2 * h -> i + 1 < N -> Y r i = zadd (zmul (zbar (U i 0 0)) (Y' r i)) (zmul (zbar (U i 1 0)) (Y' r (i + 1)))).
  { intros i h r E H. rewrite (Y0 i h r E H), (Y1 i h r E H). destruct (HU i 0 0) as [E1 _]; try lia. destruct (HU i 0 1) as [E2 _]; try lia. cbn [Nat.eqb] in E1, E2.
    transitivity (zadd (zmul (zadd (zmul (zbar (U i 0 0)) (U i 0 0)) (zmul (zbar (U i 1 0)) (U i 1 0))) (Y r i))
      (zmul (zadd (zmul (zbar (U i 0 0)) (U i 0 1)) (zmul (zbar (U i 1 0)) (U i 1 1))) (Y r (i + 1)))); [rewrite E1, E2; ring|ring]. }
  assert (B1 : forall i h r, i = s + 2 * h -> i + 1 < N -> Y r (i + 1) = zadd (zmul (zbar (U i 0 1)) (Y' r i)) (zmul (zbar (U i 1 1)) (Y' r (i + 1)))).
  { intros i h r E H. rewrite (Y0 i h r E H), (Y1 i h r E H). destruct (HU i 1 0) as [E1 _]; try lia. destruct (HU i 1 1) as [E2 _]; try lia. cbn [Nat.eqb] in E1, E2.
    transitivity (zadd (zmul (zadd (zmul (zbar (U i 0 1)) (U i 0 0)) (zmul (zbar (U i 1 1)) (U i 1 0))) (Y r i))
      (zmul (zadd (zmul (zbar (U i 0 1)) (U i 0 1)) (zmul (zbar (U i 1 1)) (U i 1 1))) (Y r (i + 1)))); [rewrite E1, E2; ring|ring]. }
  (* spans up to the end of a pair are the same *)
  assert (HS : forall n v, n <= N -> (forall h, s + 2 * h + 1 < N -> n <> s + 2 * h + 1) -> span N Y n v -> span N Y' n v).
  { intros n v Ln Hn. apply span_trans. intros j Lj. destruct (@lines s N j ltac:(lia)) as [H|[(h & E & H)|[(h & E & H)|(h & E)]]].
    - eapply span_ext; [intros r _; unfold col; symmetry; apply Balone; auto|]. apply span_scale, span_col, Lj.
    - assert (j + 1 < n) by (specialize (Hn h); lia).
      eapply span_ext; [intros r _; unfold col; symmetry; apply (B0 j h r E H)|]. apply (@span_comb N Y' n _ (col Y' j) (fun r => zmul _ (col Y' (j + 1) r))); [apply span_col, Lj|].
      apply span_scale, span_col. assumption.
    - eapply span_ext; [intros r _; unfold col; symmetry; apply Balone; right; eauto|]. apply span_scale, span_col, Lj.
    - replace j with (s + 2 * h + 1) in * by lia.
      eapply span_ext; [intros r _; unfold col; symmetry; apply (B1 (s + 2 * h) h r eq_refl); lia|].
      apply (@span_comb N Y' n _ (col Y' (s + 2 * h)) (fun r => zmul _ (col Y' (s + 2 * h + 1) r))); [apply span_col; lia|]. apply span_scale, span_col. exact Lj. }
  assert (Hbar : forall z, z <> z0 -> zbar z <> z0).
  { intros z Hz E. apply Hz. rewrite <- (bar_bar RTheory z), E. apply (bar_0 RTheory). }
  (* leading combinations of single lines *)
  assert (Lalone : forall k v, k < N -> k < s \/ (exists h, k = s + 2 * h /\ k + 1 = N) -> lead N Y k v -> lead N Y' k v).
  { intros k v Lk H (f & u & Hf & Hu & Hv). exists (zmul f (zbar e)), u. split; [|split].
    - intros E. apply zmul_0 in E. destruct E as [E|E]; [contradiction|]. apply z1_neq. rewrite <- He, E. ring.
    - apply HS; [lia| |exact Hu]. intros h Hh E. destruct H as [H|(h' & E' & H)]; lia.
    - intros r Lr. rewrite Hv, (Balone k r H) by exact Lr. ring. }
  set (sw := fun i => p (i + 1) <? p i).
  exists (fun k => by_line N s k (V k) (if sw k then V (k + 1) else V k) (if sw (k - 1) then V (k - 1) else V k)).
  intros k Lk. destruct (@lines s N k Lk) as [H|[(h & E & H)|[(h & E & H)|(h & E)]]].
  - unfold cmp. rewrite !by_low by exact H. destruct (HV k Lk) as [H1 H2]. split; [apply Lalone; auto|exact H2].
  - unfold cmp. rewrite !(by_even _ _ _ E H). destruct (Hq k ltac:(lia)) as (l & be & ga & Hl & E1 & E2 & HC). fold (U k) in E1, E2.
    unfold sw. destruct HC as [(L & Hbe & ->)|(L & Hga & u & Hu & HVu)].
    + rewrite (proj2 (Nat.ltb_ge _ _)) by exact L. rewrite Nat.min_l by exact L. destruct (HV k Lk) as [(f & u & Hf & Hu & Hv) Ht]. split; [|exact Ht].
      assert (Hlb : zmul l be <> z0) by (intros E0; apply zmul_0 in E0; tauto). destruct (zinv Hlb) as (i & Hi).
      exists (zmul f i), u. split; [|split].
      * intros E0. apply zmul_0 in E0. destruct E0 as [E0|E0]; [contradiction|]. apply z1_neq. rewrite <- Hi, E0. ring.
      * apply HS; [lia| |exact Hu]. intros h' _. lia.
      * intros r Lr. rewrite Hv by exact Lr. rewrite (Y0 k h r E H), E1, E2.
        transitivity (zadd (zmul f (zmul (zmul (zmul l be) i) (Y r k))) (u r)); [rewrite Hi|]; ring.
    + rewrite (proj2 (Nat.ltb_lt _ _)) by exact L. rewrite Nat.min_r by lia. destruct (HV (k + 1) H) as [_ Ht]. split; [|exact Ht].
      destruct (zinv Hl) as (i & Hi). exists i, u. split; [|split].
      * intros E0. apply z1_neq. rewrite <- Hi, E0. ring.
      * apply HS; [lia| |exact Hu]. intros h' _. lia.
      * intros r Lr. rewrite HVu by exact Lr. rewrite (Y0 k h r E H), E1, E2.
        transitivity (zadd (zmul (zmul l i) (zadd (zmul be (Y r k)) (zmul ga (Y r (k + 1))))) (u r)); [rewrite Hi|]; ring.
  - unfold cmp. rewrite !(by_end _ _ _ E H). destruct (HV k Lk) as [H1 H2]. split; [apply Lalone; eauto|exact H2].
  - replace k with (s + 2 * h + 1) in * by lia. set (i := s + 2 * h) in *. clear E. assert (Ei : i = s + 2 * h) by reflexivity.
    unfold cmp. rewrite !(by_odd _ _ _ _ Ei). replace (i + 1 - 1) with i by lia.
    destruct (Hq i ltac:(lia)) as (l & be & ga & Hl & E1 & E2 & HC). fold (U i) in E1, E2.
    assert (HSi : forall u, span N Y i u -> span N Y' (i + 1) u).
    { intros u Hu. apply (@span_mono N Y' i); [lia|]. apply HS; [lia| |exact Hu]. intros h' _. lia. }
    assert (Hc0 : span N Y' (i + 1) (col Y' i)) by (apply span_col; lia).
    unfold sw. destruct HC as [(L & Hbe & ->)|(L & Hga & u0 & Hu0 & HVu)].
    + rewrite (proj2 (Nat.ltb_ge _ _)) by exact L. rewrite Nat.max_r by exact L.
      destruct (HV (i + 1) Lk) as [(f & u & Hf & (c & Hc) & Hv) Ht]. split; [|exact Ht].
      assert (H11 : U i 1 1 <> z0).
      { intros E0. destruct (HU i 1 1) as [E3 _]; try lia. cbn [Nat.eqb] in E3. apply z1_neq. rewrite <- E3, E0, E2, (bar_0 RTheory). ring. }
      assert (Hlb : zmul l be <> z0) by (intros E0; apply zmul_0 in E0; tauto). destruct (zinv Hlb) as (j & Hj).
      exists (zmul f (zbar (U i 1 1))), (fun r => zadd (zmul (zadd (zmul f (zbar (U i 0 1))) (zmul (c i) j)) (col Y' i r)) (zsum (fun j => zmul (c j) (Y r j)) (seq 0 i))). split; [|split].
      * intros E0. apply zmul_0 in E0. destruct E0 as [E0|E0]; [contradiction|]. exact (Hbar _ H11 E0).
      * apply span_comb; [exact Hc0|]. apply HSi. now exists c.
      * intros r Lr. rewrite Hv, Hc by exact Lr. replace (i + 1) with (S i) at 2 by lia. rewrite seq_S, (lsum_app zcr), lsum_cons, lsum_nil. cbn [Nat.add].
        rewrite (B1 i h r Ei Lk). unfold col. rewrite (Y0 i h r Ei Lk), E1, E2.
        transitivity (zadd (zmul f (zadd (zmul (zbar (zmul l z0)) (zadd (zmul (zmul l be) (Y r i)) (zmul (zmul l z0) (Y r (i + 1))))) (zmul (zbar (U i 1 1)) (Y' r (i + 1)))))
          (zadd (zsum (fun j => zmul (c j) (Y r j)) (seq 0 i)) (zmul (c i) (zmul (zmul (zmul l be) j) (Y r i))))); [rewrite Hj|]; ring.
    + rewrite (proj2 (Nat.ltb_lt _ _)) by exact L. rewrite Nat.max_l by lia.
      destruct (HV i ltac:(lia)) as [(f & u & Hf & Hu & Hv) Ht]. split; [|exact Ht].
      assert (H10 : U i 1 0 <> z0).
      { assert (H01 : U i 0 1 <> z0) by (rewrite E2; intros E0; apply zmul_0 in E0; tauto). intros E0. apply H01. unfold U, mixm in *. cbn [Nat.eqb] in *.
        apply zmul_0 in E0. destruct E0 as [E0|E0]; [now apply cis_neq in E0|]. rewrite E0. ring. }
      exists (zmul f (zbar (U i 1 0))), (fun r => zadd (zmul (zmul f (zbar (U i 0 0))) (col Y' i r)) (u r)). split; [|split].
      * intros E0. apply zmul_0 in E0. destruct E0 as [E0|E0]; [contradiction|]. exact (Hbar _ H10 E0).
      * apply span_comb; [exact Hc0|]. apply HSi, Hu.
      * intros r Lr. rewrite Hv by exact Lr. rewrite (B0 i h r Ei Lk). unfold col. ring.
Qed.
End Step.

(** * Columns in a row *)
Definition start (t : nat) : nat := if Nat.even t then 0 else 1.
Section Run.
Variables (N : nat) (b : nat -> vecR) (e : nat -> cR).
Hypothesis Hb : forall t j, is_unit (b t j).
Hypothesis He : forall t, is_unit (e t).
Definition ncol (al th : nat -> nat -> R) (t : nat) : vecR -> vecR :=
  zcolumn (start t) N (fun j => mixm (b t j) (al t j) (th t j)) (fun _ => e t).
Fixpoint run (C : nat -> vecR -> vecR) (T : nat) (x : vecR) : vecR := match T with 0 => x | S t => C t (run C t x) end.

Lemma start_le t : start t <= 1. Proof. unfold start. destruct (Nat.even t); lia. Qed.
Lemma ncol_uni al th t : 1 <= N -> exists M', zuni N (ncol al th t) M'.
Proof. intros HN. apply (column_uni RTheory); [auto|intros; now apply mixm_unitary|]. pose proof (start_le t). lia. Qed.
Lemma run_ortho al th T Y : 1 <= N -> ortho N Y -> ortho N (fun r => run (ncol al th) T (Y r)).
Proof. intros HN HY. induction T as [|T IH]; [exact HY|]. destruct (ncol_uni al th T HN) as (M' & HM). exact (ortho_uni HM IH). Qed.

Fixpoint keys (p : nat -> nat) (t : nat) : nat -> nat := match t with 0 => p | S t' => cmp N (start t') (keys p t') end.
Lemma keys_sorted p t k : (forall k, k < N -> p k < N) -> (forall j k, j < N -> k < N -> p j = p k -> j = k) -> N <= t -> k < N -> keys p t k = k.
Proof.
  intros Hr Hi. apply sorted; [| | |exact Hr|exact Hi]; clear t k; cbn [keys]; unfold cmp.
  - intros t i h Li E. assert (HE : exists h', i = start t + 2 * h').
    { unfold start. destruct (Nat.Even_or_Odd t) as [(u & Hu)|(u & Hu)]; [rewrite Hu, even2|rewrite Hu, odd2].
      - exists (h - u). lia.
      - exists (h - u - 1). lia. }
    destruct HE as (h' & E'). split; [exact (by_even _ _ _ E' Li)|]. rewrite (by_odd _ _ _ _ E'). now replace (i + 1 - 1) with i by lia.
  - intros t i h Li E. assert (HE : exists h', i = start t + 2 * h').
    { unfold start. destruct (Nat.Even_or_Odd t) as [(u & Hu)|(u & Hu)]; [rewrite Hu, even2|rewrite Hu, odd2].
      - exists (h - u). lia.
      - exists (h - u - 1). lia. }
    destruct HE as (h' & E'). exact (by_end _ _ _ E' Li).
  - intros t h HN E. apply by_low. unfold start. rewrite E, odd2. lia.
Qed.

Lemma run_ext C C' T x : (forall t y, t < T -> C t y = C' t y) -> run C T x = run C' T x.
Proof. intros H. induction T as [|T IH]; [reflexivity|]. cbn [run]. rewrite IH by (intros; apply H; lia). apply H. lia. Qed.

Lemma run_pivots Y p T : pivots N Y N p -> exists al th, pivots N (fun r => run (ncol al th) T (Y r)) N (keys p T).
Proof.
  intros HP. induction T as [|T IH]; [exists (fun _ _ => 0%R), (fun _ _ => 0%R); exact HP|].
  destruct IH as (al & th & H). destruct (@column_step N (start T) (b T) (e T) _ _ (Hb T) (He T) H) as (a & t & H').
  exists (fun i => if i =? T then a else al i), (fun i => if i =? T then t else th i). destruct H' as (V & HV). exists V. cbn [keys].
  assert (E : forall r, run (ncol (fun i => if i =? T then a else al i) (fun i => if i =? T then t else th i)) (S T) (Y r)
     = zcolumn (start T) N (fun j => mixm (b T j) (a j) (t j)) (fun _ => e T) (run (ncol al th) T (Y r))).
  { intros r. cbn [run]. unfold ncol at 1. rewrite Nat.eqb_refl. f_equal. apply run_ext. intros i y Li. unfold ncol. now rewrite (proj2 (Nat.eqb_neq i T)) by lia. }
  intros k Lk. destruct (HV k Lk) as [(f & u & Hf & (c & Hc) & Hv) Ht]. split; [|exact Ht]. exists f, u. split; [exact Hf|]. split.
  - exists c. intros r Lr. rewrite Hc by exact Lr. apply lsum_ext. intros j _. now rewrite E.
  - intros r Lr. rewrite E. now apply Hv.
Qed.

Theorem run_focus Y T : 1 <= N -> N <= T -> ortho N Y ->
  (forall k l, k < N -> l < N -> zsum (fun r => zmul (zbar (Y r k)) (Y r l)) (seq 0 N) = if k =? l then z1 else z0) ->
  exists al th, forall k j, k < N -> j < N -> k <> j -> run (ncol al th) T (Y k) j = z0.
Proof.
  intros HN HT HY HC. destruct (pivots_exist (ortho_independent HC)) as (p & HP & Hi).
  assert (Hr : forall k, k < N -> p k < N) by (destruct HP as (V & HV); intros k Lk; apply (HV k Lk)).
  destruct (run_pivots T HP) as (al & th & H). exists al, th.
  apply (@triangular_diagonal N (fun r => run (ncol al th) T (Y r))); [now apply run_ortho|].
  apply (@pivots_triangular N _ (keys p T) H). intros k Lk. now apply keys_sorted.
Qed.
End Run.
