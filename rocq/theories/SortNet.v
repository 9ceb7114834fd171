(** Odd-even transposition sort: N alternating columns of comparators sort N different keys. *)
From Coq Require Import List Arith Lia Permutation.
Import ListNotations.
Set Implicit Arguments.

Section Sort.
Variables (N : nat) (p : nat -> nat -> nat).   (* the keys before each column *)
(** Column [t] compares lines [i] and [i + 1] for [i + t] even. *)
Hypothesis Hpair : forall t i h, i + 1 < N -> i + t = 2 * h ->
  p (S t) i = min (p t i) (p t (i + 1)) /\ p (S t) (i + 1) = max (p t i) (p t (i + 1)).
Hypothesis Hend : forall t i h, i + 1 = N -> i + t = 2 * h -> p (S t) i = p t i.
Hypothesis Hfirst : forall t h, 0 < N -> t = 2 * h + 1 -> p (S t) 0 = p t 0.
Hypothesis Hrange : forall k, k < N -> p 0 k < N.
Hypothesis Hinj : forall j k, j < N -> k < N -> p 0 j = p 0 k -> j = k.

(** How many of the first [x] keys are below [q]. *)
Definition below (q : nat) (f : nat -> nat) (x : nat) : nat := length (filter (fun k => f k <? q) (seq 0 x)).
Definition one (q v : nat) : nat := if v <? q then 1 else 0.
Lemma below_S q f x : below q f (S x) = below q f x + one q (f x).
Proof. unfold below, one. rewrite seq_S, filter_app, app_length. cbn [filter Nat.add]. destruct (f x <? q); cbn [length]; lia. Qed.
Lemma one_le q v : one q v <= 1. Proof. unfold one. destruct (v <? q); lia. Qed.
Lemma one_min q a b : one q (min a b) = max (one q a) (one q b).
Proof. unfold one. destruct (Nat.ltb_spec a q), (Nat.ltb_spec b q), (Nat.ltb_spec (min a b) q); lia. Qed.
Lemma one_max q a b : one q (max a b) = min (one q a) (one q b).
Proof. unfold one. destruct (Nat.ltb_spec a q), (Nat.ltb_spec b q), (Nat.ltb_spec (max a b) q); lia. Qed.

Lemma below_start q : q <= N -> below q (p 0) N = q.
Proof.
  intros Hq. assert (HP : Permutation (map (p 0) (seq 0 N)) (seq 0 N)).
  { apply NoDup_Permutation_bis.
    - assert (HG : forall l, (forall x, In x l -> x < N) -> NoDup l -> NoDup (map (p 0) l)).
      { induction l as [|a l IH]; intros Hl Hn; [constructor|]. inversion Hn; subst. cbn. constructor.
        - intros Hin. apply in_map_iff in Hin. destruct Hin as (b & E & Hb). apply Hinj in E; [subst; contradiction|apply Hl; now right|apply Hl; now left].
        - apply IH; auto. intros; apply Hl; now right. }
      apply HG; [|apply seq_NoDup]. intros x Hx. apply in_seq in Hx. lia.
    - rewrite map_length. lia.
    - intros y Hy. apply in_map_iff in Hy. destruct Hy as (x & <- & Hx). apply in_seq in Hx. apply in_seq. pose proof (@Hrange x ltac:(lia)). lia. }
  assert (HF : forall l r : list nat, Permutation l r -> length (filter (fun v => v <? q) l) = length (filter (fun v => v <? q) r)).
  { induction 1 as [|x l r _ IH|x y l|l r s _ IH1 _ IH2]; cbn [filter]; [reflexivity|destruct (x <? q); cbn [length]; lia|destruct (x <? q), (y <? q); reflexivity|congruence]. }
  assert (HM : forall l, length (filter (fun k => p 0 k <? q) l) = length (filter (fun v => v <? q) (map (p 0) l))).
  { induction l as [|a l IH]; [reflexivity|]. cbn [map filter]. destruct (p 0 a <? q); cbn [length]; lia. }
  unfold below. rewrite HM, (HF _ _ HP). clear - Hq. induction Hq as [|m Hq IH].
  - assert (HA : forall n a, a + n <= q -> length (filter (fun v => v <? q) (seq a n)) = n).
    { induction n as [|n IH]; intros a Ha; [reflexivity|]. cbn [seq filter]. destruct (Nat.ltb_spec a q); [|lia]. cbn [length]. rewrite IH; lia. }
    now apply HA.
  - rewrite seq_S, filter_app, app_length, IH. cbn [filter Nat.add]. destruct (Nat.ltb_spec m q); cbn [length]; lia.
Qed.

(** A column changes the count only between compared lines, where it becomes as large as possible. *)
Lemma below_step q t : forall x, x <= N ->
  (forall h, x + t = 2 * h -> below q (p (S t)) x = below q (p t) x) /\
  (forall h, x + t = 2 * h + 1 -> x = 0 \/ x = N -> below q (p (S t)) x = below q (p t) x) /\
  (forall h y, x = S y -> x + t = 2 * h + 1 -> x < N -> below q (p (S t)) x = min (below q (p t) (S x)) (S (below q (p t) y))).
Proof.
  induction x as [x IH] using lt_wf_ind. intros Lx. destruct x as [|x].
  - repeat split; intros; try reflexivity. discriminate.
  - split; [|split].
    + intros h E. destruct x as [|x].
      * rewrite !below_S. f_equal. f_equal. apply Hfirst with (h := h - 1); lia.
      * destruct (IH x) as [H0 _]; [lia|lia|]. rewrite !below_S, (H0 (h - 1)) by lia.
        destruct (@Hpair t x (h - 1)) as [E1 E2]; [lia|lia|]. replace (x + 1) with (S x) in * by lia. rewrite E1, E2, one_min, one_max. lia.
    + intros h E [E0|EN]; [lia|]. destruct (IH x) as [H0 _]; [lia|lia|]. rewrite !below_S, (H0 h) by lia. f_equal. f_equal.
      apply Hend with (h := h); lia.
    + intros h y [= <-] E L. destruct (IH x) as [H0 _]; [lia|lia|]. rewrite !below_S, (H0 h) by lia.
      destruct (@Hpair t x h) as [E1 _]; [lia|lia|]. replace (x + 1) with (S x) in * by lia. rewrite E1, one_min.
      pose proof (one_le q (p t x)). pose proof (one_le q (p t (S x))). lia.
Qed.
Lemma below_all q t : q <= N -> below q (p t) N = q.
Proof.
  intros Hq. induction t as [|t IH]; [now apply below_start|]. destruct (@below_step q t N (le_n _)) as (H1 & H2 & _).
  destruct (Nat.Even_or_Odd (N + t)) as [(h & E)|(h & E)]; [rewrite (H1 h E)|rewrite (H2 h E) by auto]; exact IH.
Qed.
Lemma below_far q f x : x <= N -> below q f N <= below q f x + (N - x).
Proof.
  generalize N. intros m L. induction L as [|m L IH]; [lia|]. rewrite below_S. pose proof (one_le q (f m)). lia.
Qed.

(** After [t] columns the key number [j] among those below [q] is at most [o + 2 j - t] lines from the
    beginning, unless it is already in place. *)
Lemma progress q o u t : q <= N -> o = 2 * u + 1 -> N <= o + q ->
  forall x j, x <= N -> j < q -> j < x -> o + 2 * j < x + t -> j < below q (p t) x.
Proof.
  intros Hq Ho HN. induction t as [|t IH]; intros x j Lx Lj Lj' L.
  - pose proof (@below_far q (p 0) x Lx). rewrite below_start in H by exact Hq. lia.
  - destruct (@below_step q t x Lx) as (H1 & H2 & H3). destruct (Nat.Even_or_Odd (x + t)) as [(h & E)|(h & E)].
    + rewrite (H1 h E). apply IH; lia.
    + destruct (Nat.eq_dec x N) as [->|HxN]; [rewrite (H2 h E) by auto; rewrite below_all by exact Hq; exact Lj|].
      destruct x as [|y]; [lia|]. rewrite (H3 h y eq_refl E) by lia.
      assert (j < below q (p t) (S (S y))) by (apply IH; lia). assert (j < S (below q (p t) y)); [|lia].
      destruct j as [|j]; [lia|]. assert (j < below q (p t) y) by (apply IH; lia). lia.
Qed.

Theorem sorted t k : N <= t -> k < N -> p t k = k.
Proof.
  intros Ht. assert (HB : forall q, 1 <= q <= N -> below q (p t) q = q).
  { intros q [Hq1 Hq2]. assert (H : q - 1 < below q (p t) q).
    { destruct (Nat.Even_or_Odd (N - q)) as [(u & E)|(u & E)].
      - apply (@progress q (N - q + 1) u t); lia.
      - apply (@progress q (N - q) u t); lia. }
    assert (forall f x, below q f x <= x) by (intros f x; induction x as [|x IHx]; [reflexivity|]; rewrite below_S; pose proof (one_le q (f x)); lia).
    specialize (H0 (p t) q). lia. }
  assert (HA : forall q f x, below q f x = x -> forall j, j < x -> f j < q).
  { intros q f x. assert (HL : forall y, below q f y <= y) by (induction y as [|y IHy]; [reflexivity|]; rewrite below_S; pose proof (one_le q (f y)); lia).
    induction x as [|x IH]; intros E j Lj; [lia|]. rewrite below_S in E. pose proof (HL x). pose proof (one_le q (f x)).
    destruct (Nat.eq_dec j x) as [->|Hne]; [|apply IH; lia]. unfold one in *. destruct (Nat.ltb_spec (f x) q); [assumption|lia]. }
  induction k as [k IH] using lt_wf_ind. intros Lk.
  assert (Hle : p t k < S k) by (apply (HA (S k) (p t) (S k)); [apply HB; lia|lia]).
  destruct (Nat.eq_dec (p t k) k) as [E|E]; [exact E|]. exfalso.
  (* k + 1 keys below k *)
  destruct k as [|k]; [lia|]. assert (H : below (S k) (p t) (S (S k)) = S (S k)).
  { rewrite below_S, HB by lia. unfold one. destruct (Nat.ltb_spec (p t (S k)) (S k)); lia. }
  assert (HM : forall x, S (S k) <= x -> below (S k) (p t) (S (S k)) <= below (S k) (p t) x) by (intros x Hx; induction Hx as [|m Hx IHx]; [lia|]; rewrite (below_S _ _ m); lia).
  specialize (HM N Lk). rewrite below_all in HM by lia. lia.
Qed.
End Sort.
