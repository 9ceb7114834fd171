(** Operators on N lines that have an inverse adjoint are unitary matrices. *)
From Coq Require Import Ring Permutation.
From Verif Require Import Base NetModel SimModel SimAlg SimSpec CircuitProofs UniSpec.
Set Implicit Arguments.
Local Open Scope nat_scope.

Section U.
Variables (K : Type) (k0 k1 : K) (kadd kmul ksub : K -> K -> K) (kopp : K -> K).
Hypothesis KR : ring_theory k0 k1 kadd kmul ksub kopp (@eq K).
Notation cx := (prod K K).
Notation c0 := (c0 k0).
Notation c1 := (c1 k0 k1).
Notation cadd := (cadd kadd).
Notation cmul := (cmul kadd kmul ksub).
Notation csub := (csub ksub).
Notation copp := (copp kopp).
Notation csum := (lsum c0 cadd).
Notation bar := (cbar kopp).
Notation vec := (nat -> cx).
Add Ring Kring : KR.
Let CR := CR KR.
Add Ring Cring : CR.

Lemma bar_add a b : bar (cadd a b) = cadd (bar a) (bar b).
Proof. unfold cbar, SimAlg.cadd. cbn. f_equal. ring. Qed.
Lemma bar_mul a b : bar (cmul a b) = cmul (bar a) (bar b).
Proof. unfold cbar, SimAlg.cmul. cbn. f_equal; ring. Qed.
Lemma bar_bar a : bar (bar a) = a.
Proof. destruct a. unfold cbar. cbn. f_equal. ring. Qed.
Lemma bar_0 : bar c0 = c0. Proof. unfold cbar, SimAlg.c0. cbn. f_equal. ring. Qed.
Lemma bar_1 : bar c1 = c1. Proof. unfold cbar, SimAlg.c1. cbn. f_equal. ring. Qed.
Lemma bar_sum A (f : A -> cx) l : bar (csum f l) = csum (fun x => bar (f x)) l.
Proof. induction l as [|x l IH]; [apply bar_0|]. rewrite !lsum_cons, bar_add, IH. reflexivity. Qed.

Definition dot (N : nat) (x y : vec) : cx := csum (fun k => cmul (bar (x k)) (y k)) (seq 0 N).
Definition unit_vec (i : nat) : vec := fun k => if k =? i then c1 else c0.

(** [M] has the inverse [M'], which is its adjoint. *)
Record uni (N : nat) (M M' : vec -> vec) : Prop := {
  u_adj : forall x y, dot N (M x) y = dot N x (M' y);
  u_right : forall y k, k < N -> M (M' y) k = y k;
  u_left : forall x k, k < N -> M' (M x) k = x k
}.

Lemma dot_ext N x y x' y' : (forall k, k < N -> x k = x' k) -> (forall k, k < N -> y k = y' k) -> dot N x y = dot N x' y'.
Proof. intros H1 H2. apply lsum_ext. intros k Ik. apply in_seq in Ik. rewrite H1, H2 by lia. reflexivity. Qed.
Lemma dot_unit_r N x k : k < N -> dot N x (unit_vec k) = bar (x k).
Proof.
  intros L. unfold dot, unit_vec. rewrite (@lsum_ext _ c0 cadd _ _ (fun j => if j =? k then bar (x j) else c0)).
  - rewrite (lsum_one CR). destruct (Nat.ltb_spec k N); [reflexivity|lia].
  - intros j _. destruct (j =? k); ring.
Qed.
Lemma dot_unit_l N y k : k < N -> dot N (unit_vec k) y = y k.
Proof.
  intros L. unfold dot, unit_vec. rewrite (@lsum_ext _ c0 cadd _ _ (fun j => if j =? k then y j else c0)).
  - rewrite (lsum_one CR). destruct (Nat.ltb_spec k N); [reflexivity|lia].
  - intros j _. destruct (j =? k); [rewrite bar_1|rewrite bar_0]; ring.
Qed.

Lemma uni_matrix N M M' x k : uni N M M' -> k < N -> M x k = csum (fun j => cmul (bar (M' (unit_vec k) j)) (x j)) (seq 0 N).
Proof.
  intros H L. rewrite <- (bar_bar (M x k)), <- dot_unit_r with (N := N) by exact L. rewrite (u_adj H).
  unfold dot. rewrite bar_sum. apply lsum_ext. intros j _. rewrite bar_mul, bar_bar. ring.
Qed.
Lemma uni_sym N M M' : uni N M M' -> uni N M' M.
Proof.
  intros H. constructor; [|apply (u_left H)|apply (u_right H)]. intros x y.
  assert (E : forall a b, dot N a b = bar (dot N b a)).
  { intros a b. unfold dot. rewrite bar_sum. apply lsum_ext. intros k _. rewrite bar_mul, bar_bar. ring. }
  rewrite (E (M' x) y), <- (u_adj H), <- E. reflexivity.
Qed.
Lemma uni_local N M M' x y : uni N M M' -> (forall k, k < N -> x k = y k) -> forall k, k < N -> M x k = M y k.
Proof.
  intros H E k L. rewrite (uni_matrix x H L), (uni_matrix y H L). apply lsum_ext. intros j Ij. apply in_seq in Ij. rewrite E by lia. reflexivity.
Qed.

(** The matrix of an operator. *)
Definition mat_of (M : vec -> vec) (k j : nat) : cx := M (unit_vec j) k.
Lemma mat_of_adj N M M' k j : uni N M M' -> k < N -> j < N -> mat_of M k j = bar (M' (unit_vec k) j).
Proof.
  intros H Lk Lj. unfold mat_of. rewrite (uni_matrix _ H Lk). unfold unit_vec at 2.
  rewrite (@lsum_ext _ c0 cadd _ _ (fun i => if i =? j then bar (M' (unit_vec k) i) else c0)).
  - rewrite (lsum_one CR). destruct (Nat.ltb_spec j N); [reflexivity|lia].
  - intros i _. destruct (i =? j); ring.
Qed.
Lemma mat_of_spec N M M' x k : uni N M M' -> k < N -> M x k = csum (fun j => cmul (mat_of M k j) (x j)) (seq 0 N).
Proof.
  intros H L. rewrite (uni_matrix x H L). apply lsum_ext. intros j Ij. apply in_seq in Ij. rewrite (mat_of_adj H) by lia. reflexivity.
Qed.
Theorem uni_unitary N M M' : uni N M M' -> unitary k0 k1 kadd kmul ksub kopp N (mat_of M).
Proof.
  intros H i j Li Lj. split.
  - change (dot N (M (unit_vec i)) (M (unit_vec j)) = if i =? j then c1 else c0).
    rewrite (u_adj H), dot_unit_l, (u_left H) by assumption. reflexivity.
  - transitivity (M (M' (unit_vec j)) i).
    + rewrite (mat_of_spec _ H Li). apply lsum_ext. intros k Ik. apply in_seq in Ik.
      rewrite (@mat_of_adj N M M' j k H) by lia. rewrite bar_bar. reflexivity.
    + rewrite (u_right H) by exact Li. unfold unit_vec. reflexivity.
Qed.

(** * Constructions *)
Lemma uni_id N : uni N (fun x => x) (fun x => x).
Proof. constructor; reflexivity. Qed.
Lemma uni_comp N A A' B B' : uni N A A' -> uni N B B' -> uni N (fun x => A (B x)) (fun y => B' (A' y)).
Proof.
  intros HA HB. constructor.
  - intros x y. rewrite (u_adj HA), (u_adj HB). reflexivity.
  - intros y k L. rewrite (@uni_local N A A' _ (A' y) HA); [apply (u_right HA), L| |exact L]. intros j Lj. apply (u_right HB), Lj.
  - intros x k L. rewrite (@uni_local N B' B _ (B x) (uni_sym HB)); [apply (u_left HB), L| |exact L]. intros j Lj. apply (u_left HA), Lj.
Qed.
Lemma uni_ext N A A' B : uni N A A' -> (forall x k, k < N -> B x k = A x k) -> uni N B A'.
Proof.
  intros H E. constructor.
  - intros x y. rewrite <- (u_adj H). apply dot_ext; auto.
  - intros y k L. rewrite E by exact L. now apply (u_right H).
  - intros x k L. rewrite (@uni_local N A' A _ (A x) (uni_sym H)); [now apply (u_left H)|auto|exact L].
Qed.

(** Lines mixed in pairs: [s k] is the partner of line [k], or [k] itself. *)
Definition pairs (s : nat -> nat) (al be : nat -> cx) (x : vec) : vec :=
  fun k => if s k =? k then cmul (al k) (x k) else cadd (cmul (al k) (x k)) (cmul (be k) (x (s k))).
Definition pairs' (s : nat -> nat) (al be : nat -> cx) (y : vec) : vec :=
  fun k => if s k =? k then cmul (bar (al k)) (y k) else cadd (cmul (bar (al k)) (y k)) (cmul (bar (be (s k))) (y (s k))).

Record pair_ok (N : nat) (s : nat -> nat) (al be : nat -> cx) : Prop := {
  p_range : forall k, k < N -> s k < N;
  p_inv : forall k, k < N -> s (s k) = k;
  p_one : forall k, k < N -> s k = k -> cmul (bar (al k)) (al k) = c1;
  p_row : forall k, k < N -> s k <> k -> cadd (cmul (al k) (bar (al k))) (cmul (be k) (bar (be k))) = c1;
  p_rows : forall k, k < N -> s k <> k -> cadd (cmul (al k) (bar (be (s k)))) (cmul (be k) (bar (al (s k)))) = c0;
  p_col : forall k, k < N -> s k <> k -> cadd (cmul (bar (al k)) (al k)) (cmul (bar (be (s k))) (be (s k))) = c1;
  p_cols : forall k, k < N -> s k <> k -> cadd (cmul (bar (al k)) (be k)) (cmul (bar (be (s k))) (al (s k))) = c0
}.

Lemma perm_seq N s : (forall k, k < N -> s k < N) -> (forall k, k < N -> s (s k) = k) -> Permutation (seq 0 N) (map s (seq 0 N)).
Proof.
  intros H1 H2. apply NoDup_Permutation.
  - apply seq_NoDup.
  - assert (HG : forall l, (forall x, In x l -> x < N) -> NoDup l -> NoDup (map s l)).
    { induction l as [|a l IH]; intros Hl Hn; [constructor|]. inversion Hn; subst. cbn. constructor.
      - intros Hin. apply in_map_iff in Hin as (b & E & Hb). assert (Ea : a = b).
        { rewrite <- (H2 a), <- (H2 b), E by (apply Hl; cbn; auto). reflexivity. }
        subst b. contradiction.
      - apply IH; auto. intros; apply Hl; now right. }
    apply HG; [|apply seq_NoDup]. intros x Hx. apply in_seq in Hx. lia.
  - intros x. rewrite in_map_iff, in_seq. split.
    + intros Hx. exists (s x). split; [apply H2; lia|]. apply in_seq. specialize (H1 x). lia.
    + intros (y & <- & Hy). apply in_seq in Hy. specialize (H1 y). lia.
Qed.

Lemma uni_pairs N s al be : pair_ok N s al be -> uni N (pairs s al be) (pairs' s al be).
Proof.
  intros H.
  assert (HC : forall k, k < N -> s k = k \/ s k <> k /\ s (s k) <> s k).
  { intros k L. destruct (Nat.eq_dec (s k) k) as [E|E]; [now left|]. right. split; [exact E|]. rewrite (p_inv H L). auto. }
  constructor.
  - intros x y. unfold dot.
    set (g := fun k => if s k =? k then c0 else cmul (cmul (bar (be k)) (bar (x (s k)))) (y k)).
    set (h := fun k => cmul (cmul (bar (al k)) (bar (x k))) (y k)).
    transitivity (cadd (csum h (seq 0 N)) (csum g (seq 0 N))).
    + rewrite <- (lsum_add CR). apply lsum_ext. intros k _. unfold pairs, h, g. destruct (s k =? k); rewrite ?bar_add, !bar_mul; ring.
    + rewrite (lsum_perm CR g (perm_seq s (p_range H) (p_inv H))), lsum_map, <- (lsum_add CR). apply lsum_ext. intros k Ik. apply in_seq in Ik.
      unfold pairs', h, g. rewrite (p_inv H) by lia. rewrite (Nat.eqb_sym k (s k)). destruct (s k =? k); ring.
  - intros y k L. unfold pairs, pairs'. destruct (HC k L) as [E|[E E']].
    + rewrite E, Nat.eqb_refl. transitivity (cmul (cmul (bar (al k)) (al k)) (y k)); [ring|]. rewrite (p_one H L E). ring.
    + rewrite (p_inv H L). rewrite (proj2 (Nat.eqb_neq (s k) k) E), (proj2 (Nat.eqb_neq k (s k))) by auto.
      transitivity (cadd (cmul (cadd (cmul (al k) (bar (al k))) (cmul (be k) (bar (be k)))) (y k))
                         (cmul (cadd (cmul (al k) (bar (be (s k)))) (cmul (be k) (bar (al (s k))))) (y (s k)))); [ring|].
      rewrite (p_row H L E), (p_rows H L E). ring.
  - intros x k L. unfold pairs, pairs'. destruct (HC k L) as [E|[E E']].
    + rewrite E, Nat.eqb_refl. transitivity (cmul (cmul (bar (al k)) (al k)) (x k)); [ring|]. rewrite (p_one H L E). ring.
    + rewrite (p_inv H L). rewrite (proj2 (Nat.eqb_neq (s k) k) E), (proj2 (Nat.eqb_neq k (s k))) by auto.
      transitivity (cadd (cmul (cadd (cmul (bar (al k)) (al k)) (cmul (bar (be (s k))) (be (s k)))) (x k))
                         (cmul (cadd (cmul (bar (al k)) (be k)) (cmul (bar (be (s k))) (al (s k)))) (x (s k)))); [ring|].
      rewrite (p_col H L E), (p_cols H L E). ring.
Qed.

(** An operator on the lines from [m] on. *)
Definition lift (m : nat) (M : vec -> vec) (x : vec) : vec := fun k => if k <? m then x k else M (fun j => x (m + j)) (k - m).
Lemma uni_lift N m M M' : m <= N -> uni (N - m) M M' -> uni N (lift m M) (lift m M').
Proof.
  intros L H.
  assert (HB : forall A A', uni (N - m) A A' -> forall x k, k < N -> lift m A (lift m A' x) k = x k).
  { intros A A' HA x k Lk. unfold lift at 1. destruct (Nat.ltb_spec k m) as [E|E].
    - unfold lift. destruct (Nat.ltb_spec k m); [reflexivity|lia].
    - rewrite (@uni_local (N - m) A A' _ (A' (fun j => x (m + j))) HA); [|intros j Lj|lia].
      + rewrite (u_right HA) by lia. f_equal. lia.
      + unfold lift. destruct (Nat.ltb_spec (m + j) m); [lia|]. f_equal. lia. }
  constructor; [|apply HB, H|apply HB, uni_sym, H].
  intros x y. unfold dot. replace N with (m + (N - m)) by lia. rewrite seq_add, !(lsum_app CR), !lsum_map. f_equal.
  - apply lsum_ext. intros k Ik. apply in_seq in Ik. unfold lift. destruct (Nat.ltb_spec k m); [reflexivity|lia].
  - transitivity (dot (N - m) (M (fun j => x (m + j))) (fun j => y (m + j))).
    + apply lsum_ext. intros k Ik. unfold lift. destruct (Nat.ltb_spec (m + k) m); [lia|]. replace (m + k - m) with k by lia. reflexivity.
    + rewrite (u_adj H). apply lsum_ext. intros k Ik. unfold lift. destruct (Nat.ltb_spec (m + k) m); [lia|]. replace (m + k - m) with k by lia. reflexivity.
Qed.

End U.
