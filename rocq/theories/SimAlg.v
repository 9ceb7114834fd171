(** Finite sums and complex numbers over any commutative ring. *)
From Coq Require Import Ring Permutation.
From Verif Require Import Base NetModel SimModel.
Set Implicit Arguments.
Local Open Scope nat_scope.

Section Alg.
Variables (K : Type) (k0 k1 : K) (kadd kmul ksub : K -> K -> K) (kopp : K -> K).
Hypothesis KR : ring_theory k0 k1 kadd kmul ksub kopp (@eq K).
Add Ring Kring : KR.

Notation sum := (lsum k0 kadd).
Notation "a +k b" := (kadd a b) (at level 50, left associativity).
Notation "a *k b" := (kmul a b) (at level 40, left associativity).
Notation "a -k b" := (ksub a b) (at level 50, left associativity).

Lemma lsum_nil A (f : A -> K) : sum f [] = k0. Proof. reflexivity. Qed.
Lemma lsum_cons A (f : A -> K) x l : sum f (x :: l) = f x +k sum f l. Proof. reflexivity. Qed.
Arguments lsum : simpl never.
Ltac sumcbn := cbn [app map filter length seq In]; rewrite ?lsum_cons, ?lsum_nil.

Lemma lsum_ext A (f g : A -> K) l : (forall x, In x l -> f x = g x) -> sum f l = sum g l.
Proof.
  induction l as [|x l IH]; intros H; sumcbn; auto.
  rewrite (H x), IH; [reflexivity| |now left]. intros; apply H; now right.
Qed.

Lemma lsum_0 A (f : A -> K) l : (forall x, In x l -> f x = k0) -> sum f l = k0.
Proof.
  induction l as [|x l IH]; intros H; sumcbn; auto.
  rewrite (H x), IH; [ring| |now left]. intros; apply H; now right.
Qed.

Lemma lsum_app A (f : A -> K) l r : sum f (l ++ r) = sum f l +k sum f r.
Proof. induction l as [|x l IH]; sumcbn; [|rewrite IH]; ring. Qed.

Lemma lsum_perm A (f : A -> K) l r : Permutation l r -> sum f l = sum f r.
Proof. induction 1; sumcbn; try congruence; ring. Qed.

Lemma lsum_map A B (g : A -> B) (f : B -> K) l : sum f (map g l) = sum (fun x => f (g x)) l.
Proof. induction l as [|x l IH]; sumcbn; congruence. Qed.

Lemma lsum_nth A (d : A) (f : A -> K) l :
  sum (fun k => f (nth k l d)) (seq 0 (length l)) = sum f l.
Proof.
  rewrite <- (lsum_map (fun k => nth k l d)). f_equal.
  clear. induction l as [|x l IH]; cbn; auto.
  f_equal. rewrite <- seq_shift, map_map. exact IH.
Qed.

Lemma lsum_add A (f g : A -> K) l : sum (fun x => f x +k g x) l = sum f l +k sum g l.
Proof. induction l as [|x l IH]; sumcbn; [|rewrite IH]; ring. Qed.

Lemma lsum_sub A (f g : A -> K) l : sum (fun x => f x -k g x) l = sum f l -k sum g l.
Proof. induction l as [|x l IH]; sumcbn; [|rewrite IH]; ring. Qed.

Lemma lsum_mul A (c : K) (f : A -> K) l : sum (fun x => c *k f x) l = c *k sum f l.
Proof. induction l as [|x l IH]; sumcbn; [|rewrite IH]; ring. Qed.

Lemma lsum_mul_r A (c : K) (f : A -> K) l : sum (fun x => f x *k c) l = sum f l *k c.
Proof. induction l as [|x l IH]; sumcbn; [|rewrite IH]; ring. Qed.

Lemma lsum_swap A B (f : A -> B -> K) l r :
  sum (fun x => sum (fun y => f x y) r) l = sum (fun y => sum (fun x => f x y) l) r.
Proof.
  induction l as [|x l IH]; sumcbn.
  - symmetry. apply lsum_0. auto.
  - rewrite IH, <- lsum_add. reflexivity.
Qed.

Lemma lsum_split A (p : A -> bool) (f : A -> K) l :
  sum f l = sum f (filter p l) +k sum f (filter (fun x => negb (p x)) l).
Proof. induction l as [|x l IH]; sumcbn; [ring|]. rewrite IH. destruct (p x); cbn [negb]; sumcbn; ring. Qed.

Lemma lsum_filter A (p : A -> bool) (f : A -> K) l :
  sum f (filter p l) = sum (fun x => if p x then f x else k0) l.
Proof. induction l as [|x l IH]; sumcbn; auto. destruct (p x); sumcbn; rewrite IH; ring. Qed.

(** A sum with one non-zero term. *)
Lemma lsum_one n j (f : nat -> K) :
  sum (fun t => if t =? j then f t else k0) (seq 0 n) = if j <? n then f j else k0.
Proof.
  induction n as [|n IH]; [reflexivity|].
  rewrite seq_S, lsum_app, IH. sumcbn.
  cbn [Nat.add].
  destruct (Nat.eqb_spec n j) as [->|N].
  - rewrite Nat.ltb_irrefl. replace (j <? S j) with true by (symmetry; apply Nat.ltb_lt; lia). ring.
  - destruct (Nat.ltb_spec j n), (Nat.ltb_spec j (S n)); try lia; ring.
Qed.

(** *** Complex numbers as pairs. *)
Notation cx := (prod K K).
Definition c0 : cx := (k0, k0).
Definition c1 : cx := (k1, k0).
Definition cadd (a b : cx) : cx := (fst a +k fst b, snd a +k snd b).
Definition cmul (a b : cx) : cx :=
  (fst a *k fst b -k snd a *k snd b, fst a *k snd b +k snd a *k fst b).
Definition csub (a b : cx) : cx := (fst a -k fst b, snd a -k snd b).
Definition copp (a : cx) : cx := (kopp (fst a), kopp (snd a)).

Lemma cx_ring : ring_theory c0 c1 cadd cmul csub copp (@eq cx).
Proof.
  constructor; intros; repeat match goal with x : prod _ _ |- _ => destruct x end;
    unfold c0, c1, cadd, cmul, csub, copp; cbn; f_equal; ring.
Qed.

Notation csum := (lsum c0 cadd).

Lemma fst_csum A (f : A -> cx) l : fst (csum f l) = sum (fun x => fst (f x)) l.
Proof. unfold lsum; induction l as [|x l IH]; cbn; congruence. Qed.
Lemma snd_csum A (f : A -> cx) l : snd (csum f l) = sum (fun x => snd (f x)) l.
Proof. unfold lsum; induction l as [|x l IH]; cbn; congruence. Qed.

Lemma csum_mul A (f g : A -> cx) l :
  csum (fun x => cmul (f x) (g x)) l =
  (sum (fun x => fst (f x) *k fst (g x)) l -k sum (fun x => snd (f x) *k snd (g x)) l,
   sum (fun x => fst (f x) *k snd (g x)) l +k sum (fun x => snd (f x) *k fst (g x)) l).
Proof.
  rewrite (surjective_pairing (csum _ l)). f_equal.
  - rewrite fst_csum, <- lsum_sub. reflexivity.
  - rewrite snd_csum, <- lsum_add. reflexivity.
Qed.

End Alg.
