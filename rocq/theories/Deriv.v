(** Derivatives of the solutions of linear systems with respect to a parameter. *)
From Coq Require Import Reals Lra Ring Field.
From Verif Require Import Base NetModel SimModel SimAlg SimSpec Gauss.
Set Implicit Arguments.
Unset Strict Implicit.
Local Open Scope nat_scope.

Notation C := (prod R R).
Notation "0c" := (c0 0%R).
Notation "1c" := (c1 0%R 1%R).
Notation cadd := (cadd Rplus).
Notation cmul := (cmul Rplus Rmult Rminus).
Notation csub := (csub Rminus).
Notation copp := (copp Ropp).
Notation csum := (lsum 0c cadd).

Definition CRr : ring_theory 0c 1c cadd cmul csub copp (@eq C) := cx_ring RTheory.
Add Ring Crring : CRr.

(** *** Complex numbers are a field. *)
Definition cinv (z : C) : C :=
  let d := (fst z * fst z + snd z * snd z)%R in (fst z / d, - snd z / d)%R.
Definition cdiv (x y : C) : C := cmul x (cinv y).

Lemma cnorm0 (z : C) : z <> 0c -> (fst z * fst z + snd z * snd z <> 0)%R.
Proof. intros N E. apply N. destruct z as [x y]; cbn in *. unfold c0. f_equal; nra. Qed.

Lemma c_field : field_theory 0c 1c cadd cmul csub copp cdiv cinv (@eq C).
Proof.
  constructor; [exact CRr| |reflexivity|].
  - intros E. apply (f_equal fst) in E. cbn in E. lra.
  - intros z N. apply cnorm0 in N. destruct z as [x y]. unfold cinv, SimAlg.cmul, c1; cbn [fst snd] in *. f_equal; field; exact N.
Qed.

Definition ceqb (x y : C) : bool :=
  if Req_EM_T (fst x) (fst y) then if Req_EM_T (snd x) (snd y) then true else false else false.
Lemma ceqb_eq x y : ceqb x y = true <-> x = y.
Proof.
  unfold ceqb. destruct x as [a b], y as [c d]; cbn [fst snd].
  destruct (Req_EM_T a c), (Req_EM_T b d); split; try congruence.
Qed.

Notation mv M v n := (fun i => csum (fun k => cmul (M i k) (v k)) (seq 0 n)).

(** A matrix with trivial kernel has a right inverse. *)
Lemma inverse n (A : nat -> nat -> C) :
  (forall v, (forall i, i < n -> csum (fun k => cmul (A i k) (v k)) (seq 0 n) = 0c) -> forall i, i < n -> v i = 0c) ->
  exists X : nat -> nat -> C, forall i j, i < n -> j < n ->
    csum (fun k => cmul (A i k) (X k j)) (seq 0 n) = if i =? j then 1c else 0c.
Proof.
  intros H.
  destruct (@gauss_complete C 0c 1c cadd cmul csub copp cdiv cinv c_field ceqb ceqb_eq n n A (fun i j => if i =? j then 1c else 0c) H) as (X & E).
  exists X. intros i j Li Lj. exact (@gauss_sound C 0c 1c cadd cmul csub copp cdiv cinv c_field ceqb ceqb_eq n n A _ X E i j Li Lj).
Qed.

Lemma csum_if n i (f : nat -> C) : i < n -> csum (fun k => cmul (if i =? k then 1c else 0c) (f k)) (seq 0 n) = f i.
Proof.
  intros L. rewrite (@lsum_ext _ 0c cadd _ _ (fun k => if k =? i then f k else 0c)).
  - rewrite (lsum_one CRr). apply Nat.ltb_lt in L. now rewrite L.
  - intros k _. rewrite Nat.eqb_sym. destruct (k =? i); ring.
Qed.

(** *** Limits as a real increment goes to 0. *)
Definition tends (f : R -> R) (l : R) : Prop :=
  forall eps, (0 < eps)%R -> exists d, (0 < d)%R /\ forall h, h <> 0%R -> (Rabs h < d)%R -> (Rabs (f h - l) < eps)%R.
Definition ctends (f : R -> C) (l : C) : Prop := tends (fun h => fst (f h)) (fst l) /\ tends (fun h => snd (f h)) (snd l).
Definition near (P : R -> Prop) : Prop := exists d, (0 < d)%R /\ forall h, h <> 0%R -> (Rabs h < d)%R -> P h.

Lemma near_and P Q : near P -> near Q -> near (fun h => P h /\ Q h).
Proof.
  intros (d & Hd & HP) (d' & Hd' & HQ). exists (Rmin d d'). split; [now apply Rmin_glb_lt|].
  intros h Nh Lh. split; [apply HP|apply HQ]; auto; eapply Rlt_le_trans; eauto using Rmin_l, Rmin_r.
Qed.
Lemma near_mono (P Q : R -> Prop) : (forall h, h <> 0%R -> P h -> Q h) -> near P -> near Q.
Proof. intros H (d & Hd & HP). exists d. split; auto. Qed.
Lemma near_all (P : R -> Prop) : (forall h, h <> 0%R -> P h) -> near P.
Proof. intros H. exists 1%R. split; [lra|auto]. Qed.

Lemma tends_near f l : tends f l <-> forall eps, (0 < eps)%R -> near (fun h => (Rabs (f h - l) < eps)%R).
Proof. reflexivity. Qed.

Lemma tends_const l : tends (fun _ => l) l.
Proof. intros e He. exists 1%R. split; [lra|]. intros. rewrite Rminus_diag_eq, Rabs_R0; auto. Qed.

Lemma tends_ext f g l : near (fun h => f h = g h) -> tends f l -> tends g l.
Proof.
  intros E H e He. generalize (near_and E (H e He)). apply near_mono. intros h _ [-> L]. exact L.
Qed.

Lemma tends_add f g l m : tends f l -> tends g m -> tends (fun h => f h + g h)%R (l + m)%R.
Proof.
  intros F G e He. generalize (near_and (F (e/2)%R ltac:(lra)) (G (e/2)%R ltac:(lra))). apply near_mono.
  intros h _ [A B]. replace (f h + g h - (l + m))%R with ((f h - l) + (g h - m))%R by ring.
  eapply Rle_lt_trans; [apply Rabs_triang|]. lra.
Qed.

Lemma tends_opp f l : tends f l -> tends (fun h => - f h)%R (- l)%R.
Proof.
  intros F e He. generalize (F e He). apply near_mono. intros h _ A.
  replace (- f h - - l)%R with (- (f h - l))%R by ring. now rewrite Rabs_Ropp.
Qed.

Lemma tends_sub f g l m : tends f l -> tends g m -> tends (fun h => f h - g h)%R (l - m)%R.
Proof. intros F G. apply (tends_add F (tends_opp G)). Qed.

(** A bounded function times one that goes to 0. *)
Lemma tends_bounded f g B : near (fun h => Rabs (f h) <= B)%R -> tends g 0 -> tends (fun h => f h * g h)%R 0%R.
Proof.
  intros F G e He.
  assert (P : (0 < Rabs B + 1)%R) by (pose proof (Rabs_pos B); lra).
  generalize (near_and F (G (e / (Rabs B + 1))%R ltac:(apply Rdiv_lt_0_compat; auto))). apply near_mono.
  intros h _ [A L]. rewrite Rminus_0_r in *. rewrite Rabs_mult.
  apply Rle_lt_trans with ((Rabs B + 1) * Rabs (g h))%R.
  - apply Rmult_le_compat_r; [apply Rabs_pos|]. pose proof (Rle_abs B). lra.
  - apply (Rmult_lt_compat_l (Rabs B + 1)) in L; auto. field_simplify in L; [|lra]. lra.
Qed.

Lemma tends_bound f l : tends f l -> near (fun h => Rabs (f h) <= Rabs l + 1)%R.
Proof.
  intros F. generalize (F 1%R ltac:(lra)). apply near_mono. intros h _ A.
  pose proof (Rabs_triang (f h - l) l) as T. replace (f h - l + l)%R with (f h) in T by ring. lra.
Qed.

Lemma tends_mul f g l m : tends f l -> tends g m -> tends (fun h => f h * g h)%R (l * m)%R.
Proof.
  intros F G.
  assert (H1 : tends (fun h => f h * (g h - m))%R 0%R).
  { apply tends_bounded with (Rabs l + 1)%R; [now apply tends_bound|].
    replace 0%R with (m - m)%R by ring. apply tends_sub; auto using tends_const. }
  assert (H2 : tends (fun h => m * (f h - l))%R 0%R).
  { apply tends_bounded with (Rabs m); [apply near_all; intros; lra|].
    replace 0%R with (l - l)%R by ring. apply tends_sub; auto using tends_const. }
  pose proof (tends_add (tends_add H1 H2) (tends_const (l * m)%R)) as H.
  replace (0 + 0 + l * m)%R with (l * m)%R in H by ring.
  apply tends_ext with (2 := H). apply near_all. intros h _. ring.
Qed.

Lemma tends_unique f l m : tends f l -> tends f m -> l = m.
Proof.
  intros F G. destruct (Req_dec l m) as [|N]; auto. exfalso.
  assert (P : (0 < Rabs (l - m))%R) by (apply Rabs_pos_lt; lra).
  destruct (near_and (F (Rabs (l - m) / 2)%R ltac:(lra)) (G (Rabs (l - m) / 2)%R ltac:(lra))) as (d & Hd & H).
  destruct (H (d / 2)%R) as [A B]; [lra|rewrite Rabs_right; lra|].
  pose proof (Rabs_triang (l - f (d/2)) (f (d/2) - m))%R as T.
  replace (l - f (d/2) + (f (d/2) - m))%R with (l - m)%R in T by ring.
  rewrite (Rabs_minus_sym l (f (d / 2)%R)) in T. lra.
Qed.

(** Complex limits. *)
Lemma ctends_const l : ctends (fun _ => l) l.
Proof. split; apply tends_const. Qed.
Lemma ctends_ext f g l : near (fun h => f h = g h) -> ctends f l -> ctends g l.
Proof. intros E [A B]; split; (eapply tends_ext; [|eassumption]); revert E; apply near_mono; intros h _ ->; auto. Qed.
Lemma ctends_add f g l m : ctends f l -> ctends g m -> ctends (fun h => cadd (f h) (g h)) (cadd l m).
Proof. intros [A B] [A' B']. split; cbn [SimAlg.cadd fst snd]; apply tends_add; auto. Qed.
Lemma ctends_sub f g l m : ctends f l -> ctends g m -> ctends (fun h => csub (f h) (g h)) (csub l m).
Proof. intros [A B] [A' B']. split; cbn [SimAlg.csub fst snd]; apply tends_sub; auto. Qed.
Lemma ctends_mul f g l m : ctends f l -> ctends g m -> ctends (fun h => cmul (f h) (g h)) (cmul l m).
Proof.
  intros [A B] [A' B']. split; cbn [SimAlg.cmul fst snd]; [apply tends_sub|apply tends_add]; apply tends_mul; auto.
Qed.
Lemma ctends_sum A (f : A -> R -> C) (l : A -> C) xs : (forall x, In x xs -> ctends (f x) (l x)) ->
  ctends (fun h => csum (fun x => f x h) xs) (csum l xs).
Proof.
  induction xs as [|x xs IH]; intros H; [exact (ctends_const 0c)|].
  rewrite lsum_cons. apply ctends_ext with (fun h => cadd (f x h) (csum (fun x => f x h) xs)); [apply near_all; reflexivity|].
  apply ctends_add; [apply H; now left|]. apply IH. intros y Hy. apply H. now right.
Qed.

Lemma ctends_to f l m : l = m -> ctends f l -> ctends f m.
Proof. intros ->. auto. Qed.

(** *** Sizes. *)
Definition size (z : C) : R := (Rabs (fst z) + Rabs (snd z))%R.
Notation rsum := (lsum 0%R Rplus).
Lemma size_pos z : (0 <= size z)%R.
Proof. unfold size. pose proof (Rabs_pos (fst z)). pose proof (Rabs_pos (snd z)). lra. Qed.
Lemma size_add x y : (size (cadd x y) <= size x + size y)%R.
Proof. unfold size; cbn [SimAlg.cadd fst snd]. pose proof (Rabs_triang (fst x) (fst y)). pose proof (Rabs_triang (snd x) (snd y)). lra. Qed.
Lemma size_mul x y : (size (cmul x y) <= size x * size y)%R.
Proof.
  unfold size; cbn [SimAlg.cmul fst snd].
  pose proof (Rabs_triang (fst x * fst y) (- (snd x * snd y))). pose proof (Rabs_triang (fst x * snd y) (snd x * fst y)).
  rewrite Rabs_Ropp in H. rewrite !Rabs_mult in *. unfold Rminus. lra.
Qed.
Lemma size_0 : size 0c = 0%R.
Proof. unfold size; cbn. rewrite Rabs_R0. lra. Qed.
Lemma size_zero z : (size z <= 0)%R -> z = 0c.
Proof.
  unfold size. pose proof (Rabs_pos (fst z)). pose proof (Rabs_pos (snd z)). intros L.
  destruct z as [x y]; cbn [fst snd] in *. unfold c0. f_equal.
  - destruct (Req_dec x 0) as [|N]; auto. apply Rabs_pos_lt in N. lra.
  - destruct (Req_dec y 0) as [|N]; auto. apply Rabs_pos_lt in N. lra.
Qed.
Lemma size_sum A (f : A -> C) l : (size (csum f l) <= rsum (fun x => size (f x)) l)%R.
Proof.
  induction l as [|x l IH]; [unfold lsum; cbn; rewrite size_0; lra|].
  rewrite !lsum_cons. pose proof (size_add (f x) (csum f l)). lra.
Qed.
Lemma rsum_le A (f g : A -> R) l : (forall x, In x l -> f x <= g x)%R -> (rsum f l <= rsum g l)%R.
Proof.
  induction l as [|x l IH]; intros H; [unfold lsum; cbn; lra|]. rewrite !lsum_cons.
  pose proof (H x (or_introl eq_refl)). specialize (IH (fun y I => H y (or_intror I))). lra.
Qed.
Lemma rsum_pos A (f : A -> R) l : (forall x, 0 <= f x)%R -> (0 <= rsum f l)%R.
Proof. intros H. induction l as [|x l IH]; [unfold lsum; cbn; lra|]. rewrite lsum_cons. specialize (H x). lra. Qed.
Lemma rsum_in A (f : A -> R) l x : (forall x, 0 <= f x)%R -> In x l -> (f x <= rsum f l)%R.
Proof.
  intros H. induction l as [|y l IH]; [intros []|]. rewrite lsum_cons. intros [->|I].
  - pose proof (rsum_pos l H). lra.
  - specialize (IH I). pose proof (H y). lra.
Qed.
Lemma tends_abs f : tends f 0 -> tends (fun h => Rabs (f h)) 0%R.
Proof. intros F e He. generalize (F e He). apply near_mono. intros h _ A. rewrite Rminus_0_r in *. now rewrite Rabs_Rabsolu. Qed.
Lemma tends_size f : ctends f 0c -> tends (fun h => size (f h)) 0%R.
Proof. intros [A B]. replace 0%R with (0 + 0)%R by ring. apply tends_add; apply tends_abs; assumption. Qed.
Lemma tends_rsum A (f : A -> R -> R) xs : (forall x, In x xs -> tends (f x) 0%R) -> tends (fun h => rsum (fun x => f x h) xs) 0%R.
Proof.
  induction xs as [|x xs IH]; intros H; [exact (tends_const 0%R)|].
  apply tends_ext with (fun h => f x h + rsum (fun x => f x h) xs)%R; [apply near_all; reflexivity|].
  rewrite <- (Rplus_0_r 0). apply tends_add; rewrite ?Rplus_0_r; [apply H; now left|]. apply IH. intros y Hy. apply H. now right.
Qed.

Definition msize (n : nat) (G : nat -> nat -> C) : R := rsum (fun i => rsum (fun k => size (G i k)) (seq 0 n)) (seq 0 n).
Definition vsize (n : nat) (v : nat -> C) : R := rsum (fun i => size (v i)) (seq 0 n).

Lemma vsize_mul n G v : (vsize n (fun i => csum (fun k => cmul (G i k) (v k)) (seq 0 n)) <= msize n G * vsize n v)%R.
Proof.
  unfold msize. rewrite <- (lsum_mul_r RTheory). apply rsum_le. intros i _.
  eapply Rle_trans; [apply size_sum|]. rewrite <- (lsum_mul_r RTheory). apply rsum_le. intros k Ik.
  eapply Rle_trans; [apply size_mul|]. apply Rmult_le_compat_l; [apply size_pos|].
  apply (@rsum_in _ (fun i => size (v i))); auto using size_pos.
Qed.
Lemma vsize_add n u v : (vsize n (fun i => cadd (u i) (v i)) <= vsize n u + vsize n v)%R.
Proof. unfold vsize. rewrite <- (lsum_add RTheory). apply rsum_le. intros; apply size_add. Qed.
Lemma vsize_ext n u v : (forall i, i < n -> u i = v i) -> vsize n u = vsize n v.
Proof. intros H. apply lsum_ext. intros i Ii. apply in_seq in Ii. rewrite H by lia. reflexivity. Qed.

(** *** Derivatives at increment 0. *)
Definition deriv (f : R -> C) (l : C) : Prop := ctends (fun h => cmul (/ h, 0)%R (csub (f h) (f 0%R))) l.

Lemma deriv_const c : deriv (fun _ => c) 0c.
Proof. apply ctends_ext with (fun _ => 0c); [apply near_all; intros; ring|]. apply ctends_const. Qed.
Lemma deriv_add f g l m : deriv f l -> deriv g m -> deriv (fun h => cadd (f h) (g h)) (cadd l m).
Proof. intros F G. generalize (ctends_add F G). apply ctends_ext, near_all. intros; ring. Qed.
Lemma tends_h : tends (fun h => h) 0%R.
Proof. intros e He. exists e. split; auto. intros h _. now rewrite Rminus_0_r. Qed.
Lemma deriv_cont f l : deriv f l -> ctends f (f 0%R).
Proof.
  intros F.
  assert (H : ctends (fun h => (h, 0)%R) 0c) by (split; cbn; [apply tends_h|apply tends_const]).
  generalize (ctends_add (ctends_mul H F) (ctends_const (f 0%R))).
  replace (cadd (cmul 0c l) (f 0%R)) with (f 0%R) by ring. apply ctends_ext, near_all. intros h Nh.
  replace (cmul (h, 0)%R (cmul (/ h, 0)%R (csub (f h) (f 0%R)))) with (csub (f h) (f 0%R)); [ring|].
  destruct (csub (f h) (f 0%R)) as [x y]. unfold SimAlg.cmul; cbn [fst snd]. f_equal; field; exact Nh.
Qed.
Lemma deriv_mul f g l m : deriv f l -> deriv g m -> deriv (fun h => cmul (f h) (g h)) (cadd (cmul l (g 0%R)) (cmul (f 0%R) m)).
Proof.
  intros F G. generalize (ctends_add (ctends_mul F (deriv_cont G)) (ctends_mul (ctends_const (f 0%R)) G)).
  apply ctends_ext, near_all. intros; ring.
Qed.
Lemma deriv_sum A (f : A -> R -> C) (l : A -> C) xs : (forall x, In x xs -> deriv (f x) (l x)) ->
  deriv (fun h => csum (fun x => f x h) xs) (csum l xs).
Proof.
  induction xs as [|x xs IH]; intros H; [exact (deriv_const 0c)|].
  rewrite lsum_cons. apply (@deriv_add (f x) (fun h => csum (fun x => f x h) xs)); [apply H; now left|].
  apply IH. intros y Hy. apply H. now right.
Qed.

(** *** Solutions of a perturbed system. *)
Section System.
Variable n : nat.
Variable M : R -> nat -> nat -> C.
Hypothesis inj : forall v, (forall i, i < n -> v i = csum (fun k => cmul (M 0%R i k) (v k)) (seq 0 n)) -> forall i, i < n -> v i = 0c.

Lemma right_inverse : exists X : nat -> nat -> C, forall i j, i < n -> j < n ->
  csum (fun k => cmul (csub (if i =? k then 1c else 0c) (M 0%R i k)) (X k j)) (seq 0 n) = if i =? j then 1c else 0c.
Proof.
  apply inverse. intros v Hv. apply inj. intros i Li. specialize (Hv i Li). cbv beta in Hv.
  rewrite (@lsum_ext _ 0c cadd _ _ (fun k => csub (cmul (if i =? k then 1c else 0c) (v k)) (cmul (M 0%R i k) (v k)))) in Hv by (intros; ring).
  rewrite (lsum_sub CRr), csum_if in Hv by auto.
  transitivity (cadd (csub (v i) (csum (fun k => cmul (M 0%R i k) (v k)) (seq 0 n))) (csum (fun k => cmul (M 0%R i k) (v k)) (seq 0 n))); [ring|].
  rewrite Hv. ring.
Qed.

(** A vector with [v = M0 v + q] is [X q]. *)
Lemma apply_inverse X v q :
  (forall i j, i < n -> j < n ->
    csum (fun k => cmul (csub (if i =? k then 1c else 0c) (M 0%R i k)) (X k j)) (seq 0 n) = if i =? j then 1c else 0c) ->
  (forall i, i < n -> v i = cadd (csum (fun k => cmul (M 0%R i k) (v k)) (seq 0 n)) (q i)) ->
  forall i, i < n -> v i = csum (fun k => cmul (X i k) (q k)) (seq 0 n).
Proof.
  intros HX Hv.
  enough (G : forall i, i < n -> csub (v i) (csum (fun k => cmul (X i k) (q k)) (seq 0 n)) = 0c).
  { intros i Li. specialize (G i Li).
    transitivity (cadd (csub (v i) (csum (fun k => cmul (X i k) (q k)) (seq 0 n))) (csum (fun k => cmul (X i k) (q k)) (seq 0 n))); [ring|].
    rewrite G. ring. }
  apply inj. intros i Li.
  rewrite (@lsum_ext _ 0c cadd _ (fun k => cmul (M 0%R i k) (csub (v k) (csum (fun j => cmul (X k j) (q j)) (seq 0 n))))
    (fun k => csub (cmul (M 0%R i k) (v k)) (csum (fun j => cmul (cmul (M 0%R i k) (X k j)) (q j)) (seq 0 n)))).
  2:{ intros k _. rewrite (@lsum_ext _ 0c cadd _ (fun j => cmul (cmul (M 0%R i k) (X k j)) (q j)) (fun j => cmul (M 0%R i k) (cmul (X k j) (q j)))) by (intros; ring).
      rewrite (lsum_mul CRr). ring. }
  rewrite (lsum_sub CRr), (lsum_swap CRr).
  rewrite (@lsum_ext _ 0c cadd _ (fun j => csum (fun k => cmul (cmul (M 0%R i k) (X k j)) (q j)) (seq 0 n))
             (fun j => csub (cmul (X i j) (q j)) (cmul (if i =? j then 1c else 0c) (q j)))).
  2:{ intros j Ij. apply in_seq in Ij. rewrite (lsum_mul_r CRr).
      rewrite <- (HX i j Li ltac:(lia)).
      rewrite (@lsum_ext _ 0c cadd _ (fun k => cmul (csub (if i =? k then 1c else 0c) (M 0%R i k)) (X k j))
         (fun k => csub (cmul (if i =? k then 1c else 0c) (X k j)) (cmul (M 0%R i k) (X k j)))) by (intros; ring).
      rewrite (lsum_sub CRr), (@csum_if n i (fun k => X k j)) by auto. ring. }
  rewrite (lsum_sub CRr), csum_if by auto. rewrite (Hv i Li) at 1. ring.
Qed.

Section Cont.
Hypothesis cont : forall i k, i < n -> k < n -> ctends (fun h => M h i k) (M 0%R i k).

Lemma small X : near (fun h => msize n (fun i k => csum (fun j => cmul (X i j) (csub (M h j k) (M 0%R j k))) (seq 0 n)) < / 2)%R.
Proof.
  assert (T : tends (fun h => msize n (fun i k => csum (fun j => cmul (X i j) (csub (M h j k) (M 0%R j k))) (seq 0 n))) 0%R).
  { unfold msize. apply (@tends_rsum _ (fun i h => rsum (fun k => size (csum (fun j => cmul (X i j) (csub (M h j k) (M 0%R j k))) (seq 0 n))) (seq 0 n))).
    intros i Ii. apply (@tends_rsum _ (fun k h => size (csum (fun j => cmul (X i j) (csub (M h j k) (M 0%R j k))) (seq 0 n)))).
    intros k Ik. apply in_seq in Ii, Ik. apply tends_size.
    apply (@ctends_to _ (csum (fun j => cmul (X i j) (csub (M 0%R j k) (M 0%R j k))) (seq 0 n))).
    { apply (lsum_0 CRr). intros; ring. }
    apply (@ctends_sum _ (fun j h => cmul (X i j) (csub (M h j k) (M 0%R j k)))). intros j Ij. apply in_seq in Ij.
    apply ctends_mul; [apply ctends_const|]. apply ctends_sub; [apply cont; lia|apply ctends_const]. }
  generalize (T (/2)%R ltac:(lra)). apply near_mono. intros h _ A. rewrite Rminus_0_r in A.
  pose proof (Rle_abs (msize n (fun i k => csum (fun j => cmul (X i j) (csub (M h j k) (M 0%R j k))) (seq 0 n)))). lra.
Qed.

(** The difference to the solution at increment 0. *)
Lemma perturbed X h x0 r0 x r :
  (forall i j, i < n -> j < n ->
    csum (fun k => cmul (csub (if i =? k then 1c else 0c) (M 0%R i k)) (X k j)) (seq 0 n) = if i =? j then 1c else 0c) ->
  (forall i, i < n -> x0 i = cadd (csum (fun k => cmul (M 0%R i k) (x0 k)) (seq 0 n)) (r0 i)) ->
  (forall i, i < n -> x i = cadd (csum (fun k => cmul (M h i k) (x k)) (seq 0 n)) (r i)) ->
  forall i, i < n -> csub (x i) (x0 i) =
    cadd (csum (fun k => cmul (csum (fun j => cmul (X i j) (csub (M h j k) (M 0%R j k))) (seq 0 n)) (x k)) (seq 0 n))
         (csum (fun j => cmul (X i j) (csub (r j) (r0 j))) (seq 0 n)).
Proof.
  intros HX H0 H i Li.
  pose (q := fun j => cadd (csum (fun k => cmul (csub (M h j k) (M 0%R j k)) (x k)) (seq 0 n)) (csub (r j) (r0 j))).
  rewrite (@apply_inverse X (fun i => csub (x i) (x0 i)) q HX) by
   (auto; intros j Lj; unfold q; rewrite (H j Lj) at 1; rewrite (H0 j Lj) at 1;
    rewrite (@lsum_ext _ 0c cadd _ (fun k => cmul (M 0%R j k) (csub (x k) (x0 k))) (fun k => csub (cmul (M 0%R j k) (x k)) (cmul (M 0%R j k) (x0 k)))) by (intros; ring);
    rewrite (@lsum_ext _ 0c cadd _ (fun k => cmul (csub (M h j k) (M 0%R j k)) (x k)) (fun k => csub (cmul (M h j k) (x k)) (cmul (M 0%R j k) (x k)))) by (intros; ring);
    rewrite !(lsum_sub CRr); ring).
  unfold q.
  rewrite (@lsum_ext _ 0c cadd _ _ (fun k => cadd (csum (fun l => cmul (cmul (X i k) (csub (M h k l) (M 0%R k l))) (x l)) (seq 0 n)) (cmul (X i k) (csub (r k) (r0 k))))).
  2:{ intros k _. rewrite (@lsum_ext _ 0c cadd _ (fun l => cmul (cmul (X i k) (csub (M h k l) (M 0%R k l))) (x l)) (fun l => cmul (X i k) (cmul (csub (M h k l) (M 0%R k l)) (x l)))) by (intros; ring).
      rewrite (lsum_mul CRr). ring. }
  rewrite (lsum_add CRr). f_equal. rewrite (lsum_swap CRr). apply lsum_ext. intros l _. now rewrite (lsum_mul_r CRr).
Qed.

(** Close to the parameter, the system stays regular. *)
Theorem inj_near : near (fun h => forall v, (forall i, i < n -> v i = csum (fun k => cmul (M h i k) (v k)) (seq 0 n)) -> forall i, i < n -> v i = 0c).
Proof.
  destruct right_inverse as (X & HX). generalize (small X). apply near_mono. intros h _ Sm v Hv.
  set (G := fun i k => csum (fun j => cmul (X i j) (csub (M h j k) (M 0%R j k))) (seq 0 n)) in *.
  assert (E : forall i, i < n -> v i = csum (fun k => cmul (G i k) (v k)) (seq 0 n)).
  { intros i Li.
    transitivity (csub (v i) 0c); [ring|].
    rewrite (@perturbed X h (fun _ => 0c) (fun _ => 0c) v (fun _ => 0c) HX); auto.
    - fold (G i). rewrite (@lsum_0 _ 0c 1c cadd cmul csub copp CRr _ (fun j => cmul (X i j) (csub 0c 0c))) by (intros; ring). unfold G. ring.
    - intros j _. rewrite (lsum_0 CRr); [ring|]. intros; ring.
    - intros j Lj. rewrite (Hv j Lj) at 1. ring. }
  assert (N : (vsize n v <= 0)%R).
  { pose proof (vsize_mul n G v) as L. rewrite <- (vsize_ext E) in L.
    assert (0 <= vsize n v)%R by (apply rsum_pos; intros; apply size_pos).
    assert (msize n G * vsize n v <= / 2 * vsize n v)%R by (apply Rmult_le_compat_r; lra). lra. }
  intros i Li. apply size_zero. eapply Rle_trans; [|exact N].
  apply (@rsum_in _ (fun i => size (v i))); [intros; apply size_pos|apply in_seq; lia].
Qed.
End Cont.

(** The solution is differentiable and its derivative solves the linearised system. *)
Theorem deriv_system (M' : nat -> nat -> C) (r x : R -> nat -> C) (r' : nat -> C) :
  (forall i k, i < n -> k < n -> deriv (fun h => M h i k) (M' i k)) ->
  (forall i, i < n -> deriv (fun h => r h i) (r' i)) ->
  near (fun h => forall i, i < n -> x h i = cadd (csum (fun k => cmul (M h i k) (x h k)) (seq 0 n)) (r h i)) ->
  (forall i, i < n -> x 0%R i = cadd (csum (fun k => cmul (M 0%R i k) (x 0%R k)) (seq 0 n)) (r 0%R i)) ->
  exists x' : nat -> C,
    (forall i, i < n -> x' i = cadd (csum (fun k => cadd (cmul (M 0%R i k) (x' k)) (cmul (M' i k) (x 0%R k))) (seq 0 n)) (r' i)) /\
    forall i, i < n -> deriv (fun h => x h i) (x' i).
Proof.
  intros HM Hr Hx H0. destruct right_inverse as (X & HX).
  assert (Sm := small (fun i k Li Lk => deriv_cont (HM i k Li Lk)) X).
  pose (G := fun h i k => csum (fun j => cmul (X i j) (csub (M h j k) (M 0%R j k))) (seq 0 n)).
  pose (g := fun h i => csum (fun j => cmul (X i j) (csub (r h j) (r 0%R j))) (seq 0 n)).
  assert (E : near (fun h => forall i, i < n -> csub (x h i) (x 0%R i) = cadd (csum (fun k => cmul (G h i k) (x h k)) (seq 0 n)) (g h i))).
  { revert Hx. apply near_mono. intros h _ Hx i Li. unfold G, g. apply perturbed; auto. }
  assert (HG : forall i k, i < n -> k < n -> deriv (fun h => G h i k) (csum (fun j => cmul (X i j) (M' j k)) (seq 0 n))).
  { intros i k Li Lk. apply (@deriv_sum _ (fun j h => cmul (X i j) (csub (M h j k) (M 0%R j k)))). intros j Ij. apply in_seq in Ij.
    generalize (ctends_mul (ctends_const (X i j)) (HM j k ltac:(lia) Lk)). apply ctends_ext, near_all. intros; ring. }
  assert (Hg : forall i, i < n -> deriv (fun h => g h i) (csum (fun j => cmul (X i j) (r' j)) (seq 0 n))).
  { intros i Li. apply (@deriv_sum _ (fun j h => cmul (X i j) (csub (r h j) (r 0%R j)))). intros j Ij. apply in_seq in Ij.
    generalize (ctends_mul (ctends_const (X i j)) (Hr j ltac:(lia))). apply ctends_ext, near_all. intros; ring. }
  assert (G0 : forall i k, G 0%R i k = 0c) by (intros; apply (lsum_0 CRr); intros; ring).
  assert (g0 : forall i, g 0%R i = 0c) by (intros; apply (lsum_0 CRr); intros; ring).
  (* the solutions are bounded *)
  assert (Tg : tends (fun h => vsize n (g h)) 0%R).
  { apply (@tends_rsum _ (fun i h => size (g h i))). intros i Ii. apply in_seq in Ii. apply tends_size.
    rewrite <- (g0 i). eapply deriv_cont, Hg. lia. }
  assert (Bd : near (fun h => vsize n (x h) <= 2 * vsize n (x 0%R) + 2)%R).
  { generalize (near_and (near_and Sm E) (Tg 1%R ltac:(lra))). apply near_mono. intros h _ [[S1 E1] T1].
    change (msize n (G h) < / 2)%R in S1. rewrite Rminus_0_r in T1.
    assert (E2 : forall i, i < n -> x h i = cadd (x 0%R i) (cadd (csum (fun k => cmul (G h i k) (x h k)) (seq 0 n)) (g h i))).
    { intros i Li. rewrite <- (E1 i Li). ring. }
    pose proof (vsize_add n (x 0%R) (fun i => cadd (csum (fun k => cmul (G h i k) (x h k)) (seq 0 n)) (g h i))) as L1.
    cbv beta in L1. rewrite <- (vsize_ext E2) in L1.
    pose proof (vsize_add n (fun i => csum (fun k => cmul (G h i k) (x h k)) (seq 0 n)) (g h)) as L2.
    pose proof (vsize_mul n (G h) (x h)) as L3.
    assert (P : (0 <= vsize n (x h))%R) by (apply rsum_pos; intros; apply size_pos).
    assert (L4 : (msize n (G h) * vsize n (x h) <= / 2 * vsize n (x h))%R) by (apply Rmult_le_compat_r; lra).
    pose proof (Rle_abs (vsize n (g h))). lra. }
  (* hence they are continuous *)
  assert (Cx : forall i, i < n -> ctends (fun h => x h i) (x 0%R i)).
  { intros i Li.
    assert (T : ctends (fun h => cadd (csum (fun k => cmul (G h i k) (x h k)) (seq 0 n)) (g h i)) (cadd (csum (fun k => 0c) (seq 0 n)) 0c)).
    { apply ctends_add; [|rewrite <- (g0 i); eapply deriv_cont, Hg; auto].
      apply (@ctends_sum _ (fun k h => cmul (G h i k) (x h k))). intros k Ik. apply in_seq in Ik.
      assert (TG : ctends (fun h => G h i k) 0c) by (rewrite <- (G0 i k); eapply deriv_cont, HG; lia).
      assert (B1 : near (fun h => size (x h k) <= 2 * vsize n (x 0%R) + 2)%R).
      { revert Bd. apply near_mono. intros h _ B. eapply Rle_trans; [|exact B].
        apply (@rsum_in _ (fun i => size (x h i))); [intros; apply size_pos|apply in_seq; lia]. }
      assert (Bf : near (fun h => Rabs (fst (x h k)) <= 2 * vsize n (x 0%R) + 2)%R).
      { revert B1. apply near_mono. unfold size. intros h _ B. pose proof (Rabs_pos (snd (x h k))). lra. }
      assert (Bs : near (fun h => Rabs (snd (x h k)) <= 2 * vsize n (x 0%R) + 2)%R).
      { revert B1. apply near_mono. unfold size. intros h _ B. pose proof (Rabs_pos (fst (x h k))). lra. }
      destruct TG as [Tf Ts]. split; cbn [SimAlg.cmul SimAlg.c0 fst snd].
      - replace 0%R with (0 - 0)%R by ring. apply tends_sub;
        [generalize (tends_bounded Bf Tf)|generalize (tends_bounded Bs Ts)]; apply tends_ext, near_all; intros; ring.
      - replace 0%R with (0 + 0)%R by ring. apply tends_add;
        [generalize (tends_bounded Bs Tf)|generalize (tends_bounded Bf Ts)]; apply tends_ext, near_all; intros; ring. }
    rewrite (lsum_0 CRr) in T by reflexivity.
    generalize (ctends_add T (ctends_const (x 0%R i))). replace (cadd (cadd 0c 0c) (x 0%R i)) with (x 0%R i) by ring.
    apply ctends_ext. revert E. apply near_mono. intros h _ E. rewrite <- (E i Li). ring. }
  (* and differentiable *)
  pose (x' := fun i => cadd (csum (fun k => cmul (csum (fun j => cmul (X i j) (M' j k)) (seq 0 n)) (x 0%R k)) (seq 0 n)) (csum (fun j => cmul (X i j) (r' j)) (seq 0 n))).
  exists x'. split.
  - pose (q := fun j => cadd (csum (fun k => cmul (M' j k) (x 0%R k)) (seq 0 n)) (r' j)).
    assert (Eq : forall i, x' i = csum (fun k => cmul (X i k) (q k)) (seq 0 n)).
    { intros i. unfold x', q.
      rewrite (@lsum_ext _ 0c cadd _ (fun k => cmul (X i k) (cadd (csum (fun l => cmul (M' k l) (x 0%R l)) (seq 0 n)) (r' k)))
        (fun k => cadd (csum (fun l => cmul (cmul (X i k) (M' k l)) (x 0%R l)) (seq 0 n)) (cmul (X i k) (r' k)))).
      2:{ intros k _. rewrite (@lsum_ext _ 0c cadd _ (fun l => cmul (cmul (X i k) (M' k l)) (x 0%R l)) (fun l => cmul (X i k) (cmul (M' k l) (x 0%R l)))) by (intros; ring).
          rewrite (lsum_mul CRr). ring. }
      rewrite (lsum_add CRr). f_equal. rewrite (lsum_swap CRr). apply lsum_ext. intros l _. now rewrite (lsum_mul_r CRr). }
    intros i Li. rewrite (lsum_add CRr).
    transitivity (cadd (csum (fun k => cmul (M 0%R i k) (x' k)) (seq 0 n)) (q i)); [|unfold q; ring].
    transitivity (cadd (csum (fun k => cmul (M 0%R i k) (x' k)) (seq 0 n)) (csum (fun j => cmul (if i =? j then 1c else 0c) (q j)) (seq 0 n))); [|rewrite csum_if; auto].
    rewrite (@lsum_ext _ 0c cadd _ (fun j => cmul (if i =? j then 1c else 0c) (q j))
       (fun j => csub (cmul (X i j) (q j)) (csum (fun k => cmul (cmul (M 0%R i k) (X k j)) (q j)) (seq 0 n)))).
    2:{ intros j Ij. apply in_seq in Ij. rewrite <- (HX i j Li ltac:(lia)), (lsum_mul_r CRr).
        rewrite (@lsum_ext _ 0c cadd _ (fun k => cmul (csub (if i =? k then 1c else 0c) (M 0%R i k)) (X k j))
         (fun k => csub (cmul (if i =? k then 1c else 0c) (X k j)) (cmul (M 0%R i k) (X k j)))) by (intros; ring).
        rewrite (lsum_sub CRr), (@csum_if n i (fun k => X k j)) by auto. ring. }
    rewrite (lsum_sub CRr), <- Eq, (lsum_swap CRr).
    rewrite (@lsum_ext _ 0c cadd _ (fun k => cmul (M 0%R i k) (x' k)) (fun k => csum (fun j => cmul (cmul (M 0%R i k) (X k j)) (q j)) (seq 0 n))); [ring|].
    intros k _. rewrite Eq, <- (lsum_mul CRr). apply lsum_ext. intros; ring.
  - intros i Li. unfold deriv, x'.
    assert (T : ctends (fun h => cadd (csum (fun k => cmul (cmul (/ h, 0)%R (csub (G h i k) (G 0%R i k))) (x h k)) (seq 0 n))
                                       (cmul (/ h, 0)%R (csub (g h i) (g 0%R i))))
       (cadd (csum (fun k => cmul (csum (fun j => cmul (X i j) (M' j k)) (seq 0 n)) (x 0%R k)) (seq 0 n)) (csum (fun j => cmul (X i j) (r' j)) (seq 0 n)))).
    { apply ctends_add; [|apply Hg; auto].
      apply (@ctends_sum _ (fun k h => cmul (cmul (/ h, 0)%R (csub (G h i k) (G 0%R i k))) (x h k))). intros k Ik. apply in_seq in Ik.
      apply ctends_mul; [apply HG; lia|apply Cx; lia]. }
    revert T. apply ctends_ext. revert E. apply near_mono. intros h _ E. rewrite (E i Li), g0.
    rewrite (@lsum_ext _ 0c cadd _ _ (fun k => cmul (/ h, 0)%R (cmul (G h i k) (x h k)))) by (intros; rewrite G0; ring).
    rewrite (lsum_mul CRr). ring.
Qed.
End System.
