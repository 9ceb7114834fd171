(** Derivatives of the detected fields with respect to a parameter of the scattering matrix. *)
From Coq Require Import Reals Lra Ring QArith.
From Verif Require Import Base NetModel NetSpec SimModel SimAlg SimSpec SimNodes SimProofs SimDelay SimRegular Gauss Family Deriv.
Set Implicit Arguments.
Unset Strict Implicit.
Local Open Scope list_scope.
Local Open Scope nat_scope.

(** A circuit with a real parameter: its scattering matrix is a function of it. *)
Notation fam := (buf (R -> nat -> C) Q).
Definition at_par (b : fam) (th : R) : net R := fmap (fun s => s th) b.

Notation waves := (waves 0%R Rplus Rmult Rminus).
Notation no_resonance := (no_resonance 0%R Rplus Rmult Rminus).
Notation past := (past 0%R).

(** Real derivatives of both parts. *)
Definition dlim (f : R -> C) (x : R) (l : C) : Prop :=
  derivable_pt_lim (fun th => fst (f th)) x (fst l) /\ derivable_pt_lim (fun th => snd (f th)) x (snd l).

(** The wave equations, linearised: [D] is the derivative of the scattering matrix, [a] the fields. *)
Definition linear_waves (e : env) (b : net R) (w T : nat) (D : nat -> nat -> C) (a da dout : nat -> nat -> C) : Prop :=
  forall t i, t < T -> i < b_np b ->
    da t i = csum (fun j => if b_C b i j then dout t j else 0c) (seq 0 (b_np b)) /\
    dout t i = csum (fun j => cadd (cmul (b_S b i j w) (past da (lag e b j) t j)) (cmul (D i j) (past a (lag e b j) t j))) (seq 0 (b_np b)).

Lemma dlim_deriv f x l : dlim f x l <-> deriv (fun h => f (x + h)%R) l.
Proof.
  unfold dlim, deriv, ctends, tends, derivable_pt_lim. rewrite Rplus_0_r. cbn [SimAlg.cmul SimAlg.csub fst snd].
  split; intros [A B]; split; intros eps He; [destruct (A eps He) as (d & H)|destruct (B eps He) as (d & H)|destruct (A eps He) as (d & Hd & H)|destruct (B eps He) as (d & Hd & H)].
  - exists d. split; [apply cond_pos|]. intros h Nh Lh. specialize (H h Nh Lh).
    replace (/ h * (fst (f (x + h)%R) - fst (f x)) - 0 * (snd (f (x + h)%R) - snd (f x)) - fst l)%R with ((fst (f (x + h)%R) - fst (f x)) / h - fst l)%R; [exact H|field; exact Nh].
  - exists d. split; [apply cond_pos|]. intros h Nh Lh. specialize (H h Nh Lh).
    replace (/ h * (snd (f (x + h)%R) - snd (f x)) + 0 * (fst (f (x + h)%R) - fst (f x)) - snd l)%R with ((snd (f (x + h)%R) - snd (f x)) / h - snd l)%R; [exact H|field; exact Nh].
  - exists (mkposreal d Hd). intros h Nh Lh. specialize (H h Nh Lh).
    replace ((fst (f (x + h)%R) - fst (f x)) / h - fst l)%R with (/ h * (fst (f (x + h)%R) - fst (f x)) - 0 * (snd (f (x + h)%R) - snd (f x)) - fst l)%R; [exact H|field; exact Nh].
  - exists (mkposreal d Hd). intros h Nh Lh. specialize (H h Nh Lh).
    replace ((snd (f (x + h)%R) - snd (f x)) / h - snd l)%R with (/ h * (snd (f (x + h)%R) - snd (f x)) + 0 * (fst (f (x + h)%R) - fst (f x)) - snd l)%R; [exact H|field; exact Nh].
Qed.

Section Net.
Variables (e : env) (b : fam) (w : nat).
Notation bh := (at_par b).
Notation n := (b_np b).
Notation lg := (lag e (at_par b 0%R)).
Notation bS h i j := (b_S b i j h w).

(** The instantaneous part. *)
Definition inst (h : R) (i j : nat) : C :=
  csum (fun k => cmul (if lg k =? 0 then bS h i k else 0c) (if b_C b k j then 1c else 0c)) (seq 0 n).
Definition rest (h : R) (src : nat -> C) (p : nat -> C) (i : nat) : C :=
  cadd (src i) (csum (fun k => if lg k =? 0 then 0c else cmul (bS h i k) (p k)) (seq 0 n)).

Lemma split_step h (a o p : nat -> C) i :
  (forall k, k < n -> lg k = 0 -> p k = csum (fun j => if b_C b k j then o j else 0c) (seq 0 n)) ->
  csum (fun k => cmul (bS h i k) (p k)) (seq 0 n) =
  cadd (csum (fun j => cmul (inst h i j) (o j)) (seq 0 n)) (csum (fun k => if lg k =? 0 then 0c else cmul (bS h i k) (p k)) (seq 0 n)).
Proof.
  intros H. unfold inst.
  rewrite (@lsum_ext _ 0c cadd _ (fun j => cmul (csum _ _) (o j))
     (fun j => csum (fun k => cmul (if lg k =? 0 then bS h i k else 0c) (if b_C b k j then o j else 0c)) (seq 0 n))).
  2:{ intros j _. rewrite <- (lsum_mul_r CRr). apply lsum_ext. intros k _. destruct (b_C b k j); ring. }
  rewrite (lsum_swap CRr), <- (lsum_add CRr). apply lsum_ext. intros k Ik. apply in_seq in Ik.
  rewrite (lsum_mul CRr). destruct (Nat.eqb_spec (lg k) 0) as [E|N].
  - rewrite (H k) by (auto; lia). ring.
  - ring.
Qed.

Lemma inst_inj h : no_resonance e (bh h) w ->
  forall v, (forall i, i < n -> v i = csum (fun k => cmul (inst h i k) (v k)) (seq 0 n)) -> forall i, i < n -> v i = 0c.
Proof.
  intros NR v Hv.
  pose (x := fun k => csum (fun j => if b_C b k j then v j else 0c) (seq 0 n)).
  assert (Hv' : forall i, i < n -> v i = csum (fun k => if lg k =? 0 then cmul (bS h i k) (x k) else 0c) (seq 0 n)).
  { intros i Li. rewrite (Hv i Li). unfold inst.
    rewrite (@lsum_ext _ 0c cadd _ (fun j => cmul (csum _ _) (v j))
     (fun j => csum (fun k => cmul (if lg k =? 0 then bS h i k else 0c) (if b_C b k j then v j else 0c)) (seq 0 n))).
    2:{ intros j _. rewrite <- (lsum_mul_r CRr). apply lsum_ext. intros k _. destruct (b_C b k j); ring. }
    rewrite (lsum_swap CRr). apply lsum_ext. intros k _. rewrite (lsum_mul CRr). fold (x k). destruct (lg k =? 0); ring. }
  assert (Z : forall k, k < n -> lg k = 0 -> x k = 0c).
  { apply (NR x). intros i Li _. cbn [at_par fmap b_np b_C b_S]. unfold x at 1. apply lsum_ext. intros j Ij. apply in_seq in Ij.
    destruct (b_C b i j); [|reflexivity]. apply Hv'. cbn in *. lia. }
  intros i Li. rewrite (Hv' i Li). apply (lsum_0 CRr). intros k Ik. apply in_seq in Ik.
  destruct (Nat.eqb_spec (lg k) 0) as [E|N]; [|reflexivity]. rewrite Z by (auto; lia). ring.
Qed.

Lemma inj_inst h :
  (forall v, (forall i, i < n -> v i = csum (fun k => cmul (inst h i k) (v k)) (seq 0 n)) -> forall i, i < n -> v i = 0c) ->
  no_resonance e (bh h) w.
Proof.
  intros H x Hx. cbn [at_par fmap b_np b_C b_S] in *.
  pose (v := fun j => csum (fun k => if lg k =? 0 then cmul (bS h j k) (x k) else 0c) (seq 0 n)).
  assert (Hx' : forall i, i < n -> lg i = 0 -> x i = csum (fun j => if b_C b i j then v j else 0c) (seq 0 n)) by (intros; apply Hx; auto).
  assert (Z : forall i, i < n -> v i = 0c).
  { apply H. intros i Li. unfold v at 1.
    pose proof (@split_step h x v (fun k => if lg k =? 0 then x k else 0c) i) as P.
    transitivity (csum (fun k => cmul (bS h i k) (if lg k =? 0 then x k else 0c)) (seq 0 n)).
    { apply lsum_ext. intros k _. destruct (lg k =? 0); ring. }
    rewrite P.
    - rewrite (@lsum_0 _ 0c 1c cadd cmul csub copp CRr _ (fun k => if lg k =? 0 then 0c else _)); [ring|].
      intros k _. destruct (lg k =? 0); ring.
    - intros k Lk E. rewrite E. cbn [Nat.eqb]. auto. }
  intros i Li E. rewrite (Hx' i Li E). apply (lsum_0 CRr). intros j Ij. apply in_seq in Ij. rewrite Z by lia. destruct (b_C b i j); reflexivity.
Qed.

Lemma inst_deriv (D : nat -> nat -> C) :
  (forall i j, i < n -> j < n -> deriv (fun h => bS h i j) (D i j)) ->
  forall i j, i < n -> j < n -> deriv (fun h => inst h i j)
    (csum (fun k => cmul (if lg k =? 0 then D i k else 0c) (if b_C b k j then 1c else 0c)) (seq 0 n)).
Proof.
  intros HD i j Li Lj. apply (@deriv_sum _ (fun k h => cmul (if lg k =? 0 then bS h i k else 0c) (if b_C b k j then 1c else 0c))).
  intros k Ik. apply in_seq in Ik.
  assert (H : deriv (fun h => if lg k =? 0 then bS h i k else 0c) (if lg k =? 0 then D i k else 0c)).
  { destruct (lg k =? 0); [apply HD; lia|apply deriv_const]. }
  generalize (deriv_mul H (deriv_const (if b_C b k j then 1c else 0c))). apply ctends_to. ring.
Qed.

Lemma inst_cont : (forall i j, i < n -> j < n -> ctends (fun h => bS h i j) (bS 0%R i j)) ->
  forall i j, i < n -> j < n -> ctends (fun h => inst h i j) (inst 0%R i j).
Proof.
  intros HD i j Li Lj. apply (@ctends_sum _ (fun k h => cmul (if lg k =? 0 then bS h i k else 0c) (if b_C b k j then 1c else 0c))).
  intros k Ik. apply in_seq in Ik. apply ctends_mul; [|apply ctends_const].
  destruct (lg k =? 0); [apply HD; lia|apply ctends_const].
Qed.

(** Regularity is kept close to the parameter. *)
Theorem regular_near : (forall i j, i < n -> j < n -> ctends (fun h => bS h i j) (bS 0%R i j)) ->
  no_resonance e (bh 0%R) w -> near (fun h => no_resonance e (bh h) w).
Proof.
  intros HC NR. generalize (inj_near (inst_inj NR) (inst_cont HC)). apply near_mono. intros h _. apply inj_inst.
Qed.

Lemma past_0 (a : nat -> nat -> C) t k : past a 0 t k = a t k.
Proof. unfold SimSpec.past. cbn [Nat.ltb Nat.leb]. rewrite Nat.sub_0_r. reflexivity. Qed.

(** What is injected may depend on the parameter as well: [src'] is its derivative. *)
Theorem waves_deriv_src (D : nat -> nat -> C) T (src : R -> nat -> nat -> C) (src' : nat -> nat -> C) (A O : R -> nat -> nat -> C) :
  (forall t i, t < T -> i < n -> deriv (fun h => src h t i) (src' t i)) ->
  (forall i j, i < n -> j < n -> deriv (fun h => bS h i j) (D i j)) ->
  no_resonance e (bh 0%R) w ->
  near (fun h => waves e (bh h) w T (src h) (A h) (O h)) ->
  waves e (bh 0%R) w T (src 0%R) (A 0%R) (O 0%R) ->
  exists da dout, (forall t i, t < T -> i < n ->
      da t i = csum (fun j => if b_C b i j then dout t j else 0c) (seq 0 n) /\
      dout t i = cadd (src' t i) (csum (fun j => cadd (cmul (bS 0%R i j) (past da (lg j) t j)) (cmul (D i j) (past (A 0%R) (lg j) t j))) (seq 0 n))) /\
    forall t i, t < T -> i < n -> deriv (fun h => A h t i) (da t i) /\ deriv (fun h => O h t i) (dout t i).
Proof.
  intros HSrc HD NR HW H0. induction T as [|T IH].
  { exists (fun _ _ => 0c), (fun _ _ => 0c). split; [intros t i L|intros t i L]; lia. }
  destruct IH as (da & dout & HL & Hd).
  { intros t i Lt. apply HSrc. lia. }
  { revert HW. apply near_mono. intros h _ HW t i Lt. apply HW. lia. }
  { intros t i Lt. apply H0. lia. }
  assert (HP : forall k, k < n -> lg k <> 0 -> deriv (fun h => past (A h) (lg k) T k) (past da (lg k) T k)).
  { intros k Lk N. unfold SimSpec.past. destruct (Nat.ltb_spec T (lg k)); [apply deriv_const|]. apply Hd; lia. }
  pose (r' := fun i => csum (fun k => if lg k =? 0 then 0c
    else cadd (cmul (D i k) (past (A 0%R) (lg k) T k)) (cmul (bS 0%R i k) (past da (lg k) T k))) (seq 0 n)).
  destruct (@deriv_system n inst (inst_inj NR)
      (fun i j => csum (fun k => cmul (if lg k =? 0 then D i k else 0c) (if b_C b k j then 1c else 0c)) (seq 0 n))
      (fun h i => rest h (src h T) (fun k => past (A h) (lg k) T k) i) (fun h => O h T) (fun i => cadd (src' T i) (r' i))) as (x' & Hx' & Dx').
  - apply inst_deriv, HD.
  - intros i Li. unfold rest, r'.
    assert (Hs : deriv (fun h => csum (fun k => if lg k =? 0 then 0c else cmul (bS h i k) (past (A h) (lg k) T k)) (seq 0 n)) (r' i)).
    { apply (@deriv_sum _ (fun k h => if lg k =? 0 then 0c else cmul (bS h i k) (past (A h) (lg k) T k))). intros k Ik. apply in_seq in Ik.
      destruct (Nat.eqb_spec (lg k) 0) as [E|N]; [apply deriv_const|].
      apply (deriv_mul (HD i k Li ltac:(lia)) (HP k ltac:(lia) N)). }
    apply (deriv_add (HSrc T i ltac:(lia) Li) Hs).
  - revert HW. apply near_mono. intros h _ HW i Li. destruct (HW T i ltac:(lia) Li) as [_ ->].
    cbn [at_par fmap b_np b_C b_S]. unfold rest.
    rewrite (@split_step h (A h T) (O h T) (fun k => past (A h) (lg k) T k)).
    + unfold lag. cbn [at_par fmap b_np b_C b_S b_src b_det b_act b_del]. ring.
    + intros k Lk E. rewrite E, past_0. apply (HW T k); auto.
  - intros i Li. destruct (H0 T i ltac:(lia) Li) as [_ ->].
    cbn [at_par fmap b_np b_C b_S]. unfold rest.
    rewrite (@split_step 0%R (A 0%R T) (O 0%R T) (fun k => past (A 0%R) (lg k) T k)).
    + unfold lag. cbn [at_par fmap b_np b_C b_S b_src b_det b_act b_del]. ring.
    + intros k Lk E. rewrite E, past_0. apply (H0 T k); auto.
  - pose (y' := fun i => csum (fun j => if b_C b i j then x' j else 0c) (seq 0 n)).
    pose (da' := fun t i => if t =? T then y' i else da t i).
    pose (dout' := fun t i => if t =? T then x' i else dout t i).
    assert (HA : forall i, i < n -> deriv (fun h => A h T i) (y' i)).
    { intros i Li. unfold y'.
      assert (Hs : deriv (fun h => csum (fun j => if b_C b i j then O h T j else 0c) (seq 0 n)) (csum (fun j => if b_C b i j then x' j else 0c) (seq 0 n))).
      { apply (@deriv_sum _ (fun j h => if b_C b i j then O h T j else 0c)). intros j Ij. apply in_seq in Ij.
        destruct (b_C b i j); [apply Dx'; lia|apply deriv_const]. }
      revert Hs. unfold deriv. apply ctends_ext. revert HW. apply near_mono. intros h _ HW.
      destruct (HW T i ltac:(lia) Li) as [-> _]. destruct (H0 T i ltac:(lia) Li) as [-> _]. reflexivity. }
    exists da', dout'. split.
    + intros t i Lt Li. unfold da' at 1, dout' at 1 2.
      destruct (Nat.eqb_spec t T) as [->|Nt].
      * split; [reflexivity|]. rewrite (Hx' i Li). cbn [at_par fmap b_np b_C b_S]. rewrite (lsum_add CRr).
        assert (E1 : csum (fun k => cmul (bS 0%R i k) (past da' (lg k) T k)) (seq 0 n) =
          cadd (csum (fun j => cmul (inst 0%R i j) (x' j)) (seq 0 n)) (csum (fun k => if lg k =? 0 then 0c else cmul (bS 0%R i k) (past da (lg k) T k)) (seq 0 n))).
        { rewrite (@split_step 0%R x' x' (fun k => past da' (lg k) T k)).
          - f_equal. apply lsum_ext. intros k _. destruct (Nat.eqb_spec (lg k) 0); [reflexivity|]. f_equal. unfold SimSpec.past, da'.
            destruct (Nat.ltb_spec T (lg k)); [reflexivity|]. destruct (Nat.eqb_spec (T - lg k) T); [lia|reflexivity].
          - intros k Lk E. rewrite E, past_0. unfold da'. rewrite Nat.eqb_refl. reflexivity. }
        assert (E2 : csum (fun k => cmul (D i k) (past (A 0%R) (lg k) T k)) (seq 0 n) =
          cadd (csum (fun j => cmul (csum (fun k => cmul (if lg k =? 0 then D i k else 0c) (if b_C b k j then 1c else 0c)) (seq 0 n)) (O 0%R T j)) (seq 0 n))
               (csum (fun k => if lg k =? 0 then 0c else cmul (D i k) (past (A 0%R) (lg k) T k)) (seq 0 n))).
        { rewrite (@lsum_ext _ 0c cadd _ (fun j => cmul (csum _ _) (O 0%R T j))
            (fun j => csum (fun k => cmul (if lg k =? 0 then D i k else 0c) (if b_C b k j then O 0%R T j else 0c)) (seq 0 n))).
          2:{ intros j _. rewrite <- (lsum_mul_r CRr). apply lsum_ext. intros k _. destruct (b_C b k j); ring. }
          rewrite (lsum_swap CRr), <- (lsum_add CRr). apply lsum_ext. intros k Ik. apply in_seq in Ik.
          rewrite (lsum_mul CRr). destruct (Nat.eqb_spec (lg k) 0) as [E|N]; [|ring].
          rewrite E, past_0. destruct (H0 T k ltac:(lia) ltac:(cbn; lia)) as [-> _]. cbn [at_par fmap b_np b_C]. ring. }
        rewrite !(lsum_add CRr).
        rewrite E1, E2. unfold r'.
        rewrite (@lsum_ext _ 0c cadd _ (fun k => if lg k =? 0 then 0c else cadd _ _)
          (fun k => cadd (if lg k =? 0 then 0c else cmul (D i k) (past (A 0%R) (lg k) T k)) (if lg k =? 0 then 0c else cmul (bS 0%R i k) (past da (lg k) T k))))
          by (intros k _; destruct (lg k =? 0); ring).
        rewrite (lsum_add CRr). ring.
      * destruct (HL t i ltac:(lia) Li) as [E1 E2]. split.
        -- rewrite E1. apply lsum_ext. intros j _. unfold dout'. destruct (Nat.eqb_spec t T); [lia|reflexivity].
        -- rewrite E2. f_equal. apply lsum_ext. intros j _. f_equal. f_equal. unfold SimSpec.past, da'.
           destruct (t <? _); [reflexivity|]. destruct (Nat.eqb_spec (t - lg j) T); [lia|reflexivity].
    + intros t i Lt Li. unfold da', dout'. destruct (Nat.eqb_spec t T) as [->|Nt]; [split; auto|apply Hd; lia].
Qed.

Theorem waves_deriv (D : nat -> nat -> C) T src (A O : R -> nat -> nat -> C) :
  (forall i j, i < n -> j < n -> deriv (fun h => bS h i j) (D i j)) ->
  no_resonance e (bh 0%R) w ->
  near (fun h => waves e (bh h) w T src (A h) (O h)) ->
  waves e (bh 0%R) w T src (A 0%R) (O 0%R) ->
  exists da dout, linear_waves e (bh 0%R) w T D (A 0%R) da dout /\
    forall t i, t < T -> i < n -> deriv (fun h => A h t i) (da t i) /\ deriv (fun h => O h t i) (dout t i).
Proof.
  intros HD NR HW H0. destruct (@waves_deriv_src D T (fun _ => src) (fun _ _ => 0c) A O) as (da & dout & HL & Hd); auto.
  { intros. apply deriv_const. }
  exists da, dout. split; [|exact Hd]. intros t i Lt Li. destruct (HL t i Lt Li) as [E1 E2]. split; [exact E1|].
  rewrite E2. cbn [at_par fmap b_np b_C b_S]. unfold lag. cbn [at_par fmap b_np b_C b_S b_src b_det b_act b_del]. ring.
Qed.

(** A solution of the wave equations, computed by elimination. *)
Definition csolve := gauss_solve 0c cadd cmul csub cdiv ceqb.
Definition links (o : nat -> nat -> C) (t i : nat) : C := csum (fun j => if b_C b i j then o t j else 0c) (seq 0 n).
Definition next (h : R) (src o : nat -> nat -> C) (t : nat) : nat -> C :=
  match csolve n 1 (fun i k => csub (if i =? k then 1c else 0c) (inst h i k))
                   (fun i _ => rest h (src t) (fun k => past (links o) (lg k) t k) i) with
  | Some X => fun i => X i 0
  | None => fun _ => 0c
  end.
Fixpoint solution (h : R) (src : nat -> nat -> C) (T : nat) : nat -> nat -> C :=
  match T with
  | 0 => fun _ _ => 0c
  | S T => let o := solution h src T in let v := next h src o T in fun t i => if t =? T then v i else o t i
  end.

Lemma next_ok h src o t : no_resonance e (bh h) w -> forall i, i < n ->
  next h src o t i = cadd (csum (fun k => cmul (inst h i k) (next h src o t k)) (seq 0 n)) (rest h (src t) (fun k => past (links o) (lg k) t k) i).
Proof.
  intros NR i Li. unfold next.
  destruct (@gauss_complete C 0c 1c cadd cmul csub copp cdiv cinv c_field ceqb ceqb_eq n 1
     (fun i k => csub (if i =? k then 1c else 0c) (inst h i k)) (fun i _ => rest h (src t) (fun k => past (links o) (lg k) t k) i)) as (X & E).
  { intros v Hv. apply (inst_inj NR). intros j Lj. specialize (Hv j Lj). cbv beta in Hv.
    rewrite (@lsum_ext _ 0c cadd _ _ (fun k => csub (cmul (if j =? k then 1c else 0c) (v k)) (cmul (inst h j k) (v k)))) in Hv by (intros; ring).
    rewrite (lsum_sub CRr), csum_if in Hv by auto.
    transitivity (cadd (csub (v j) (csum (fun k => cmul (inst h j k) (v k)) (seq 0 n))) (csum (fun k => cmul (inst h j k) (v k)) (seq 0 n))); [ring|].
    rewrite Hv. ring. }
  unfold csolve. rewrite E.
  pose proof (@gauss_sound C 0c 1c cadd cmul csub copp cdiv cinv c_field ceqb ceqb_eq n 1 _ _ X E i 0 Li ltac:(lia)) as H. cbv beta in H.
  rewrite (@lsum_ext _ 0c cadd _ _ (fun k => csub (cmul (if i =? k then 1c else 0c) (X k 0)) (cmul (inst h i k) (X k 0)))) in H by (intros; ring).
  rewrite (lsum_sub CRr), (@csum_if n i (fun k => X k 0)) in H by auto. rewrite <- H. ring.
Qed.

Theorem solution_waves h src T : no_resonance e (bh h) w -> waves e (bh h) w T src (links (solution h src T)) (solution h src T).
Proof.
  intros NR. induction T as [|T IH]; intros t i Lt Li; [lia|]. cbn [at_par fmap b_np b_C b_S] in *.
  split; [reflexivity|].
  assert (K : forall t k, t < T -> links (solution h src (S T)) t k = links (solution h src T) t k).
  { intros t' k L. apply lsum_ext. intros j _. cbn [solution]. destruct (Nat.eqb_spec t' T); [lia|reflexivity]. }
  destruct (Nat.eq_dec t T) as [->|Nt].
  - rewrite (@split_step h (fun _ => 0c) (solution h src (S T) T) (fun k => past (links (solution h src (S T))) (lg k) T k)).
    + replace (solution h src (S T) T i) with (next h src (solution h src T) T i) by (cbn [solution]; rewrite Nat.eqb_refl; reflexivity).
      rewrite (next_ok src (solution h src T) T NR Li). unfold rest.
      rewrite (@lsum_ext _ 0c cadd _ (fun j => cmul (inst h i j) (solution h src (S T) T j)) (fun j => cmul (inst h i j) (next h src (solution h src T) T j)))
        by (intros; cbn [solution]; rewrite Nat.eqb_refl; reflexivity).
      rewrite (@lsum_ext _ 0c cadd _ (fun k => if lg k =? 0 then 0c else cmul (bS h i k) (past (links (solution h src (S T))) (lg k) T k))
        (fun k => if lg k =? 0 then 0c else cmul (bS h i k) (past (links (solution h src T)) (lg k) T k))).
      * ring.
      * intros k _. destruct (Nat.eqb_spec (lg k) 0); [reflexivity|]. f_equal. unfold SimSpec.past.
        destruct (Nat.ltb_spec T (lg k)); [reflexivity|]. apply K. lia.
    + intros k Lk E. rewrite E, past_0. reflexivity.
  - destruct (IH t i ltac:(lia) Li) as [_ E]. cbn [at_par fmap b_np b_C b_S] in E.
    transitivity (solution h src T t i); [cbn [solution]; destruct (Nat.eqb_spec t T); [lia|reflexivity]|]. rewrite E. f_equal.
    apply lsum_ext. intros k _. f_equal. unfold SimSpec.past. destruct (t <? _); [reflexivity|]. symmetry. apply K. lia.
Qed.
End Net.

Lemma near_lt (P : nat -> R -> Prop) m : (forall w, w < m -> near (P w)) -> near (fun h => forall w, w < m -> P w h).
Proof.
  induction m as [|m IH]; intros H; [apply near_all; lia|].
  generalize (near_and (IH (fun w L => H w ltac:(lia))) (H m ltac:(lia))). apply near_mono.
  intros h _ [A B] w Lw. destruct (Nat.eq_dec w m) as [->|]; [exact B|apply A; lia].
Qed.

Section Forward.
Variable solve : nat -> nat -> mat R -> mat R -> option (mat R).
Hypotheses (SS : solver_sound 0%R Rplus Rmult solve) (SC : solver_complete 0%R Rplus Rmult solve).
Variables (A : Type) (act : A -> nat -> field R -> A * field R).
Notation forward := (forward 0%R 1%R Rplus Rmult Rminus Ropp solve act).

(** The detected field. *)
Definition detected (e : env) (b : fam) (s0 : A) (source : nat -> field R) (w c t p : nat) (th : R) : C :=
  match forward e (at_par b th) s0 source with
  | Ok outs => at_ (nth t outs (zero_field 0%R)) w (rank (b_det b) p) c
  | Err _ => 0c
  end.

Definition around (th0 : R) (P : R -> Prop) : Prop := exists d, (0 < d)%R /\ forall th, (Rabs (th - th0) < d)%R -> P th.

Definition shift (b : fam) (th0 : R) : fam := fmap (fun s h => s (th0 + h)%R) b.
Lemma at_shift b th0 h : at_par (shift b th0) h = at_par b (th0 + h)%R.
Proof. reflexivity. Qed.
Lemma at_shift0 b th0 : at_par (shift b th0) 0%R = at_par b th0.
Proof. unfold shift, at_par, fmap. cbn [b_np b_C b_src b_det b_act b_order b_S b_del]. rewrite Rplus_0_r. reflexivity. Qed.

Lemma around_near th0 (P : R -> Prop) : around th0 P -> near (fun h => P (th0 + h)%R) /\ P th0.
Proof.
  intros (d & Hd & H). split; [exists d; split; auto; intros h _ Lh; apply H; replace (th0 + h - th0)%R with h by ring; exact Lh|].
  apply H. rewrite Rminus_diag_eq, Rabs_R0; auto.
Qed.
Lemma near_around th0 (P : R -> Prop) : near (fun h => P (th0 + h)%R) -> P th0 -> around th0 P.
Proof.
  intros (d & Hd & H) H0. exists d. split; auto. intros th L. destruct (Req_dec th th0) as [->|N]; auto.
  replace th with (th0 + (th - th0))%R by ring. apply H; auto. lra.
Qed.

Theorem succeeds_around (e : env) (b : fam) (th0 : R) s0 source : timed e -> separate b -> terminated b = true -> num_det b <> 0 ->
  (forall w i j, w < e_num_wl e -> i < b_np b -> j < b_np b -> ctends (fun h => b_S b i j (th0 + h)%R w) (b_S b i j th0 w)) ->
  around th0 (fun th => forall w, w < e_num_wl e -> unmixed 0%R e (at_par b th) w) ->
  (forall w, w < e_num_wl e -> no_resonance e (at_par b th0) w) ->
  around th0 (fun th => (forall w, w < e_num_wl e -> no_resonance e (at_par b th) w) /\ exists outs, forward e (at_par b th) s0 source = Ok outs).
Proof.
  intros HT Sep TM ND HC HU NR.
  assert (HN : around th0 (fun th => forall w, w < e_num_wl e -> no_resonance e (at_par b th) w)).
  { apply near_around; [|exact NR]. apply near_lt. intros w Lw.
    generalize (@regular_near e (shift b th0) w). rewrite at_shift0. intros H. apply H; [|auto].
    intros i j Li Lj. cbn [shift fmap b_S]. rewrite Rplus_0_r. apply HC; auto. }
  destruct HU as (d & Hd & HU). destruct HN as (d' & Hd' & HN). exists (Rmin d d'). split; [now apply Rmin_glb_lt|].
  intros th L. pose proof (Rlt_le_trans _ _ _ L (Rmin_l d d')). pose proof (Rlt_le_trans _ _ _ L (Rmin_r d d')).
  split; [apply HN; auto|].
  destruct (@forward_succeeds R 0%R 1%R Rplus Rmult Rminus Ropp RTheory solve A act e (at_par b th) s0 source) as (outs & HF & _); auto.
  exists outs. exact HF.
Qed.

Theorem detected_deriv (e : env) (b : fam) (th0 : R) (D : nat -> nat -> nat -> C) s0 source :
  timed e -> separate b -> terminated b = true -> num_det b <> 0 -> num_act b = 0 ->
  (forall w i j, w < e_num_wl e -> i < b_np b -> j < b_np b -> dlim (fun th => b_S b i j th w) th0 (D i j w)) ->
  around th0 (fun th => forall w, w < e_num_wl e -> unmixed 0%R e (at_par b th) w) ->
  (forall w, w < e_num_wl e -> no_resonance e (at_par b th0) w) ->
  forall w c, w < e_num_wl e -> exists a o da dout,
    waves e (at_par b th0) w (e_num_t e) (injected 0%R (at_par b th0) source w c) a o /\
    linear_waves e (at_par b th0) w (e_num_t e) (fun i j => D i j w) a da dout /\
    forall t p, t < e_num_t e -> p < b_np b -> b_det b p = true ->
      detected e b s0 source w c t p th0 = a t p /\
      dlim (detected e b s0 source w c t p) th0 (da t p).
Proof.
  intros HT Sep TM ND NA HD HU NR w c Lw.
  assert (HD' : forall w i j, w < e_num_wl e -> i < b_np b -> j < b_np b -> deriv (fun h => b_S b i j (th0 + h)%R w) (D i j w)).
  { intros w' i j Lw' Li Lj. apply dlim_deriv with (f := fun th => b_S b i j th w'). auto. }
  assert (HS : around th0 (fun th => (forall w, w < e_num_wl e -> no_resonance e (at_par b th) w) /\ exists outs, forward e (at_par b th) s0 source = Ok outs)).
  { apply succeeds_around; auto. intros w' i j Lw' Li Lj. pose proof (deriv_cont (HD' w' i j Lw' Li Lj)) as H. cbv beta in H. rewrite Rplus_0_r in H. exact H. }
  pose (src := injected 0%R (at_par b th0) source w c).
  pose (O := fun h => solution e (shift b th0) w h src (e_num_t e)).
  pose (AA := fun h => links (shift b th0) (O h)).
  assert (HW : forall th, (forall w, w < e_num_wl e -> no_resonance e (at_par b th) w) ->
     waves e (at_par b th) w (e_num_t e) src (AA (th - th0)%R) (O (th - th0)%R)).
  { intros th H. replace (at_par b th) with (at_par (shift b th0) (th - th0)%R) by (rewrite at_shift; f_equal; ring).
    apply solution_waves. rewrite at_shift. replace (th0 + (th - th0))%R with th by ring. auto. }
  assert (HR : around th0 (fun th => waves e (at_par b th) w (e_num_t e) src (AA (th - th0)%R) (O (th - th0)%R) /\
     forall t p, t < e_num_t e -> p < b_np b -> b_det b p = true -> detected e b s0 source w c t p th = AA (th - th0)%R t p)).
  { destruct HS as (d & Hd & HS). destruct HU as (d' & Hd' & HU). exists (Rmin d d'). split; [now apply Rmin_glb_lt|].
    intros th L. pose proof (Rlt_le_trans _ _ _ L (Rmin_l d d')) as L1. pose proof (Rlt_le_trans _ _ _ L (Rmin_r d d')) as L2.
    destruct (HS th L1) as (NR' & outs & HF). split; [apply HW; auto|]. intros t p Lt Lp Dp. unfold detected. rewrite HF.
    destruct (@forward_sound R 0%R 1%R Rplus Rmult Rminus Ropp RTheory solve SS (at_par b th) A act e s0 source outs w c) as (a & o & Ha & _ & Hr); auto.
    etransitivity; [apply Hr; auto|].
    destruct (@waves_unique R 0%R 1%R Rplus Rmult Rminus Ropp RTheory (at_par b th) e w (e_num_t e) src a o (AA (th - th0)%R) (O (th - th0)%R)) with (t := t) (i := p) as [-> _]; auto. }
  apply around_near in HR as [HR1 [HR2 HR3]].
  replace (th0 - th0)%R with 0%R in * by ring.
  assert (HR1' : near (fun h => waves e (at_par (shift b th0) h) w (e_num_t e) src (AA h) (O h) /\
     forall t p, t < e_num_t e -> p < b_np b -> b_det b p = true -> detected e b s0 source w c t p (th0 + h)%R = AA h t p)).
  { revert HR1. apply near_mono. intros h _. replace (th0 + h - th0)%R with h by ring. auto. }
  destruct (@waves_deriv e (shift b th0) w (fun i j => D i j w) (e_num_t e) src AA O) as (da & dout & HL & Hd).
  - intros i j Li Lj. apply HD'; auto.
  - rewrite at_shift0. auto.
  - revert HR1'. apply near_mono. intros h _ [H _]. exact H.
  - rewrite at_shift0. exact HR2.
  - rewrite at_shift0 in HL. exists (AA 0%R), (O 0%R), da, dout. split; [exact HR2|]. split; [exact HL|].
    intros t p Lt Lp Dp. split; [apply HR3; auto|]. apply dlim_deriv.
    destruct (Hd t p Lt Lp) as [H _]. revert H. unfold deriv. apply ctends_ext. revert HR1'. apply near_mono. intros h _ [_ H].
    rewrite (H t p Lt Lp Dp), Rplus_0_r, (HR3 t p Lt Lp Dp). reflexivity.
Qed.
End Forward.
