(** A solver for linear equations over any field with decidable equality, by elimination.  It has
    all the properties assumed of [torch.linalg.solve], so these are consistent, and it makes the
    simulation model executable on rational numbers. *)
From Coq Require Import Ring Field.
From Verif Require Import Base SimModel SimAlg SimSpec.
Set Implicit Arguments.
Unset Strict Implicit.

Section Gauss.
Variables (K : Type) (k0 k1 : K) (kadd kmul ksub : K -> K -> K) (kopp : K -> K)
  (kdiv : K -> K -> K) (kinv : K -> K).
Hypothesis KF : field_theory k0 k1 kadd kmul ksub kopp kdiv kinv (@eq K).
Variable eqb : K -> K -> bool.
Hypothesis eqb_eq : forall x y, eqb x y = true <-> x = y.
Let KR := F_R KF.
Add Field Kfield : KF.
Notation sum := (lsum k0 kadd).

Definition swap (r i : nat) : nat := if i =? 0 then r else if i =? r then 0 else i.

(** The same matrix, stored as a table (for fast evaluation). *)
Definition tab (n m : nat) (f : mat K) : mat K :=
  let l := map (fun i => map (f i) (seq 0 m)) (seq 0 n) in
  fun i j => nth j (nth i l []) k0.

Fixpoint gauss (n m : nat) (P B : mat K) : option (mat K) :=
  match n with
  | 0 => Some B
  | S n' =>
      match find (fun r => negb (eqb (P r 0) k0)) (seq 0 n) with
      | None => None
      | Some r =>
          let P1 := fun i j => P (swap r i) j in
          let B1 := fun i c => B (swap r i) c in
          let q i := kdiv (P1 i 0) (P1 0 0) in
          match gauss n' m (tab n' n' (fun i j => ksub (P1 (S i) (S j)) (kmul (q (S i)) (P1 0 (S j)))))
                         (tab n' m (fun i c => ksub (B1 (S i) c) (kmul (q (S i)) (B1 0 c)))) with
          | None => None
          | Some X' =>
              Some (tab n m (fun i c => match i with
                | 0 => kdiv (ksub (B1 0 c) (sum (fun j => kmul (P1 0 (S j)) (X' j c)) (seq 0 n'))) (P1 0 0)
                | S i' => X' i' c
                end))
          end
      end
  end.

Definition gauss_solve (n m : nat) (P B : mat K) : option (mat K) := gauss n m (tab n n P) (tab n m B).

Lemma tab_at n m f i j : i < n -> j < m -> tab n m f i j = f i j.
Proof.
  intros Li Lj. unfold tab. rewrite nth_indep with (d' := map (f 0) (seq 0 m)) by (rewrite map_length, seq_length; auto).
  rewrite (map_nth (fun i => map (f i) (seq 0 m))), seq_nth by auto. cbn [Nat.add].
  rewrite nth_indep with (d' := f i 0) by (rewrite map_length, seq_length; auto).
  rewrite (map_nth (f i)), seq_nth by auto. reflexivity.
Qed.

Lemma sum_S f n : sum f (seq 0 (S n)) = kadd (f 0) (sum (fun j => f (S j)) (seq 0 n)).
Proof. cbn [seq]. rewrite lsum_cons, <- seq_shift, lsum_map. reflexivity. Qed.

Lemma swap_lt r i n : r < n -> i < n -> swap r i < n.
Proof. unfold swap. intros. destruct (i =? 0); auto. destruct (i =? r); lia. Qed.

Lemma swap_swap r i : swap r (swap r i) = i.
Proof.
  unfold swap. destruct (Nat.eqb_spec i 0) as [->|N0].
  - destruct (Nat.eqb_spec r 0) as [->|]; auto. rewrite Nat.eqb_refl. auto.
  - destruct (Nat.eqb_spec i r) as [->|]; auto.
    destruct (Nat.eqb_spec i 0); [contradiction|]. destruct (Nat.eqb_spec i r); [contradiction|]. auto.
Qed.

Lemma pivot n (P : mat K) r : find (fun r => negb (eqb (P r 0) k0)) (seq 0 n) = Some r ->
  r < n /\ P r 0 <> k0.
Proof.
  intros H. apply find_some in H as [I H]. apply in_seq in I. split; [lia|].
  apply negb_true_iff in H. intros E. apply eqb_eq in E. congruence.
Qed.

(** Sum of an eliminated row. *)
Lemma elim_row n (a0 : K) (a p x : nat -> K) (q : K) :
  sum (fun j => kmul (ksub (a j) (kmul q (p j))) (x j)) (seq 0 n) =
  ksub (sum (fun j => kmul (a j) (x j)) (seq 0 n)) (kmul q (sum (fun j => kmul (p j) (x j)) (seq 0 n))).
Proof.
  rewrite <- (lsum_mul KR), <- (lsum_sub KR). apply lsum_ext. intros; ring.
Qed.

Lemma row_tab n f (x : nat -> K) i : i < n ->
  sum (fun k => kmul (tab n n f i k) (x k)) (seq 0 n) = sum (fun k => kmul (f i k) (x k)) (seq 0 n).
Proof. intros L. apply lsum_ext. intros k Ik. apply in_seq in Ik. rewrite tab_at by lia. reflexivity. Qed.

Lemma gauss_ok n m P B X : gauss n m P B = Some X -> forall i c, i < n -> c < m ->
  sum (fun k => kmul (P i k) (X k c)) (seq 0 n) = B i c.
Proof.
  intros H i c Li Lc. revert P B X H i Li.
  induction n as [|n IH]; intros P B X H i Li; [lia|]. cbn [gauss] in H.
  destruct (find _ _) as [r|] eqn:EF; [|discriminate]. apply pivot in EF as [Lr Np].
  destruct (gauss n m _ _) as [X'|] eqn:EG; [|discriminate].
  assert (HX : forall i, i < S n -> X i c = match i with
       | 0 => kdiv (ksub (B (swap r 0) c) (sum (fun j => kmul (P (swap r 0) (S j)) (X' j c)) (seq 0 n))) (P (swap r 0) 0)
       | S i' => X' i' c end).
  { intros k Lk. injection H as <-. rewrite tab_at by auto. reflexivity. }
  clear H. specialize (IH _ _ _ EG). clear EG.
  assert (IH' : forall i, i < n ->
    ksub (sum (fun j => kmul (P (swap r (S i)) (S j)) (X' j c)) (seq 0 n))
         (kmul (kdiv (P (swap r (S i)) 0) (P (swap r 0) 0)) (sum (fun j => kmul (P (swap r 0) (S j)) (X' j c)) (seq 0 n)))
    = ksub (B (swap r (S i)) c) (kmul (kdiv (P (swap r (S i)) 0) (P (swap r 0) 0)) (B (swap r 0) c))).
  { intros k Lk. specialize (IH k Lk). rewrite row_tab, tab_at in IH by auto. cbv beta in IH.
    rewrite (elim_row n k0) in IH. exact IH. }
  clear IH. assert (N0 : P (swap r 0) 0 <> k0) by exact Np.
  enough (G : forall i, i < S n -> sum (fun k => kmul (P (swap r i) k) (X k c)) (seq 0 (S n)) = B (swap r i) c).
  { specialize (G (swap r i) (swap_lt Lr Li)). rewrite swap_swap in G. exact G. }
  clear i Li. intros i Li.
  rewrite sum_S. cbv beta.
  rewrite (@lsum_ext _ k0 kadd _ (fun j => kmul (P (swap r i) (S j)) (X (S j) c)) (fun j => kmul (P (swap r i) (S j)) (X' j c))).
  2:{ intros k Ik. apply in_seq in Ik. rewrite HX by lia. reflexivity. }
  rewrite HX by lia.
  destruct i as [|i].
  - field. exact N0.
  - specialize (IH' i ltac:(lia)).
    set (s0 := sum (fun j => kmul (P (swap r 0) (S j)) (X' j c)) (seq 0 n)) in *.
    set (s1 := sum (fun j => kmul (P (swap r (S i)) (S j)) (X' j c)) (seq 0 n)) in *.
    set (q := kdiv (P (swap r (S i)) 0) (P (swap r 0) 0)) in *.
    transitivity (kadd (ksub s1 (kmul q s0)) (kmul q (B (swap r 0) c))).
    + unfold q. field. exact N0.
    + rewrite IH'. ring.
Qed.

Theorem gauss_sound : solver_sound k0 kadd kmul gauss_solve.
Proof.
  intros n m P B X H i c Li Lc. pose proof (gauss_ok H Li Lc) as E.
  rewrite row_tab, tab_at in E by auto. exact E.
Qed.

Definition kernel0 (n : nat) (P : mat K) : Prop := forall v : nat -> K,
  (forall i, i < n -> sum (fun k => kmul (P i k) (v k)) (seq 0 n) = k0) -> forall i, i < n -> v i = k0.

Lemma kernel_tab n P : kernel0 n (tab n n P) <-> kernel0 n P.
Proof.
  split; intros H v Hv; apply H; intros i Li.
  - rewrite row_tab by auto. auto.
  - rewrite <- row_tab by auto. auto.
Qed.

Lemma gauss_ker n m P B X : gauss n m P B = Some X -> kernel0 n P.
Proof.
  revert P B X. induction n as [|n IH]; intros P B X H v Hv i Li; [lia|]. cbn [gauss] in H.
  destruct (find _ _) as [r|] eqn:EF; [|discriminate]. apply pivot in EF as [Lr Np].
  destruct (gauss n m _ _) as [X'|] eqn:EG; [|discriminate]. clear H.
  specialize (IH _ _ _ EG). apply (proj1 (kernel_tab _ _)) in IH. clear EG.
  assert (N0 : P (swap r 0) 0 <> k0) by exact Np.
  assert (Hv1 : forall i, i < S n -> kadd (kmul (P (swap r i) 0) (v 0)) (sum (fun j => kmul (P (swap r i) (S j)) (v (S j))) (seq 0 n)) = k0).
  { intros j Lj. rewrite <- (sum_S (fun k => kmul (P (swap r j) k) (v k))). apply Hv, swap_lt; auto. }
  assert (Z : forall j, j < n -> v (S j) = k0).
  { apply IH. intros j Lj. cbv beta. rewrite (elim_row n k0).
    pose proof (Hv1 0 ltac:(lia)) as E0. pose proof (Hv1 (S j) ltac:(lia)) as E1.
    set (s0 := sum (fun j => kmul (P (swap r 0) (S j)) (v (S j))) (seq 0 n)) in *.
    set (s1 := sum (fun j0 => kmul (P (swap r (S j)) (S j0)) (v (S j0))) (seq 0 n)) in *.
    transitivity (ksub (kadd (kmul (P (swap r (S j)) 0) (v 0)) s1)
       (kmul (kdiv (P (swap r (S j)) 0) (P (swap r 0) 0)) (kadd (kmul (P (swap r 0) 0) (v 0)) s0))).
    - field. exact N0.
    - rewrite E0, E1. ring. }
  destruct i as [|i]; [|apply Z; lia].
  pose proof (Hv1 0 ltac:(lia)) as E0. rewrite (lsum_0 KR) in E0.
  - transitivity (kmul (kinv (P (swap r 0) 0)) (kadd (kmul (P (swap r 0) 0) (v 0)) k0)); [field; exact N0|]. rewrite E0. ring.
  - intros j Ij. apply in_seq in Ij. rewrite Z by lia. ring.
Qed.

Theorem gauss_regular : solver_regular k0 kadd kmul gauss_solve.
Proof. intros n m P B X H. apply (proj1 (kernel_tab _ _)). exact (gauss_ker H). Qed.

Lemma gauss_some n m P B : kernel0 n P -> exists X, gauss n m P B = Some X.
Proof.
  revert P B. induction n as [|n IH]; intros P B H; [exists B; reflexivity|]. cbn [gauss].
  destruct (find _ _) as [r|] eqn:EF.
  - apply pivot in EF as [Lr Np].
    assert (N0 : P (swap r 0) 0 <> k0) by exact Np.
    match goal with |- context [gauss n m (tab n n ?f) ?b] => destruct (IH (tab n n f) b) as (X' & EX) end.
    2:{ rewrite EX. eexists. reflexivity. }
    apply (proj2 (kernel_tab _ _)). intros v Hv.
    pose (s0 := sum (fun j => kmul (P (swap r 0) (S j)) (v j)) (seq 0 n)).
    pose (u := fun i => match i with 0 => kopp (kdiv s0 (P (swap r 0) 0)) | S i' => v i' end).
    intros i Li. change (v i) with (u (S i)). apply H; [|lia].
    assert (G : forall j, j < S n -> sum (fun k => kmul (P (swap r j) k) (u k)) (seq 0 (S n)) = k0).
    { intros j Lj. rewrite sum_S. destruct j as [|j].
      - change (sum (fun j => kmul (P (swap r 0) (S j)) (u (S j))) (seq 0 n)) with s0. cbn [u]. field. exact N0.
      - specialize (Hv j ltac:(lia)). cbv beta in Hv. rewrite (elim_row n k0) in Hv. fold s0 in Hv.
        change (sum (fun j0 => kmul (P (swap r (S j)) (S j0)) (u (S j0))) (seq 0 n)) with (sum (fun j0 => kmul (P (swap r (S j)) (S j0)) (v j0)) (seq 0 n)).
        cbn [u]. etransitivity; [|exact Hv]. field. exact N0. }
    intros j Lj. specialize (G (swap r j) (swap_lt Lr Lj)). rewrite swap_swap in G. exact G.
  - exfalso. assert (E : k1 = k0).
    { change k1 with ((fun i => if i =? 0 then k1 else k0) 0). apply H; [|lia].
      intros i Li. rewrite sum_S. cbn [Nat.eqb].
      pose proof (find_none _ _ EF i ltac:(apply in_seq; lia)) as F. cbv beta in F.
      apply negb_false_iff in F. apply eqb_eq in F. rewrite F, (lsum_0 KR); [ring|]. intros; ring. }
    apply (F_1_neq_0 KF). exact E.
Qed.

Theorem gauss_complete : solver_complete k0 kadd kmul gauss_solve.
Proof. intros n m P B H. apply gauss_some, (proj2 (kernel_tab _ _)). exact H. Qed.

End Gauss.
