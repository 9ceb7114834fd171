(** What a filter has to do. *)
From Coq Require Import Reals.
From Verif Require Import Base SimModel FilterModel.
Set Implicit Arguments.
Unset Strict Implicit.
Local Open Scope nat_scope.

Section Spec.
Variables (K : Type) (k0 : K) (kadd kmul ksub : K -> K -> K).
Notation "l @ k" := (nth k l k0) (at level 20).

(** [sum over k < length c, k <= n of c_k z_(n-k)]. *)
Definition convolved (c z : list K) (n : nat) : K :=
  lsum k0 kadd (fun k => if k <=? n then kmul (c @ k) (z @ (n - k)) else k0) (seq 0 (length c)).

(** The difference equation a_0 y_n = sum_k b_k x_(n-k) - sum_(k>0) a_k y_(n-k). *)
Definition solves (b a x y : list K) : Prop := length y = length x /\
  forall n, n < length x ->
    kmul (a @ 0) (y @ n) = ksub (convolved b x n) (convolved (k0 :: tl a) y n).

(** Linear combination of signals of the same length. *)
Definition combine_lin (u v : K) (x y : list K) : list K :=
  map (fun p => kadd (kmul u (fst p)) (kmul v (snd p))) (combine x y).
End Spec.
