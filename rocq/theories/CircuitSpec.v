(** Power, losslessness, passivity and reciprocity of scattering matrices, without the simulator. *)
From Coq Require Import QArith Reals.
From Verif Require Import Base NetModel NetSpec SimModel SimAlg SimSpec.
Set Implicit Arguments.
Local Open Scope nat_scope.

(** Name of the part that port [i] belongs to. *)
Fixpoint owner {B} (ports : B -> nat) (cs : list (string * B)) (i : nat) : string :=
  match cs with
  | [] => EmptyString
  | (n, b) :: r => if i <? ports b then n else owner ports r (i - ports b)
  end.

Section Spec.
Variables (K : Type) (k0 k1 : K) (kadd kmul ksub : K -> K -> K) (kopp : K -> K).
Notation cx := (prod K K).
Notation net := (net K).
Notation c0 := (c0 k0).
Notation cadd := (cadd kadd).
Notation cmul := (cmul kadd kmul ksub).
Notation csum := (lsum c0 cadd).

(** Waves leaving the ports when [x] enters. *)
Definition scatter (b : net) (w : nat) (x : nat -> cx) (i : nat) : cx :=
  csum (fun j => cmul (b_S b i j w) (x j)) (seq 0 (b_np b)).

(** Power of the waves [x] at the ports below [n] (with property [f]). *)
Definition power_on (f : nat -> bool) (n : nat) (x : nat -> cx) : K :=
  lsum k0 kadd (fun i => if f i then norm2 kadd kmul (x i) else k0) (seq 0 n).
Definition power_all (n : nat) (x : nat -> cx) : K :=
  lsum k0 kadd (fun i => norm2 kadd kmul (x i)) (seq 0 n).

Definition lossless (b : net) (w : nat) : Prop := forall x : nat -> cx,
  power_all (b_np b) (scatter b w x) = power_all (b_np b) x.

(** Nothing comes back (Term, Source, Detector). *)
Definition dark (b : net) (w : nat) : Prop := forall i j, i < b_np b -> j < b_np b -> b_S b i j w = c0.

(** No port is a source, detector or active port. *)
Definition plain (b : net) : Prop := forall i, i < b_np b -> b_src b i = false /\ b_det b i = false /\ b_act b i = false.

Definition reciprocal (b : net) (w : nat) : Prop := forall i j, i < b_np b -> j < b_np b -> b_S b i j w = b_S b j i w.

(** Light passes only between ports with the same delay. *)
Definition uniform (e : env) (b : net) (w : nat) : Prop := forall i j, i < b_np b -> j < b_np b ->
  b_S b i j w = c0 \/ lag e b i = lag e b j.

(** The same circuit, perhaps with other roles of its terminations. *)
Definition same_circuit (b b' : net) (w : nat) : Prop :=
  b_np b' = b_np b /\ forall i, i < b_np b ->
    b_del b' i = b_del b i /\
    b_src b' i || b_det b' i || b_act b' i = b_src b i || b_det b i || b_act b i /\
    (forall j, j < b_np b -> b_C b' i j = b_C b i j /\ b_S b' i j w = b_S b i j w).

(** Ports of the parts that [term] calls terminators. *)
Definition term_ports (term : string -> bool) (cs : list (string * net)) (i : nat) : bool :=
  term (owner (@b_np _ _) cs i).

(** Total power during steps [0..T-1] of the waves [a] at ports with property [f]. *)
Definition energy_on (f : nat -> bool) (n T : nat) (a : nat -> nat -> cx) : K :=
  lsum k0 kadd (fun t => power_on f n (a t)) (seq 0 T).

(** Light still inside the ports with property [f] after [T] steps: what entered port [i] during
    its last [lag] steps. *)
Definition stored (e : env) (b : net) (f : nat -> bool) (T : nat) (a : nat -> nat -> cx) : K :=
  lsum k0 kadd (fun i => if f i then
      lsum k0 kadd (fun t => if T <=? t + lag e b i then norm2 kadd kmul (a t i) else k0) (seq 0 T) else k0)
    (seq 0 (b_np b)).

(** Energy sent in by a source with [ns] channels. *)
Definition sent (ns T : nat) (source : nat -> field K) (w c : nat) : K :=
  lsum k0 kadd (fun t => lsum k0 kadd (fun k => norm2 kadd kmul (at_ (source t) w k c)) (seq 0 ns)) (seq 0 T).

End Spec.

(** Over the real numbers. *)
Definition passive (b : net R) (w : nat) : Prop := forall x : nat -> R * R,
  (power_all 0 Rplus Rmult (b_np b) (scatter 0 Rplus Rmult Rminus b w x) <= power_all 0 Rplus Rmult (b_np b) x)%R.
