(** What a simulation has to compute, stated without the simulator: the wave equations of a
    circuit at every port, time step by time step. *)
From Coq Require Import QArith.
From Verif Require Import Base NetModel SimModel SimAlg.
Set Implicit Arguments.
Local Open Scope nat_scope.

(** Number of ports with [f] before port [i]: the channel number of port [i]. *)
Definition rank (f : nat -> bool) (i : nat) : nat := length (filter f (seq 0 i)).

(** No port is two of source, detector and active port. *)
Definition separate X D (b : buf X D) : Prop := forall i, i < b_np b ->
  (b_src b i = true -> b_det b i = false) /\ (b_src b i = true -> b_act b i = false)
  /\ (b_det b i = true -> b_act b i = false).

Section Spec.
Variables (K : Type) (k0 k1 : K) (kadd kmul ksub : K -> K -> K) (kopp : K -> K).
Notation cx := (prod K K).
Notation net := (net K).
Notation field := (field K).
Notation c0 := (c0 k0).
Notation cadd := (cadd kadd).
Notation cmul := (cmul kadd kmul ksub).
Notation csum := (lsum c0 cadd).

(** The complex number at one place of a field. *)
Definition at_ (x : field) (w i c : nat) : cx := (fst x w i c, snd x w i c).

(** Squared modulus. *)
Definition norm2 (z : cx) : K := kadd (kmul (fst z) (fst z)) (kmul (snd z) (snd z)).

(** A special port (source, detector, active) takes at least one step, any other port the number
    of steps of its delay. *)
Definition lag (e : env) (b : net) (i : nat) : nat :=
  if b_src b i || b_det b i || b_act b i then Nat.max 1 (steps e (b_del b i))
  else steps e (b_del b i).

(** The value [d] steps before [t]; nothing happened before the simulation started. *)
Definition past (a : nat -> nat -> cx) (d t j : nat) : cx := if t <? d then c0 else a (t - d) j.

(** Wave equations of a circuit without active components at wavelength [w], up to time step [T]:
    [a t i] enters the component at port [i], [o t i] leaves it, [src t i] is injected. *)
Definition waves (e : env) (b : net) (w T : nat) (src a o : nat -> nat -> cx) : Prop :=
  forall t i, t < T -> i < b_np b ->
    a t i = csum (fun j => if b_C b i j then o t j else c0) (seq 0 (b_np b)) /\
    o t i = cadd (src t i) (csum (fun j => cmul (b_S b i j w) (past a (lag e b j) t j)) (seq 0 (b_np b))).

(** Batch column [c] of a source with one channel per source port, in port order. *)
Definition injected (b : net) (source : nat -> field) (w c t i : nat) : cx :=
  if b_src b i then at_ (source t) w (rank (b_src b) i) c else c0.

(** The outputs [outs] read the detector ports in port order. *)
Definition reads (b : net) (outs : list field) (w c T : nat) (a : nat -> nat -> cx) : Prop :=
  length outs = T /\ forall t p, t < T -> p < b_np b -> b_det b p = true ->
    at_ (nth t outs (zero_field k0)) w (rank (b_det b) p) c = a t p.

(** Scattering never mixes instantaneous and delayed ports. *)
Definition unmixed (e : env) (b : net) (w : nat) : Prop := forall i j, i < b_np b -> j < b_np b ->
  (lag e b i =? 0) <> (lag e b j =? 0) -> b_S b i j w = c0.

(** Instantaneous ports carry no field of their own: without input there is no field. *)
Definition no_resonance (e : env) (b : net) (w : nat) : Prop := forall x : nat -> cx,
  (forall i, i < b_np b -> lag e b i = 0 ->
     x i = csum (fun j => if b_C b i j
                          then csum (fun k => if lag e b k =? 0 then cmul (b_S b j k w) (x k) else c0)
                                    (seq 0 (b_np b))
                          else c0) (seq 0 (b_np b))) ->
  forall i, i < b_np b -> lag e b i = 0 -> x i = c0.

(** [torch.linalg.solve] returns solutions. *)
Definition solver_sound (solve : nat -> nat -> mat K -> mat K -> option (mat K)) : Prop :=
  forall n m P B X, solve n m P B = Some X ->
  forall i j, i < n -> j < m -> lsum k0 kadd (fun k => kmul (P i k) (X k j)) (seq 0 n) = B i j.
(** ... and only of non-singular systems. *)
Definition solver_regular (solve : nat -> nat -> mat K -> mat K -> option (mat K)) : Prop :=
  forall n m P B X, solve n m P B = Some X ->
  forall v : nat -> K, (forall i, i < n -> lsum k0 kadd (fun k => kmul (P i k) (v k)) (seq 0 n) = k0) ->
  forall i, i < n -> v i = k0.
(** ... and of all non-singular systems. *)
Definition solver_complete (solve : nat -> nat -> mat K -> mat K -> option (mat K)) : Prop :=
  forall n m P B,
  (forall v : nat -> K, (forall i, i < n -> lsum k0 kadd (fun k => kmul (P i k) (v k)) (seq 0 n) = k0) ->
   forall i, i < n -> v i = k0) ->
  exists X, solve n m P B = Some X.

(** Two fields with the same values. *)
Definition feq (x y : field) : Prop := forall w i c, at_ x w i c = at_ y w i c.

End Spec.
