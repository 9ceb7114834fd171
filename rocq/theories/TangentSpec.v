(** Derivatives of circuits with active components with respect to a parameter: what has to hold.  The
    actions of the active components depend on the parameter as well. *)
From Coq Require Import Reals QArith.
From Verif Require Import Base NetModel SimModel SimAlg SimSpec ActModel ActSpec Deriv DerivNet.
Set Implicit Arguments.
Unset Strict Implicit.
Local Open Scope nat_scope.

Notation zfield := (fun _ _ : nat => (0, 0)%R).

(** Components as seen by [Network.action], with a parameter: [J x x'] is the derivative of the action if
    the fields are [x] and change at the rate [x']. *)
Inductive dcomp :=
| DPlain (ports : list (bool * bool)) (f : R -> list fieldv -> list fieldv -> res (list fieldv))
         (J : list fieldv -> list fieldv -> list fieldv)
| DNested (cs : list dcomp).

Fixpoint at_param (th : R) (d : dcomp) : acomp fieldv :=
  match d with
  | DPlain p f _ => Plain p (f th)
  | DNested cs => Nested (map (at_param th) cs)
  end.
Fixpoint d_ports (d : dcomp) : list (bool * bool) :=
  match d with DPlain p _ _ => p | DNested cs => flat_map d_ports cs end.

(** The field [x] changes at the rate [x'] at [th0], for every wavelength and batch. *)
Definition rate_of (nwl : nat) (th0 : R) (x : R -> fieldv) (x' : fieldv) : Prop :=
  forall w c, w < nwl -> dlim (fun th => x th w c) th0 (x' w c).

(** [J] is the derivative of the action [f] on [n] fields. *)
Definition action_derivative (nwl : nat) (th0 : R) (n : nat) (f : R -> list fieldv -> list fieldv -> res (list fieldv))
  (J : list fieldv -> list fieldv -> list fieldv) : Prop :=
  (forall x x', length x = n -> length x' = n -> length (J x x') = n) /\
  forall (x z : R -> list fieldv) (x' : list fieldv), (forall th, length (x th) = n) -> length x' = n ->
    (forall k, k < n -> rate_of nwl th0 (fun th => nth k (x th) zfield) (nth k x' zfield)) ->
    around th0 (fun th => f th (x th) (repeat zfield n) = Ok (z th)) ->
    forall k, k < n -> rate_of nwl th0 (fun th => nth k (z th) zfield) (nth k (J (x th0) x') zfield).

Fixpoint differentiable (nwl : nat) (th0 : R) (d : dcomp) : Prop :=
  match d with
  | DPlain p f J => existsb snd p = true -> action_derivative nwl th0 (length p) f J
  | DNested cs =>
      (fix go (cs : list dcomp) : Prop :=
         match cs with [] => True | c :: r => differentiable nwl th0 c /\ go r end) cs
  end.

(** Rates of change [dy] before and [dout] after the actions, component by component ([acts]). *)
Fixpoint dacts (d : dcomp) (off : nat) (y dy dout : nat -> fieldv) : Prop :=
  match d with
  | DPlain p _ J =>
      if existsb snd p
      then J (map y (seq off (length p))) (map dy (seq off (length p))) = map dout (seq off (length p))
      else forall i, off <= i < off + length p -> dout i = dy i
  | DNested cs =>
      (fix go (cs : list dcomp) (off : nat) : Prop :=
         match cs with
         | [] => True
         | c :: r => dacts c off y dy dout /\ go r (off + length (d_ports c))
         end) cs off
  end.

(** The wave equations, linearised ([waves_active]): [D] is the derivative of the scattering matrix. *)
Definition tangent_waves (e : env) (b : net R) (d : nat -> dcomp) (D : nat -> nat -> nat -> C) (T : nat)
  (y a dy da dout : nat -> nat -> fieldv) : Prop :=
  forall t, t < T ->
    dacts (d t) 0 (y t) (dy t) (dout t) /\
    forall i, i < b_np b -> forall w c, w < e_num_wl e ->
      da t i w c = csum (fun j => if b_C b i j then dout t j w c else 0c) (seq 0 (b_np b)) /\
      dy t i w c = csum (fun j => cadd (cmul (b_S b i j w) (before 0%R da (lag e b j) t j w c))
                                       (cmul (D i j w) (before 0%R a (lag e b j) t j w c))) (seq 0 (b_np b)).
