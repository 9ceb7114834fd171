(** When [forward] re-initializes a network (photontorch/networks/network.py:752-755).
    No proofs in this file. *)
From Verif Require Import Base.
Set Implicit Arguments.

Section Cache.
(** Parameter values, the matrices stored by [initialize], sources and results.  Environments are
    objects compared with [is], hence numbered.  An [initialize] that raises or breaks off is not
    modelled here. *)
Variables (P M X Y : Type).
Variable init : P -> nat -> M.        (* [initialize] in environment number n *)
Variable simulate : M -> nat -> X -> Y.

(** The parameters, and the matrices with the environment they were computed for ([None]: never
    initialized, [self._env] is None, component.py:100). *)
Record cstate := { c_par : P; c_cache : option (nat * M) }.

Inductive cop :=
| CSet (f : P -> P)                          (* the user or an optimizer changes parameters *)
| CInit (env : nat)                          (* network.initialize() in environment env *)
| CForward (env : nat) (grad : bool) (x : X). (* network(x) in environment env *)

Definition reinit (s : cstate) (env : nat) : cstate :=
  {| c_par := c_par s; c_cache := Some (env, init (c_par s) env) |}.

(** network.py:752-755: [self.env is not current_environment() or torch.is_grad_enabled()] *)
Definition prepare (s : cstate) (env : nat) (grad : bool) : cstate :=
  match c_cache s with
  | Some (e, _) => if negb (e =? env) || grad then reinit s env else s
  | None => reinit s env
  end.

Definition cforward (s : cstate) (env : nat) (grad : bool) (x : X) : cstate * option Y :=
  let s' := prepare s env grad in
  (s', match c_cache s' with Some (e, m) => Some (simulate m e x) | None => None end).

Definition cstep (s : cstate) (o : cop) : cstate :=
  match o with
  | CSet f => {| c_par := f (c_par s); c_cache := c_cache s |}
  | CInit env => reinit s env
  | CForward env grad x => fst (cforward s env grad x)
  end.

Definition crun (p : P) (ops : list cop) : cstate :=
  fold_left cstep ops {| c_par := p; c_cache := None |}.

End Cache.
