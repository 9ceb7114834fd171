(** Devices of modules (photontorch/nn/nn.py:136-138, 163-193; network.py:316-352; clements.py:256-272),
    gradients (network.py:405, 755) and the checks of constructors (directionalcouplers.py:40-59 and
    126-149, mirrors.py:35-48, soas.py:140-162).  No proofs in this file.

    Only the attribute [device] of modules is modelled, not where tensors are. *)
From Coq Require Import Reals.
From Verif Require Import Base CompModel.
Set Implicit Arguments.

(** ** Devices *)
Inductive dev := Cpu | Cuda (i : nat).
(** A module: its attribute [device] (which can become None) and [_modules]. *)
Inductive tree := Node (device : option dev) (children : list tree).
Definition device (m : tree) : option dev := match m with Node d _ => d end.
Definition children (m : tree) : list tree := match m with Node _ l => l end.

(** nn.py:136-138 *)
Definition new_module (l : list tree) : tree := Node (Some Cpu) l.
(** nn.py:163-166: [self.device.type] of None raises AttributeError. *)
Definition is_cuda (m : tree) : res bool :=
  match device m with None => Err AttributeError | Some Cpu => Ok false | Some (Cuda _) => Ok true end.

(** The arguments of [to]: a device, a data type, or both ([_parse_to] gives None for what is missing). *)
Record to_args := { to_device : option dev; to_dtype : bool }.
(** nn.py:168-177: all submodules, then the module itself. *)
Fixpoint to (a : to_args) (m : tree) : tree :=
  match m with Node _ l => Node (to_device a) (map (to a) l) end.
(** nn.py:179-193 *)
Definition to_cpu (m : tree) : tree := to {| to_device := Some Cpu; to_dtype := false |} m.
Definition to_cuda (i : option nat) (m : tree) : tree :=
  to {| to_device := Some (Cuda match i with None => 0 | Some k => k end); to_dtype := false |} m.

(** network.py:316-352, what happens to devices: [terms] are modules (made or given); the result has
    the copy of the network, the terms and [base] as modules. *)
Definition terminate (nw : tree) (terms : list tree) : res tree :=
  do c <- is_cuda nw;
  let terms' := if c then map (to_cuda None) terms else terms in
  Ok (new_module (nw :: terms' ++ [nw])).
(** clements.py:269-272, reck.py:156-159, rings.py:222-225 *)
Definition mesh_terminate (nw : tree) (terms : list tree) : res tree :=
  do r <- terminate nw terms; Ok (to {| to_device := device nw; to_dtype := false |} r).

(** ** Gradients *)
Section Grad.
Variable G : Type.                    (* the gradients of all parameters together *)
Variable g0 : G.
Variable gadd : G -> G -> G.

Inductive top :=
| TForward (grad_enabled same_env : bool)   (* nw(source) *)
| TBackward (g : G)                         (* loss.backward(): adds the gradient of the loss *)
| TZero                                     (* optimizer.zero_grad() *)
| TOther.                                   (* anything that does not touch gradients *)

(** network.py:755 and 405: a forward pass that initializes the network sets its gradients to zero. *)
Definition tstep (s : G) (o : top) : G :=
  match o with
  | TForward grad same => if negb same || grad then g0 else s
  | TBackward g => gadd s g
  | TZero => g0
  | TOther => s
  end.
Definition gradients (os : list top) : G := fold_left tstep os g0.
End Grad.
Arguments TForward {G} grad_enabled same_env.
Arguments TZero {G}.
Arguments TOther {G}.

(** ** Constructors *)
(** directionalcouplers.py:50-59 and 140-149: bounded if trainable, stored as it is otherwise. *)
Definition coupler_ctor (trainable : bool) (coupling : R) : res R :=
  if trainable then do p <- bounded_new [coupling] 0%R 1%R; of_option IndexError (nth_error (bounded_read p) 0)
  else Ok coupling.
(** mirrors.py:44-48: always bounded. *)
Definition mirror_ctor (trainable : bool) (Rf : R) : res R :=
  do p <- bounded_new [Rf] 0%R 1%R; of_option IndexError (nth_error (bounded_read p) 0).
(** soas.py:152-154 and 43-54 *)
Definition soa_ctor (amplification : R) : res R :=
  if Rlt_dec amplification 1%R then Err ValueError else Ok amplification.
Definition linear_soa_ctor (amplification : R) : res R := Ok amplification.
