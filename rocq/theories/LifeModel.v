(** One network object over several calls: what [initialize] has stored when it raises or breaks
    off, and what later calls of [forward] make of it (photontorch/networks/network.py:363-560,
    562-585, 722-841; photontorch/components/component.py:207-222).  No proofs in this file. *)
From Coq Require Import QArith.
From Verif Require Import Base NetModel SimModel.
Set Implicit Arguments.
Local Open Scope nat_scope.

Section Life.
Variables (K : Type) (k0 k1 : K) (kadd kmul ksub : K -> K -> K) (kopp : K -> K).
Variable solve : nat -> nat -> (nat -> nat -> K) -> (nat -> nat -> K) -> option (nat -> nat -> K).
Notation field := (field K).
Notation init := (init K).

(** Parameter values.  Environments are objects compared with [is], hence numbered. *)
Variable P : Type.
Variable envs : nat -> env.

(** The network with the S-matrix and the delays its components write for given parameters in a
    given environment.  Ports, connections and flags do not depend on them. *)
Variable base : buf unit unit.
Variable S_at : P -> nat -> nat -> nat -> nat -> K * K.
Variable del_at : P -> nat -> nat -> Q.
Definition net_at (p : P) (en : nat) : net K :=
  {| b_np := b_np base; b_C := b_C base; b_src := b_src base; b_det := b_det base;
     b_act := b_act base; b_order := b_order base;
     b_S := fun i j w => S_at p en i j w; b_del := del_at p en |}.

(** [comp.initialize()] of component number [i]; an AgrawalSoa raises RuntimeError in the frequency
    domain (soas.py:230-234).  When it returns, the component remembers the environment. *)
Variable comp_init : P -> nat -> nat -> res unit.

(** The environment (and the parameters then) of the last initialization of each component. *)
Definition inits := list (option (nat * P)).

(** What [action] of the network does (network.py:843-855): the components use their own
    environment (soas.py:94 [self.env.dt]).  The state [A] is what actions keep between steps. *)
Variable A : Type.
Variable act : P -> inits -> A -> nat -> field -> res (A * field).
Variable s0 : A.

(** The attributes of the network that [forward] reads. *)
Record lstate := {
  l_comps : inits;             (* [_env] of the components *)
  l_num_mc : nat;              (* num_mc (line 441) *)
  l_delays : list Q;           (* _delays (line 467) *)
  l_data : option init;        (* _rS, _iS, _rC, _iC, buffermask (lines 539-555) *)
  l_env : option nat           (* _env (line 558) *)
}.

(** A new network with [n] components. *)
Definition fresh (n : nat) : lstate :=
  {| l_comps := repeat None n; l_num_mc := 0; l_delays := []; l_data := None; l_env := None |}.

(** network.py:411-412: the components one after the other, until one raises. *)
Fixpoint init_comps (p : P) (en i : nat) (l : inits) : inits * res unit :=
  match l with
  | [] => ([], Ok tt)
  | c :: r =>
      match comp_init p en i with
      | Err x => (c :: r, Err x)
      | Ok _ => let '(r', o) := init_comps p en (S i) r in (Some (en, p) :: r', o)
      end
  end.

(** network.py:363-559 *)
Definition linit (p : P) (en : nat) (st : lstate) : lstate * res unit :=
  let '(cs, o) := init_comps p en 0 (l_comps st) in
  match o with
  | Err x => ({| l_comps := cs; l_num_mc := l_num_mc st; l_delays := l_delays st;
                 l_data := l_data st; l_env := l_env st |}, Err x)
  | Ok _ =>
      let e := envs en in
      let b := net_at p en in
      let num_mc := length (mc_sorted e b) in
      let delays := map (fun i => if e_freq e then 0%Q else b_del b i) (mc_nodes e b) in
      match initialize k0 k1 kadd kmul ksub kopp solve e b with
      | Err x => ({| l_comps := cs; l_num_mc := num_mc; l_delays := delays;
                     l_data := l_data st; l_env := l_env st |}, Err x)
      | Ok None => ({| l_comps := cs; l_num_mc := num_mc; l_delays := l_delays st;
                       l_data := l_data st; l_env := l_env st |}, Ok tt)
      | Ok (Some m) => ({| l_comps := cs; l_num_mc := num_mc; l_delays := delays;
                           l_data := Some m; l_env := Some en |}, Ok tt)
      end
  end.

(** network.py:571-573 for the stored delays; [max] of no delays raises. *)
Definition ldepth (e : env) (delays : list Q) : res nat :=
  if e_freq e then Ok 1 else
  match delays, e_dt e with
  | [], _ => Err RuntimeError
  | _, None => Err TypeError
  | _, Some dt => Ok (S (Z.to_nat (long (Qmaxl delays / dt + (1 # 2))%Q)))
  end.

(** network.py:807 [torch.sum(self.buffermask * buffer, dim=1)]; a time dimension of length one is
    repeated. *)
Definition lread (m : init) (buffer : list field) : field :=
  if i_depth m =? length buffer then read_buffer k0 kadd kmul m buffer else
  let n := Nat.max (i_depth m) (length buffer) in
  let mask := fun t i => i_mask m (if i_depth m =? 1 then 0 else t) i in
  let slot := fun t => nth (if length buffer =? 1 then 0 else t) buffer (zero_field k0) in
  (fun w i c => lsum k0 kadd (fun t => kmul (mask t i) (fst (slot t) w i c)) (seq 0 n),
   fun w i c => lsum k0 kadd (fun t => kmul (mask t i) (snd (slot t) w i c)) (seq 0 n)).

(** network.py:791-841 *)
Definition lstep (p : P) (cs : inits) (m : init) (s : A) (t : nat) (src : field) (buffer : list field)
  : res (A * field * list field) :=
  let n := length (i_mc m) in
  let x := cmv k0 kadd kmul ksub n (fun w i j => fst (i_S m w i j)) (fun w i j => snd (i_S m w i j)) (lread m buffer) in
  let y := add_field kadd x src in
  do sz <- if num_act base =? 0 then Ok (s, y) else act p cs s t y;
  let o := cmv k0 kadd kmul ksub n (fun w => fst (i_C m w)) (fun w => snd (i_C m w)) (snd sz) in
  Ok (fst sz, o, o :: removelast buffer).

Fixpoint lrun (p : P) (cs : inits) (m : init) (src : nat -> field) (n t : nat) (s : A) (buffer : list field)
  : res (list field) :=
  match n with
  | 0 => Ok []
  | S n' =>
      do r <- lstep p cs m s t (src t) buffer;
      let '(s', o, buffer') := r in
      do l <- lrun p cs m src n' (S t) s' buffer';
      Ok (o :: l)
  end.

(** network.py:758-789 after the initialization.
    - Without an environment [self.env.num_t] is an AttributeError.
    - Depths of mask and buffer must be equal, or one of them 1.
    - If [num_mc] is not the number of nodes of the stored matrices, the first step raises: mask and
      buffer do not broadcast, or [bmm], or the concatenation with the rest of the buffer fails.
    - Without detectors the slice has all nodes. *)
Definition simulate_stored (p : P) (st : lstate) (source : nat -> field) : res (list field) :=
  match l_env st, l_data st with
  | Some en, Some m =>
      let e := envs en in
      let n := length (i_mc m) in
      do depth <- ldepth e (l_delays st);
      if e_num_t e =? 0 then Ok [] else
      if negb ((i_depth m =? depth) || (i_depth m =? 1) || (depth =? 1)) then Err RuntimeError else
      if negb (n =? l_num_mc st) then Err RuntimeError else
      do outs <- lrun p (l_comps st) m (node_source k0 (num_src base) source) (e_num_t e) 0 s0
                      (repeat (zero_field k0) depth);
      if (num_det base =? 0) && negb (n =? 1) then Err RuntimeError else
      Ok (map (detect (det_start n (num_det base))) outs)
  | _, _ => Err AttributeError
  end.

(** network.py:722-789: initialize if the environment is another one or gradients are enabled. *)
Definition lforward (p : P) (en : nat) (grad : bool) (source : nat -> field) (st : lstate)
  : lstate * res (list field) :=
  let again := match l_env st with Some e => negb (e =? en) || grad | None => true end in
  let '(st', o) := if again then linit p en st else (st, Ok tt) in
  (st', do _ <- o; simulate_stored p st' source).

(** What happens to a network between two simulations. *)
Inductive lop :=
| LSet (f : P -> P)                                       (* parameters are changed *)
| LInit (en : nat)                                        (* nw.initialize() in environment en *)
| LForward (en : nat) (grad : bool) (source : nat -> field)  (* nw(source) *)
| LTouch (i en : nat).  (* component i is initialized alone or as part of another network *)

(** One operation, whether it raises or not (the exception is caught). *)
Definition lopstep (ps : P * lstate) (o : lop) : P * lstate :=
  let '(p, st) := ps in
  match o with
  | LSet f => (f p, st)
  | LInit en => (p, fst (linit p en st))
  | LForward en grad source => (p, fst (lforward p en grad source st))
  | LTouch i en =>
      match comp_init p en i, i <? length (l_comps st) with
      | Ok _, true =>
          (p, {| l_comps := firstn i (l_comps st) ++ Some (en, p) :: skipn (S i) (l_comps st);
                 l_num_mc := l_num_mc st; l_delays := l_delays st; l_data := l_data st;
                 l_env := l_env st |})
      | _, _ => (p, st)
      end
  end.

Definition lops (p : P) (n : nat) (ops : list lop) : P * lstate := fold_left lopstep ops (p, fresh n).

End Life.
Arguments LSet {K P}.
Arguments LInit {K P}.
Arguments LForward {K P}.
Arguments LTouch {K P}.
