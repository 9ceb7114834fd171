(** Simulating circuits: [Network.initialize], [_simulation_buffer], [step], [forward]
    (photontorch/networks/network.py:365-853).  Real and imaginary parts are kept apart, as in
    the code.  Numbers are elements of any ring [K] given by its operations; rounding of floats
    is not modelled.  No proofs in this file. *)
From Coq Require Import QArith.
From Verif Require Import Base NetModel.
Set Implicit Arguments.
Local Open Scope nat_scope.

(** What [initialize] reads from the environment. [e_dt] is [None] for a single time step. *)
Record env := { e_freq : bool; e_dt : option Q; e_num_t : nat; e_num_wl : nat }.

(** [.long()]: truncation towards zero. *)
Definition long (q : Q) : Z := Z.quot (Qnum q) (Zpos (Qden q)).

(** network.py:415-424: delay in time steps.  (A negative number of steps, which only a negative
    delay can give, is read as zero here.) *)
Definition steps (e : env) (delay : Q) : nat :=
  let seconds := if e_freq e then 0%Q else delay in
  match e_dt e with
  | Some dt => Z.to_nat (long (seconds / dt + (1 # 2))%Q)
  | None => 0
  end.

Section Sim.
Variables (K : Type) (k0 k1 : K) (kadd kmul ksub : K -> K -> K) (kopp : K -> K).

Definition lsum {A} (f : A -> K) (l : list A) : K := fold_right (fun a s => kadd (f a) s) k0 l.

(** A matrix, and a tensor indexed by wavelength, node and batch. *)
Definition mat := nat -> nat -> K.
Definition tens := nat -> nat -> nat -> K.

(** A component or network ready for [initialize]: its buffers (component.py:58-105), where
    [b_S b i j w] is the pair (S[0,w,i,j], S[1,w,i,j]) written by [set_S] for the current
    environment and [b_del b i] the delay in seconds written by [set_delays]. *)
Definition net := buf (nat -> K * K) Q.

(** Float value of an entry of C. *)
Definition C01 (b : net) (i j : nat) : K := if b_C b i j then k1 else k0.

(** network.py:428-433 *)
Definition is_mc (e : env) (b : net) (i : nat) : bool :=
  b_src b i || b_det b i || b_act b i || (0 <? steps e (b_del b i)).

(** network.py:434-435 [torch.where] *)
Definition ml_nodes (e : env) (b : net) : list nat :=
  filter (fun i => negb (is_mc e b i)) (seq 0 (b_np b)).
Definition mc_sorted (e : env) (b : net) : list nat :=
  filter (is_mc e b) (seq 0 (b_np b)).

(** [torch.where(f[l])[0]]: positions in [l] where [f] holds. *)
Definition where_at (f : nat -> bool) (l : list nat) : list nat :=
  filter (fun k => f (nth k l 0)) (seq 0 (length l)).

(** network.py:452-461: sources first, then active nodes, then the rest, detectors last. *)
Definition new_order (b : net) (mc : list nat) : list nat :=
  where_at (b_src b) mc ++ where_at (b_act b) mc
  ++ where_at (fun p => negb (b_src b p || b_act b p || b_det b p)) mc
  ++ where_at (b_det b) mc.
Definition mc_nodes (e : env) (b : net) : list nat :=
  let mc := mc_sorted e b in map (fun k => nth k mc 0) (new_order b mc).

(** Sub-matrices [M[rows, :][:, cols]]. *)
Definition sub (M : mat) (rows cols : list nat) : mat := fun i j => M (nth i rows 0) (nth j cols 0).

(** [bmm] for one wavelength: product over [n] inner indices. *)
Definition mm (n : nat) (A B : mat) : mat := fun i j => lsum (fun k => kmul (A i k) (B k j)) (seq 0 n).

(** [torch.linalg.solve(P, B)] for an n x n matrix and m right-hand sides; [None] is the
    RuntimeError of a singular matrix. *)
Variable solve : nat -> nat -> mat -> mat -> option mat.

(** network.py:501-514: the real block matrix [[rP, -iP], [iP, rP]] and the right-hand side. *)
Definition block_P (n : nat) (rP iP : mat) : mat := fun i j =>
  if i <? n then (if j <? n then rP i j else kopp (iP i (j - n)))
  else (if j <? n then iP (i - n) j else rP (i - n) (j - n)).
Definition pad_rows (n : nat) (B : mat) : mat := fun i j => if i <? n then B i j else k0.

(** network.py:472-535: reduced connection matrix at wavelength [w], real and imaginary part. *)
Definition reduced_C (b : net) (mc ml : list nat) (w : nat) : res (mat * mat) :=
  let n := length ml in
  let m := length mc in
  let rS := fun i j => fst (b_S b i j w) in
  let iS := fun i j => snd (b_S b i j w) in
  let Cmcmc := sub (C01 b) mc mc in
  if n =? 0 then Ok (Cmcmc, fun _ _ => k0) else
  let rSml := sub rS ml ml in
  let iSml := sub iS ml ml in
  let Cmcml := sub (C01 b) mc ml in
  let Cmlmc := sub (C01 b) ml mc in
  let Cmlml := sub (C01 b) ml ml in
  let rP := fun i j => ksub (if i =? j then k1 else k0) (mm n Cmlml rSml i j) in
  let iP := fun i j => kopp (mm n Cmlml iSml i j) in
  do x <- of_option RuntimeError (solve (2 * n) m (block_P n rP iP) (pad_rows n Cmlmc));
  let rx := x in
  let ix := fun i j => x (n + i) j in
  let rx' := fun i j => ksub (mm n rSml rx i j) (mm n iSml ix i j) in
  let ix' := fun i j => kadd (mm n iSml rx i j) (mm n rSml ix i j) in
  Ok (fun i j => kadd (mm n Cmcml rx' i j) (Cmcmc i j), mm n Cmcml ix').

Definition maxl (l : list nat) : nat := fold_right Nat.max 0 l.

(** The simulation data stored by [initialize] (network.py:463-467, 537-558). *)
Record init := {
  i_mc : list nat;                 (* port behind each memory-containing node *)
  i_S  : nat -> nat -> nat -> K * K;   (* w i j: _rS, _iS *)
  i_C  : nat -> mat * mat;         (* w: _rC, _iC *)
  i_mask : nat -> nat -> K;        (* buffermask: time, node *)
  i_depth : nat;                   (* time dimension of buffermask *)
  i_delay : nat -> Q               (* _delays in seconds (zero in the frequency domain) *)
}.

(** network.py:405-559; [None]: initialization broken off at network.py:439-441. *)
Definition initialize (e : env) (b : net) : res (option init) :=
  let mc := mc_nodes e b in
  let ml := ml_nodes e b in
  if negb (terminated b) || (length (mc_sorted e b) =? 0) then Ok None else
  do Cs <- mapM (reduced_C b mc ml) (seq 0 (e_num_wl e));
  Ok (Some {|
    i_mc := mc;
    i_S := fun w i j => b_S b (nth i mc 0) (nth j mc 0) w;
    i_C := fun w => nth w Cs (fun _ _ => k0, fun _ _ => k0);
    i_mask := fun t i => if t =? pred (steps e (b_del b (nth i mc 0))) then k1 else k0;
    i_depth := S (maxl (map (fun i => steps e (b_del b i)) (seq 0 (b_np b))));
    i_delay := fun i => if e_freq e then 0%Q else b_del b (nth i mc 0)
  |}).

(** [Tensor.max()] of the delays. *)
Definition Qmaxl (l : list Q) : Q :=
  match l with [] => 0%Q | q :: r => fold_left (fun a c => if Qle_bool a c then c else a) r q end.

(** network.py:561-585: number of time slots of the buffer. *)
Definition buffer_depth (e : env) (m : init) : res nat :=
  if e_freq e then Ok 1 else
  match e_dt e with
  | None => Err TypeError
  | Some dt => Ok (S (Z.to_nat (long (Qmaxl (map (i_delay m) (seq 0 (length (i_mc m)))) / dt + (1 # 2))%Q)))
  end.

(** Stacked real and imaginary part of a field at all nodes. *)
Definition field := (tens * tens)%type.
Definition zero_field : field := (fun _ _ _ => k0, fun _ _ _ => k0).

(** network.py:808: read the delayed state. *)
Definition read_buffer (m : init) (buffer : list field) : field :=
  (fun w i c => lsum (fun t => kmul (i_mask m t i) (fst (nth t buffer zero_field) w i c)) (seq 0 (length buffer)),
   fun w i c => lsum (fun t => kmul (i_mask m t i) (snd (nth t buffer zero_field) w i c)) (seq 0 (length buffer))).

(** [bmm] with a vector per wavelength and batch. *)
Definition mv (n : nat) (A : nat -> mat) (x : tens) : tens :=
  fun w i c => lsum (fun j => kmul (A w i j) (x w j c)) (seq 0 n).

(** network.py:812-815 and 830-833: complex matrix times complex field. *)
Definition cmv (n : nat) (rA iA : nat -> mat) (x : field) : field :=
  (fun w i c => ksub (mv n rA (fst x) w i c) (mv n iA (snd x) w i c),
   fun w i c => kadd (mv n rA (snd x) w i c) (mv n iA (fst x) w i c)).

Definition add_field (x y : field) : field :=
  (fun w i c => kadd (fst x w i c) (fst y w i c), fun w i c => kadd (snd x w i c) (snd y w i c)).

(** The actions of the active components; they may keep a state between steps.
    The second argument is the index of the time step. *)
Variable A : Type.
Variable act : A -> nat -> field -> A * field.

(** network.py:795-841 without the final slice: new action state, field, buffer. *)
Definition step (b : net) (m : init) (s : A) (t : nat) (src : field) (buffer : list field)
  : A * field * list field :=
  let n := length (i_mc m) in
  let x := cmv n (fun w i j => fst (i_S m w i j)) (fun w i j => snd (i_S m w i j)) (read_buffer m buffer) in
  let y := add_field x src in
  let '(s', z) := if num_act b =? 0 then (s, y) else act s t y in
  let o := cmv n (fun w => fst (i_C m w)) (fun w => snd (i_C m w)) z in
  (s', o, o :: removelast buffer).

(** network.py:778-784: [n] steps, starting at step [t].  For each step the buffer before it and
    the field after it (only the fields are used by [forward]). *)
Fixpoint run (b : net) (m : init) (src : nat -> field) (n t : nat) (s : A) (buffer : list field)
  : list (list field * field) :=
  match n with
  | 0 => []
  | S n' => let '(s', o, buffer') := step b m s t (src t) buffer in
            (buffer, o) :: run b m src n' (S t) s' buffer'
  end.

(** network.py:705-720: source channels first, zero for all other nodes. *)
Definition node_source (ns : nat) (source : nat -> field) : nat -> field := fun t =>
  (fun w i c => if i <? ns then fst (source t) w i c else k0,
   fun w i c => if i <? ns then snd (source t) w i c else k0).

(** network.py:839 [x[:, :, -num_detectors:]]: index of the first node returned. *)
Definition det_start (num_mc nd : nat) : nat := if nd =? 0 then 0 else num_mc - nd.
Definition detect (start : nat) (x : field) : field :=
  (fun w k c => fst x w (start + k) c, fun w k c => snd x w (start + k) c).

(** [forward(source, power=False)] on a network that was never initialized before
    (network.py:722-793), for an already expanded source [source t w k c].  Slots of the result:
    time -> (wavelength, detector, batch).
    - A network that is not terminated has no environment ([AttributeError]).
    - mask and buffer of different depth do not broadcast (broadcasting a depth 1 is not modelled).
    - Without detectors the slice has all nodes, which does not fit [detected] unless there is
      exactly one node. *)
Definition forward (e : env) (b : net) (s0 : A) (source : nat -> field) : res (list field) :=
  do o <- initialize e b;
  match o with
  | None => Err AttributeError
  | Some m =>
      do depth <- buffer_depth e m;
      if negb (i_depth m =? depth) then Err RuntimeError else
      let n := length (i_mc m) in
      if (num_det b =? 0) && negb (n =? 1) && negb (e_num_t e =? 0) then Err RuntimeError else
      Ok (map (fun r => detect (det_start n (num_det b)) (snd r))
              (run b m (node_source (num_src b) source) (e_num_t e) 0 s0 (repeat zero_field depth)))
  end.

(** [power=True]: network.py:782. *)
Definition power (x : field) : tens :=
  fun w k c => kadd (kmul (fst x w k c) (fst x w k c)) (kmul (snd x w k c) (snd x w k c)).
Definition forward_power (e : env) (b : net) (s0 : A) (source : nat -> field) : res (list tens) :=
  do xs <- forward e b s0 source; Ok (map power xs).

End Sim.
