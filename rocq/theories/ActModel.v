(** Active components: [Network.action] (photontorch/networks/network.py:840-852) and the
    amplifiers (photontorch/components/soas.py:62-300).  No proofs in this file. *)
From Coq Require Import Reals.
From Verif Require Import Base SimModel.
Set Implicit Arguments.
Unset Strict Implicit.
Local Open Scope nat_scope.

Section Action.
(** The field at one node (for all wavelengths and batches), and the zero field. *)
Variable V : Type.
Variable v0 : V.

(** A component as seen by [Network.action] at one time step: for each port whether it is a
    source and whether it is active, and its method [action]: from x_in and the old x_out to the
    new x_out.  Or a network of components. *)
Inductive acomp :=
| Plain (ports : list (bool * bool)) (f : list V -> list V -> res (list V))
| Nested (cs : list acomp).


(** [num_ports], [num_sources] and [actions_at]. *)
Fixpoint a_ports (c : acomp) : list (bool * bool) :=
  match c with Plain p _ => p | Nested cs => flat_map a_ports cs end.
Definition a_np (c : acomp) : nat := length (a_ports c).
Definition a_nsrc (c : acomp) : nat := length (filter fst (a_ports c)).
Definition a_any (c : acomp) : bool := existsb snd (a_ports c).

(** [x[a:a+n]], and assignment to such a slice. *)
Definition slice {A} (a n : nat) (x : list A) : list A := firstn n (skipn a x).
Definition set_slice {A} (a : nat) (y x : list A) : list A :=
  firstn a x ++ y ++ skipn (a + length y) x.

(** network.py:840-852.  The slices of x_in and x_out handed to a component are views: what it
    writes appears in x_out. *)
Fixpoint action (c : acomp) (x_in x_out : list V) : res (list V) :=
  match c with
  | Plain _ f => f x_in x_out
  | Nested cs =>
      (fix loop (cs : list acomp) (idx : nat) (out : list V) : res (list V) :=
         match cs with
         | [] => Ok out
         | c :: r =>
             if a_any c then
               let n := a_np c in
               do y <- action c (slice idx n x_in) (map (fun _ => v0) (slice idx n out));
               loop r (idx + n) (set_slice idx y out)
             else loop r idx out
         end) cs (a_nsrc c) x_in
  end.
End Action.

(** The action of network [c t] as used by [SimModel.step] (network.py:818-827): [x_in] has one field
    for each of the [n] memory-containing nodes.  The state is the exception raised so far. *)
Definition node_field K (x : SimModel.field K) (k : nat) : nat -> nat -> K * K := fun w c => (fst x w k c, snd x w k c).
Definition of_nodes K (k0 : K) (l : list (nat -> nat -> K * K)) : SimModel.field K :=
  (fun w k c => fst (nth k l (fun _ _ => (k0, k0)) w c), fun w k c => snd (nth k l (fun _ _ => (k0, k0)) w c)).
Definition net_act K (k0 : K) (n : nat) (c : nat -> acomp (nat -> nat -> K * K))
  (s : option exn) (t : nat) (x : SimModel.field K) : option exn * SimModel.field K :=
  match s with
  | Some _ => (s, x)
  | None =>
      match action (fun _ _ => (k0, k0)) (c t) (map (node_field x) (seq 0 n)) [] with
      | Ok z => (None, of_nodes k0 z)
      | Err e => (Some e, x)
      end
  end.

Section Soa.
Local Open Scope R_scope.

(** A field at a node: real and imaginary part by wavelength and batch. *)
Definition fieldv : Type := nat -> nat -> R * R.

(** soas.py:76-98 [BaseSoa.action]: real and imaginary parts are treated alike, number by number.
    [dhdt h a] is the rate equation at one wavelength and batch (simplified: both rate equations of
    the library treat wavelengths and batches separately).  Unpacking anything but three nodes is a
    ValueError. *)
Definition soa_action (dt : R) (dhdt : R * R -> R * R -> R * R) (x_in x_out : list fieldv)
  : res (list fieldv) :=
  match x_in with
  | [a; h; _] =>
      Ok [a;
          fun w b => (fst (h w b) + dt * fst (dhdt (h w b) (a w b)), snd (h w b) + dt * snd (dhdt (h w b) (a w b)));
          fun w b => (fst (a w b) * exp (/ 2 * fst (h w b)), snd (a w b) * exp (/ 2 * snd (h w b)))]
  | _ => Err ValueError
  end.

(** All three ports are active (soas.py:117-118); [set_S] and [set_C] are in [CompModel.base_soa]. *)
Definition soa (dt : R) (dhdt : R * R -> R * R -> R * R) : acomp fieldv :=
  Plain [(false, true); (false, true); (false, true)] (soa_action dt dhdt).

(** [Soa.dhdt] (soas.py:164-167). *)
Definition soa_dhdt (startup amplification t : R) (h a : R * R) : R * R :=
  let r := if Rlt_dec t startup then (1 / startup) * ln amplification else 0 in (r, r).

(** [AgrawalSoa.initialize] and [dhdt] (soas.py:236-289): carrier lifetime, unsaturated gain g0*L,
    saturation power.  The constructor's [wl], [c] the speed of light of the environment. *)
Record agrawal := { ag_tc : R; ag_g0L : R; ag_Psat : R }.
Definition agrawal_params (L W H N0 a I tc gamma wl c : R) : agrawal :=
  let q := 16 / 10 ^ 20 in
  let h := 6626 / 10 ^ 37 in
  let V := L * H * W in
  let Ith := q * V * N0 / tc in
  let g0 := gamma * a * N0 * (I / Ith - 1) in
  {| ag_tc := tc; ag_g0L := g0 * L; ag_Psat := (h * c / wl) * W * H / (gamma * tc * a) |}.
Definition agrawal_dhdt (p : agrawal) (h a : R * R) : R * R :=
  let P := fst a ^ 2 + snd a ^ 2 in
  ((1 / ag_tc p) * ((ag_g0L p - fst h) - (P / ag_Psat p) * (exp (fst h) - 1)), 0).
End Soa.
