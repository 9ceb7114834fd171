(** What the actions of active components have to do, port by port. *)
From Coq Require Import Reals QArith.
From Verif Require Import Base NetModel SimModel SimAlg SimSpec ActModel.
Set Implicit Arguments.
Unset Strict Implicit.
Local Open Scope nat_scope.

Section Acts.
Variables (V : Type) (v0 : V).

(** Component [c], whose first port is port [off], takes the fields [y] at its ports to [o]: an
    active component applies its own action to the fields at its own ports, in port order, and
    other components leave the fields as they are. *)
Fixpoint acts (c : acomp V) (off : nat) (y o : nat -> V) : Prop :=
  match c with
  | Plain p f =>
      if existsb snd p
      then f (map y (seq off (length p))) (repeat v0 (length p)) = Ok (map o (seq off (length p)))
      else forall i, off <= i < off + length p -> o i = y i
  | Nested cs =>
      (fix go (cs : list (acomp V)) (off : nat) : Prop :=
         match cs with
         | [] => True
         | c :: r => acts c off y o /\ go r (off + a_np c)
         end) cs off
  end.

(** All active components have active ports only and never raise on as many fields as they have
    ports.  An active sub-network has no sources, and passive ports only if no active component
    comes after it. *)
Definition all_active (c : acomp V) : Prop := Forall (fun p => snd p = true) (a_ports c).
Definition no_sources (c : acomp V) : Prop := Forall (fun p => fst p = false) (a_ports c).
Fixpoint aligned (c : acomp V) : Prop :=
  match c with
  | Plain p f => existsb snd p = true ->
      Forall (fun q => snd q = true) p /\
      forall x o, length x = length p -> exists l, f x o = Ok l /\ length l = length p
  | Nested cs =>
      (fix go (cs : list (acomp V)) : Prop :=
         match cs with
         | [] => True
         | c :: r => aligned c /\
             (a_any c = true -> no_sources c /\ (existsb (@a_any V) r = true -> all_active c)) /\ go r
         end) cs
  end.
End Acts.

Section Waves.
Variables (K : Type) (k0 k1 : K) (kadd kmul ksub : K -> K -> K).
Notation V := (nat -> nat -> prod K K).
Notation c0 := (c0 k0).
Notation csum := (lsum c0 (cadd kadd)).

(** Value of a field [d] steps before [t]. *)
Definition before (a : nat -> nat -> V) (d t j : nat) : V :=
  if t <? d then fun _ _ => c0 else a (t - d) j.

(** Wave equations of a circuit with active components, up to time step [T], for every wavelength
    and batch: [a] enters the components, [y] leaves them before and [o] after the actions. *)
Definition waves_active (e : env) (b : net K) (net : nat -> acomp V) (T : nat)
  (src y a o : nat -> nat -> V) : Prop :=
  forall t, t < T ->
    acts (fun _ _ => c0) (net t) 0 (y t) (o t) /\
    forall i, i < b_np b -> forall w c, w < e_num_wl e ->
      a t i w c = csum (fun j => if b_C b i j then o t j w c else c0) (seq 0 (b_np b)) /\
      y t i w c = cadd kadd (src t i w c)
        (csum (fun j => cmul kadd kmul ksub (b_S b i j w) (before a (lag e b j) t j w c)) (seq 0 (b_np b))).

(** The network [c] has the ports of [b]. *)
Definition same_ports (b : net K) (c : acomp V) : Prop :=
  a_ports c = map (fun i => (b_src b i, b_act b i)) (seq 0 (b_np b)).
End Waves.

(** Component [c'] is part of [c], its first port is port [off']. *)
Inductive placed V (c : acomp V) (off : nat) : acomp V -> nat -> Prop :=
| placed_here : placed c off c off
| placed_in cs1 c' cs2 off' : placed c off (Nested (cs1 ++ c' :: cs2)) off' ->
    placed c off c' (off' + a_np (Nested cs1)).

Section Soa.
Local Open Scope R_scope.

(** Logarithmic gain before step [n] of an amplifier with rate equation [rate t] that started
    without gain and gets [a t] at step [t], and what it sends out. *)
Fixpoint gain (dt : R) (rate : nat -> R * R -> R * R -> R * R) (a : nat -> R * R) (n : nat) : R * R :=
  match n with
  | O => (0, 0)
  | S k => let h := gain dt rate a k in
           (fst h + dt * fst (rate k h (a k)), snd h + dt * snd (rate k h (a k)))
  end.
Definition amplified (dt : R) (rate : nat -> R * R -> R * R -> R * R) (a : nat -> R * R) (n : nat) : R * R :=
  (fst (a n) * exp (fst (gain dt rate a n) / 2), snd (a n) * exp (snd (gain dt rate a n) / 2)).

(** The ports [off .. off+2] of [b] are those of an amplifier. *)
Definition amplifier_at (b : net R) (off : nat) : Prop :=
  (off + 3 <= b_np b)%nat /\ forall i, (i < 3)%nat ->
    b_src b (off + i) = false /\ b_act b (off + i) = true /\
    (forall j w, (j < b_np b)%nat -> b_S b (off + i) j w = if (j =? off + i)%nat then (1, 0) else (0, 0)) /\
    (i = 1%nat -> b_del b (off + i) = 0%Q /\ forall j, (j < b_np b)%nat -> b_C b (off + i) j = (j =? off + i)%nat).

(** Complex multiplication. *)
Definition turn (u a : R * R) : R * R := (fst u * fst a - snd u * snd a, fst u * snd a + snd u * fst a).
End Soa.
