(** Detectors: the pure Python [lfilter] (photontorch/detectors/lowpassdetector.py:45-91), the
    low-pass detector (lowpassdetector.py:99-214) and the photodetector
    (photontorch/detectors/photodetector.py:33-166).  No proofs in this file. *)
From Coq Require Import QArith Reals Qreals.
From Verif Require Import Base SimModel NNModel.
Set Implicit Arguments.
Unset Strict Implicit.
Local Open Scope nat_scope.

Section Filter.
Variables (K : Type) (k0 : K) (kadd kmul ksub kdiv : K -> K -> K) (is0 : K -> bool).

(** Python's [l[i:j]] for 0 <= i. *)
Definition cut {A} (i j : nat) (l : list A) : list A := firstn (j - i) (skipn i l).

(** [(u[:, None] * v).sum(0)] for one column [v] with broadcasting of the first dimension. *)
Fixpoint dot (u v : list K) : K :=
  match u, v with a :: r, c :: s => kadd (kmul a c) (dot r s) | _, _ => k0 end.
Definition total (l : list K) : K := fold_right kadd k0 l.
Definition mulsum (u v : list K) : res K :=
  if length u =? length v then Ok (dot u v)
  else match u, v with
       | [a], _ => Ok (kmul a (total v))
       | _, [c] => Ok (kmul (total u) c)
       | _, _ => Err RuntimeError
       end.

(** lowpassdetector.py:82-89 for one column; [y] holds the values computed so far, [n = length y]. *)
Definition filter_step (b a x y : list K) (n : nat) : res (list K) :=
  let order := length b in
  if length x <=? n then Err IndexError else
  if n <? order then
    do s <- mulsum (skipn (order - 1 - n) b) (firstn (n + 1) x);
    do r <- mulsum (skipn (length a - n) a) (firstn n y);
    Ok (y ++ [ksub s r])
  else
    do s <- mulsum b (cut (n - order + 1) (n + 1) x);
    do r <- mulsum a (cut (n - order + 1) n y);
    Ok (y ++ [ksub s r]).

(** lowpassdetector.py:45-91 for one column of a signal: all columns are filtered alike.  The loops
    run over 1..order-1 and order..num_timesteps-1.  [b] is not empty; an empty signal cannot be
    reshaped (RuntimeError).  The data type of the coefficients is that of [x], here exact. *)
Definition lfilter (b a x : list K) : res (list K) :=
  do a0 <- of_option IndexError (hd_error a);
  if is0 a0 then Err ZeroDivisionError else
  let b' := map (fun z => kdiv z a0) b in
  let a' := map (fun z => kdiv z a0) (rev (tl a)) in
  do x0 <- of_option RuntimeError (hd_error x);
  do bl <- of_option IndexError (hd_error (rev b'));
  foldM (filter_step b' a' x) [kmul bl x0] (seq 1 (Nat.max (length b) (length x) - 1)).
End Filter.

(** ** Detectors *)
Section Detectors.
Local Open Scope R_scope.

(** A tensor of real numbers: its shape and its values by index. *)
Record tensor := { t_shape : list nat; t_at : list nat -> R }.

(** [signal.shape[0] == 2] and lines 190-191 of lowpassdetector.py, 131-132 of photodetector.py. *)
Definition to_power (s : tensor) : res tensor :=
  match t_shape s with
  | [] => Err IndexError
  | n :: r =>
      if (n =? 2)%nat then
        Ok {| t_shape := r; t_at := fun i => t_at s (0%nat :: i) ^ 2 + t_at s (1%nat :: i) ^ 2 |}
      else Ok s
  end.
Definition scale (c : R) (s : tensor) : tensor := {| t_shape := t_shape s; t_at := fun i => c * t_at s i |}.

(** [scipy.signal.butter(order, cutoff)]: numerator and denominator, or its exception. *)
Variable butter : Z -> Q -> res (list R * list R).
Definition Ris0 (x : R) : bool := if Req_EM_T x 0 then true else false.
Definition filt := lfilter 0 Rplus Rmult Rminus Rdiv Ris0.

(** [lfilter(b, a, signal)]: along the first dimension, column by column.  Whether it raises does
    not depend on the values (only on the number of time steps). *)
Definition column (T : nat) (s : tensor) (i : list nat) : list R := map (fun t => t_at s (t :: i)) (seq 0 T).
Definition lfilter_tensor (b a : list R) (s : tensor) : res tensor :=
  match t_shape s with
  | [] => Err IndexError
  | T :: r =>
      match filt b a (repeat 0 T) with
      | Err e => Err e
      | Ok _ => Ok {| t_shape := t_shape s;
                      t_at := fun i => match i with
                                       | t :: i' => match filt b a (column T s i') with Ok y => nth t y 0 | Err _ => 0 end
                                       | [] => 0
                                       end |}
      end
  end.

(** The detector as constructed (lowpassdetector.py:106-135). *)
Record detector := { d_samplerate : Q; d_cutoff : Q; d_order : Z; d_resp : R }.
Definition too_fast (cutoff samplerate : Q) : res bool :=
  if Qeq_bool samplerate 0 then Err ZeroDivisionError
  else Ok (negb (Qle_bool (2 * cutoff / samplerate) 1)).
Definition new_detector (samplerate cutoff order : Q) (resp : R) : res detector :=
  do bad <- too_fast cutoff samplerate;
  if bad then Err ValueError
  else Ok {| d_samplerate := samplerate; d_cutoff := cutoff; d_order := rint order; d_resp := resp |}.

(** lowpassdetector.py:137-214; [env] is the samplerate of the current environment, if any.
    (The bit rate is not used.) *)
Definition detect (d : detector) (env : option Q) (s : tensor)
  (samplerate cutoff order : option Q) (resp : option R) : res tensor :=
  let sr := rate samplerate env (d_samplerate d) in
  let co := match cutoff with Some c => c | None => d_cutoff d end in
  let n := match order with Some o => rint o | None => d_order d end in
  let r := match resp with Some r => r | None => d_resp d end in
  do p <- to_power s;
  let p := scale r p in
  do bad <- too_fast co sr;
  if Qeq_bool (2 * co / sr) 1 then Ok p
  else if bad then Err ValueError
  else do ba <- butter n (2 * co / sr); lfilter_tensor (fst ba) (snd ba) p.

(** photodetector.py:81-166: [q], [k] and [T] as there, [dark] current, [load] resistance, [randn]
    the random numbers (one per value of the current). *)
Definition noisy (co : R) (dark load : R) (randn : list nat -> R) (p : tensor) : tensor :=
  let q := 1602176563 / 10 ^ 28 in
  let kT := 13806488 / 10 ^ 30 * 300 in
  {| t_shape := t_shape p;
     t_at := fun i => t_at p i + sqrt (4 * kT / load * co + 2 * q * (t_at p i + dark) * co) * randn i |}.
Definition photodetect (d : detector) (dark0 load0 : R) (env : option Q) (s : tensor) (randn : list nat -> R)
  (samplerate cutoff order : option Q) (resp dark load : option R) : res tensor :=
  let co := match cutoff with Some c => c | None => d_cutoff d end in
  let r := match resp with Some r => r | None => d_resp d end in
  let dk := match dark with Some x => x | None => dark0 end in
  let ld := match load with Some x => x | None => load0 end in
  do p <- to_power s;
  detect d env (noisy (Q2R co) dk ld randn (scale r p)) samplerate (Some co) order (Some 1).
End Detectors.
