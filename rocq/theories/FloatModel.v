(** The number of grid points in floating point arithmetic (environment.py:114-122, 355-360).
    Two views: the arithmetic of binary64 (Coq's SpecFloat, round to nearest even), and any
    arithmetic whose relative rounding error is at most [u] (no overflow, no underflow). *)
From Coq Require Import SpecFloat.
From Verif Require Import Base.
Set Implicit Arguments.
Unset Strict Implicit.

(** ** binary64 *)
Definition f64 := spec_float.
Definition fsub : f64 -> f64 -> f64 := SFsub 53 1024.
Definition fmul : f64 -> f64 -> f64 := SFmul 53 1024.
Definition fdiv : f64 -> f64 -> f64 := SFdiv 53 1024.
(** float(n). *)
Definition fint (n : Z) : f64 := binary_normalize 53 1024 n 0 false.
(** The literal a/b written in decimal, e.g. 1.5e-6 = 15/10^7: the correctly rounded quotient
    (both operands exact below 2^53). *)
Definition flit (a b : Z) : f64 := fdiv (fint a) (fint b).
(** int(x), for finite x: truncation. *)
Definition ftrunc (x : f64) : option Z :=
  match x with
  | S754_zero _ => Some 0%Z
  | S754_finite s m e =>
      let v := if (0 <=? e)%Z then (Z.pos m * 2 ^ e)%Z else (Z.pos m / 2 ^ (- e))%Z in
      Some (if s then (- v)%Z else v)
  | _ => None
  end.

(** environment.py:116: [num = int((stop - start) / step)]. *)
Definition fcount (start stop step : f64) : option Z := ftrunc (fdiv (fsub stop start) step).

(** environment.py:358, 362: num_wl given. *)
Definition fcount_num (wl0 wl1 : f64) (n : Z) : option Z :=
  fcount wl0 wl1 (fdiv (fsub wl1 wl0) (fint n)).

(** ** Delays *)
(** network.py:427, 572: [(delay / dt + 0.5).long()], in the precision of the tensor of delays (binary32 by
    default; [dt] is converted to it first). *)
Definition fsteps (prec emax : Z) (delay dt : spec_float) : option Z :=
  ftrunc (SFadd prec emax (SFdiv prec emax delay dt) (binary_normalize prec emax 1 (-1) false)).
