(** Bit streams and losses (photontorch/nn/nn.py:201-640).  Rates, latencies and warm-ups are
    rationals (floats in the code), signal values are real numbers. *)
From Coq Require Import QArith Reals.
From Verif Require Import Base SimModel.
Set Implicit Arguments.
Unset Strict Implicit.
Local Open Scope nat_scope.

(** [int(x + 0.5)]. *)
Definition rint (x : Q) : Z := long (x + (1 # 2))%Q.

(** nn.py:284-292, 452-462, 508-516, 594-604: the rate that is used; [arg] the argument of
    forward, [env] the entry of the current environment (None: no environment, or no such entry),
    [own] the value given to the constructor. *)
Definition rate (arg env : option Q) (own : Q) : Q :=
  match arg with
  | Some a => a
  | None => match env with Some e => e | None => own end
  end.

(** [np.stack([bits] * n, 1).reshape(-1, ...)] along the first dimension, for n > 0: every row
    n times. *)
Definition repeat_rows {A} (n : nat) (l : list A) : list A := flat_map (fun a => repeat a n) l.

(** [l[::n]] for n > 0. *)
Fixpoint every_from {A} (n skip : nat) (l : list A) : list A :=
  match l with
  | [] => []
  | a :: r => match skip with
              | O => a :: every_from n (n - 1) r
              | S k => every_from n k r
              end
  end.
Definition step_slice {A} (n : Z) (l : list A) : res (list A) :=
  if (n =? 0)%Z then Err ValueError
  else if (0 <? n)%Z then Ok (every_from (Z.to_nat n) 0 l)
       else Ok (every_from (Z.to_nat (- n)) 0 (rev l)).

Section Stream.
Variable A : Type.
(** [butter] and [scipy.signal.lfilter]: order, normalised cutoff frequency, signal. *)
Variable lowpass : option Z -> Q -> list A -> list A.

(** nn.py:318-341.  [bits] has at least one dimension; its rows are elements of [A].
    ([S // 0] is 0 for numpy integers, as for [Z.div].) *)
Definition make_stream (bits : list A) (bitrate samplerate : Q) (cutoff : option Q)
  (order : option Z) : res (list A) :=
  let own := rint samplerate in
  do t <- match cutoff with
          | None => Ok (samplerate, 1%Z)
          | Some c =>
              if (own =? 0)%Z then Err ZeroDivisionError
              else let m := (inject_Z (rint (8 * c) / own)%Z * samplerate)%Q in
                   let temp := if Qle_bool m samplerate then samplerate else m in
                   Ok (temp, (rint temp / own)%Z)
          end;
  let '(temp, rc) := t in
  let g := Z.gcd (rint temp) (rint bitrate) in
  let rs := (rint temp / g)%Z in
  let rb := (rint bitrate / g)%Z in
  if (rs <=? 0)%Z then Err ValueError            (* np.stack of no arrays *)
  else
    let stream := repeat_rows (Z.to_nat rs) bits in
    do filtered <- match cutoff with
                   | None => Ok stream
                   | Some c =>
                       let d := ((1 # 2) * temp * inject_Z rb)%Q in
                       if Qeq_bool d 0 then Err ZeroDivisionError
                       else Ok (lowpass order (c / d)%Q stream)
                   end;
    step_slice (rb * rc)%Z filtered.
End Stream.

(** The argument [bits]: an int or a zero-dimensional array or tensor; an array or tensor; or
    another sequence. *)
Inductive bits_arg (A : Type) := Count (n : Z) | Rows (l : list A) | Sequence (l : list A).
Arguments Count {A} n.

Section Generator.
(** The random generator: [seeded None] is [RandomState(seed=None)]; [draw g n] gives n random
    bits and the next state. *)
Variable rng : Type.
Variable seeded : option Z -> rng.
Variable draw : rng -> nat -> list R * rng.
Variable lowpass : option Z -> Q -> list R -> list R.

(** The object (nn.py:234-245). *)
Record generator := { g_bitrate : Q; g_samplerate : Q; g_cutoff : option Q;
                      g_order : option Z; g_seed : option Z; g_rng : rng }.
Definition new_generator (bitrate samplerate : Q) (cutoff : option Q) (order seed : option Q)
  : generator :=
  let s := option_map rint seed in
  {| g_bitrate := bitrate; g_samplerate := samplerate; g_cutoff := cutoff;
     g_order := option_map rint order; g_seed := s; g_rng := seeded s |}.

Definition opt_or {X} (a b : option X) : option X := match a with None => b | _ => a end.

Definition oz_eqb (a b : option Z) : bool :=
  match a, b with
  | None, None => true
  | Some x, Some y => (x =? y)%Z
  | _, _ => false
  end.

(** [forward] (nn.py:284-343): the stream and the object afterwards.  [e_bitrate],
    [e_samplerate]: what the current environment has. *)
Definition generate (g : generator) (e_bitrate e_samplerate : option Q) (bits : bits_arg R)
  (bitrate samplerate cutoff : option Q) (order seed : option Q) : res (list R * generator) :=
  let br := rate bitrate e_bitrate (g_bitrate g) in
  let sr := rate samplerate e_samplerate (g_samplerate g) in
  let co := opt_or cutoff (g_cutoff g) in
  let od := opt_or (option_map rint order) (g_order g) in
  let sd := opt_or (option_map rint seed) (g_seed g) in
  let own := oz_eqb sd (g_seed g) in
  let r := if own then g_rng g else seeded sd in
  do p <- match bits with
          | Count n =>
              if (n <? 0)%Z then Err ValueError
              else let '(l, r') := draw r (Z.to_nat n) in
                   Ok (l, if own then {| g_bitrate := g_bitrate g; g_samplerate := g_samplerate g;
                                         g_cutoff := g_cutoff g; g_order := g_order g;
                                         g_seed := g_seed g; g_rng := r' |} else g)
          | Rows l => Ok (l, g)
          | Sequence l => Err AttributeError       (* bits.shape *)
          end;
  let '(l, g') := p in
  do s <- make_stream lowpass l br sr co od;
  Ok (s, g').
End Generator.

Section Losses.
Local Open Scope R_scope.

(** Tensors with up to four dimensions. *)
Inductive raw :=
| Dim0 (v : R)
| Dim1 (t : nat) (v : nat -> R)
| Dim2 (t b : nat) (v : nat -> nat -> R)
| Dim3 (t d b : nat) (v : nat -> nat -> nat -> R)
| Dim4 (t w d b : nat) (v : nat -> nat -> nat -> nat -> R).

(** Four-dimensional tensors (time, wavelength, detector, batch); the last three dimensions are
    indexed together. *)
Definition place : Type := nat * nat * nat.
Record tensor := { t_len : nat; t_w : nat; t_d : nat; t_b : nat; t_val : nat -> place -> R }.

(** nn.py:363-366 [x[:, None]] until there are four dimensions. *)
Definition four (x : raw) : res tensor :=
  match x with
  | Dim0 _ => Err IndexError
  | Dim1 t v => Ok {| t_len := t; t_w := 1; t_d := 1; t_b := 1; t_val := fun i _ => v i |}
  | Dim2 t b v => Ok {| t_len := t; t_w := 1; t_d := 1; t_b := b;
                        t_val := fun i p => v i (snd p) |}
  | Dim3 t d b v => Ok {| t_len := t; t_w := 1; t_d := d; t_b := b;
                          t_val := fun i p => v i (snd (fst p)) (snd p) |}
  | Dim4 t w d b v => Ok {| t_len := t; t_w := w; t_d := d; t_b := b;
                            t_val := fun i p => v i (fst (fst p)) (snd (fst p)) (snd p) |}
  end.

(** [torch.broadcast_tensors] for one dimension. *)
Definition bsize (a b : nat) : res nat :=
  if (a =? b)%nat then Ok a
  else if (a =? 1)%nat then Ok b
  else if (b =? 1)%nat then Ok a
  else Err RuntimeError.
Definition bindex (size i : nat) : nat := if (size =? 1)%nat then O else i.
Definition expand (x : tensor) (t w d b : nat) : tensor :=
  {| t_len := t; t_w := w; t_d := d; t_b := b;
     t_val := fun i p => t_val x (bindex (t_len x) i)
                (bindex (t_w x) (fst (fst p)), bindex (t_d x) (snd (fst p)), bindex (t_b x) (snd p)) |}.

(** nn.py:346-371 [_broadcast_prediction_target], for tensors of one dtype and device. *)
Definition broadcast (p g : raw) : res (tensor * tensor) :=
  do p4 <- four p; do g4 <- four g;
  do t <- bsize (t_len p4) (t_len g4); do w <- bsize (t_w p4) (t_w g4);
  do d <- bsize (t_d p4) (t_d g4); do b <- bsize (t_b p4) (t_b g4);
  Ok (expand p4 t w d b, expand g4 t w d b).

(** All places, and all entries. *)
Definition places (x : tensor) : list place :=
  list_prod (list_prod (seq 0 (t_w x)) (seq 0 (t_d x))) (seq 0 (t_b x)).
Definition entries (x : tensor) : list (nat * place) := list_prod (seq 0 (t_len x)) (places x).
Definition total (l : list R) : R := fold_right Rplus 0 l.

(** [.mean()]; [None] is nan. *)
Definition mean_of (l : list R) : option R :=
  match l with [] => None | _ => Some (total l / INR (length l)) end.

(** [x[n:]] and [x[n::s]] for s > 0, along time; [x[:m]] with m not more than the length. *)
Definition drop (n : nat) (x : tensor) : tensor :=
  {| t_len := t_len x - n; t_w := t_w x; t_d := t_d x; t_b := t_b x;
     t_val := fun i p => t_val x (n + i) p |}.
Definition sample (n s : nat) (x : tensor) : tensor :=
  {| t_len := (t_len x - n + (s - 1)) / s; t_w := t_w x; t_d := t_d x; t_b := t_b x;
     t_val := fun i p => t_val x (n + i * s)%nat p |}.
Definition take (m : nat) (x : tensor) : tensor :=
  {| t_len := Nat.min m (t_len x); t_w := t_w x; t_d := t_d x; t_b := t_b x; t_val := t_val x |}.

(** [int(latency * samplerate / bitrate + 0.5)]. *)
Definition samples_of (latency samplerate bitrate : Q) : res Z :=
  if Qeq_bool bitrate 0 then Err ZeroDivisionError
  else Ok (rint (latency * samplerate / bitrate)%Q).

(** [_Loss.__init__] (nn.py:389): the stored warm-up; and the value used in forward, [arg] the
    argument of forward (nn.py:518, 606). *)
Definition stored_warmup (warmup : Q) : Z := rint warmup.
Definition used_warmup (arg : option Q) (stored : Z) : Z :=
  match arg with Some a => rint a | None => stored end.

(** [MSELoss.forward] (nn.py:508-543), rates and latency already chosen. *)
Definition mse (p g : raw) (latency : Q) (warmup : Z) (bitrate samplerate : Q) : res (option R) :=
  do pg <- broadcast p g;
  let '(p, g) := pg in
  do l <- samples_of latency samplerate bitrate;
  do w <- samples_of (inject_Z (rint (inject_Z warmup))) samplerate bitrate;
  if (w <? 0)%Z then Err ValueError
  else if (w + l <? 0)%Z then Err ValueError
  else
    let g := drop (Z.to_nat w) g in
    let p := drop (Z.to_nat (w + l)) p in
    let m := Nat.min (t_len g) (t_len p) in
    let g := take m g in
    let p := take m p in
    Ok (mean_of (map (fun e => (t_val g (fst e) (snd e) - t_val p (fst e) (snd e)) ^ 2) (entries p))).

(** [target.mean(0)] at a place, and [target.std()] (unbiased); [None] is nan. *)
Definition column_mean (x : tensor) (q : place) : option R :=
  mean_of (map (fun i => t_val x i q) (seq 0 (t_len x))).
Definition std (x : tensor) : option R :=
  let l := map (fun e => t_val x (fst e) (snd e)) (entries x) in
  match mean_of l with
  | None => None
  | Some m => if (length l =? 1)%nat then None
              else Some (sqrt (total (map (fun v => (v - m) ^ 2) l) / INR (length l - 1)))
  end.

Definition gtb (a b : R) : bool := if Rlt_dec b a then true else false.

(** nn.py:612 and 641: is [(target - target.mean(0)) / target.std()] above 0?  A division by 0
    gives an infinity with the sign of the numerator, or nan; nan is not above 0. *)
Definition normalized_above_0 (x : tensor) (i : nat) (q : place) : bool :=
  match column_mean x q, std x with
  | Some m, Some s =>
      let a := t_val x i q - m in
      if Req_EM_T s 0 then gtb a 0 else gtb (a / s) 0
  | _, _ => false
  end.

(** nn.py:617-618 [torch.stack([x] * n, 1).view(-1, nw, nd, nb)]: every time step n times. *)
Definition stretch (n : Z) (x : tensor) : res tensor :=
  if (n <=? 0)%Z then Err RuntimeError
  else if (t_w x * t_d x * t_b x =? 0)%nat then Err RuntimeError
  else Ok {| t_len := t_len x * Z.to_nat n; t_w := t_w x; t_d := t_d x; t_b := t_b x;
             t_val := fun i q => t_val x (i / Z.to_nat n)%nat q |}.

(** [BERLoss.forward] (nn.py:594-646).  The normalised target is represented by 1 where it is
    above 0 and by 0 elsewhere. *)
Definition ber (p g : raw) (threshold : R) (latency : Q) (warmup : Z) (bitrate samplerate : Q)
  : res (option R) :=
  do pg <- broadcast p g;
  let '(p, g0) := pg in
  let g := {| t_len := t_len g0; t_w := t_w g0; t_d := t_d g0; t_b := t_b g0;
              t_val := fun i q => if normalized_above_0 g0 i q then 1 else 0 |} in
  let rb := (rint bitrate / Z.gcd (rint samplerate) (rint bitrate))%Z in
  let sr := (inject_Z rb * samplerate)%Q in
  do p <- stretch rb p;
  do g <- stretch rb g;
  do s <- samples_of 1 sr bitrate;
  do l <- samples_of latency sr bitrate;
  do w <- samples_of (inject_Z (rint (inject_Z warmup))) sr bitrate;
  if (w <? 0)%Z then Err ValueError
  else if (w + s / 2 + l <? 0)%Z then Err ValueError
  else if (s <=? 0)%Z then Err ValueError          (* slice step *)
  else
    let g := sample (Z.to_nat (w + s / 2)) (Z.to_nat s) g in
    let p := sample (Z.to_nat (w + s / 2 + l)) (Z.to_nat s) p in
    let m := Nat.min (t_len g) (t_len p) in
    let g := take m g in
    let p := take m p in
    Ok (mean_of (map (fun e => if Bool.eqb (gtb (t_val p (fst e) (snd e)) threshold)
                                           (gtb (t_val g (fst e) (snd e)) 0) then 0 else 1)
                     (entries p))).
End Losses.
