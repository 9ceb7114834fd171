(** The components of photontorch/components as buffers, and bounded parameters
    (photontorch/nn/nn.py:59-126).  Parameters are real numbers (rationals where they enter a
    delay); rounding, nan and devices are not modelled.  No proofs in this file. *)
From Coq Require Import QArith Reals Qreals.
From Verif Require Import Base NetModel SimModel.
Set Implicit Arguments.
Local Open Scope R_scope.

(** ** Writing scattering matrices *)
(** [S : i j w -> (S[0,w,i,j], S[1,w,i,j])], all zero at first (network.py:414-416). *)
Definition smat := nat -> nat -> nat -> R * R.
Definition zero_S : smat := fun _ _ _ => (0, 0).
(** [S[0, :, i, j] = v] and [S[1, :, i, j] = v] *)
Definition put_re (i j : nat) (v : nat -> R) (S : smat) : smat := fun a b w =>
  if (a =? i)%nat && (b =? j)%nat then (v w, snd (S a b w)) else S a b w.
Definition put_im (i j : nat) (v : nat -> R) (S : smat) : smat := fun a b w =>
  if (a =? i)%nat && (b =? j)%nat then (fst (S a b w), v w) else S a b w.
(** [S[p, :, i, j] = S[p, :, j, i] = v] *)
Definition both_re (i j : nat) (v : nat -> R) (S : smat) : smat := put_re j i v (put_re i j v S).
Definition both_im (i j : nat) (v : nat -> R) (S : smat) : smat := put_im j i v (put_im i j v S).

(** component.py:58-78: a component with [n] ports; only what its class overrides is not zero. *)
Definition component (n : nat) (C : nat -> nat -> bool) (src det act : bool) (S : smat) (del : nat -> Q) : net R :=
  {| b_np := n; b_C := C; b_src := fun _ => src; b_det := fun _ => det; b_act := fun _ => act;
     b_order := seq 0 n; b_S := S; b_del := del |}.
Definition no_C : nat -> nat -> bool := fun _ _ => false.
Definition simple (n : nat) (S : smat) (del : Q) : net R := component n no_C false false false S (fun _ => del).

(** Python's float [%]: the sign of the result is that of [y]. *)
Definition Rmod (x y : R) : R := x - y * IZR (Int_part (x / y)).

(** ** The environment: the speed of light [c] and the wavelengths [wl] *)
Section Comps.
Variable c : Q.
Variable wl : nat -> R.

(** connection.py:41-43 *)
Definition connection : net R :=
  simple 2 (put_re 1 0 (fun _ => 1) (put_re 0 1 (fun _ => 1) zero_S)) 0%Q.

(** waveguides.py:58-66, mzis.py:70-78: what a piece of waveguide needs. *)
Record guide := { g_length : Q; g_ng : Q; g_neff : R; g_wl0 : R; g_loss : R }.

(** waveguides.py:73 [delays[:] = self.ng * self.length / self.env.c] *)
Definition guide_delay (g : guide) : Q := (g_ng g * g_length g / c)%Q.
(** waveguides.py:79-80: without [self.phase]. *)
Definition guide_neff (g : guide) (w : nat) : R :=
  g_neff g - (wl w - g_wl0 g) * (Q2R (g_ng g) - g_neff g) / g_wl0 g.
Definition guide_phase (g : guide) (w : nat) : R :=
  Rmod (2 * PI * guide_neff g w * Q2R (g_length g) / wl w) (2 * PI).
(** waveguides.py:85 [10 ** (-self.loss * self.length / 20)] *)
Definition guide_amp (g : guide) : R := Rpower 10 (- g_loss g * Q2R (g_length g) / 20).

(** waveguides.py:68-70: [float(phase % (2 * np.pi))] *)
Definition stored_phase (phase : R) : R := Rmod phase (2 * PI).
(** waveguides.py:72-91; [ph] is the current value of [self.phase]. *)
Definition waveguide (g : guide) (ph : R) : net R :=
  let phase := fun w => guide_phase g w + ph in
  simple 2
    (both_im 0 1 (fun w => guide_amp g * sin (phase w))
    (both_re 0 1 (fun w => guide_amp g * cos (phase w)) zero_S)) (guide_delay g).

(** mirrors.py:50-60; [R ** 0.5] is nan in torch and 0 here for negative [R]. *)
Definition mirror (Rf : R) : net R :=
  let r := fun _ : nat => sqrt Rf in
  let t := fun _ : nat => sqrt (1 - Rf) in
  simple 2 (put_im 1 0 t (put_im 0 1 t (put_re 1 1 r (put_re 0 0 r zero_S)))) 0%Q.

(** gratingcouplers.py:60-72 *)
Definition grating_sigma (bandwidth : R) : R := 1 / (2 * sqrt (2 * ln 2)) * bandwidth.
Definition grating_amp (Tmax bandwidth wl0 lambda : R) : R :=
  sqrt (Tmax * exp (- (wl0 - lambda) ^ 2 / (2 * grating_sigma bandwidth ^ 2))).
Definition grating_coupler (Rf R_in Tmax bandwidth wl0 : R) : net R :=
  simple 2 (put_im 1 1 (fun _ => Rf) (put_im 0 0 (fun _ => R_in)
    (both_re 0 1 (fun w => grating_amp Tmax bandwidth wl0 (wl w)) zero_S))) 0%Q.

(** mmis.py:85-89; [W i j] is the complex weight from output waveguide [j] to input waveguide [i].
    Whole blocks are assigned. *)
Definition mmi (m n : nat) (W : nat -> nat -> R * R) : net R :=
  simple (m + n) (fun i j _ =>
    if (i <? m)%nat && (m <=? j)%nat then W i (j - m)%nat
    else if (m <=? i)%nat && (j <? m)%nat then W j (i - m)%nat
    else (0, 0)) 0%Q.

(** mmis.py:57-58: default weights of the 1x2 splitter. *)
Definition mmi_default : nat -> nat -> R * R := fun _ _ => (sqrt (5 / 10), 0).

(** terms.py:28-72 *)
Definition term : net R := component 1 no_C false false false zero_S (fun _ => 0%Q).
Definition source : net R := component 1 no_C true false false zero_S (fun _ => 0%Q).
Definition detector : net R := component 1 no_C false true false zero_S (fun _ => 0%Q).

(** directionalcouplers.py:61-71 *)
Definition directional_coupler (coupling : R) : net R :=
  let t := fun _ : nat => sqrt (1 - coupling) in
  let k := fun _ : nat => sqrt coupling in
  simple 4 (both_im 1 3 k (both_im 0 2 k (both_re 2 3 t (both_re 0 1 t zero_S)))) 0%Q.

(** directionalcouplers.py:151-173 *)
Definition coupler_with_length (g : guide) (ph coupling : R) : net R :=
  let kappa := sqrt coupling in
  let tau := sqrt (1 - coupling) in
  let loss := guide_amp g in
  let tc := fun _ : nat => tau * loss * cos ph in
  let ts := fun _ : nat => tau * loss * sin ph in
  let ks := fun _ : nat => - kappa * loss * sin ph in
  let kc := fun _ : nat => kappa * loss * cos ph in
  simple 4 (both_im 2 3 ts (both_re 2 3 tc (both_im 1 3 kc (both_re 1 3 ks
           (both_im 0 2 kc (both_re 0 2 ks (both_im 0 1 ts (both_re 0 1 tc zero_S))))))))
    (guide_delay g).

(** directionalcouplers.py:236-253 *)
Record bend := { r_length : R; r_k0 : R; r_n0 : R; r_de1_k0 : R; r_de1_n0 : R; r_de2_k0 : R; r_de2_n0 : R; r_wl0 : R }.
Definition bend_angle (p : bend) (w : nat) : R :=
  let dwl := wl w - r_wl0 p in
  let dn := r_n0 p + r_de1_n0 p * dwl + 5 / 10 * r_de2_n0 p * dwl ^ 2 in
  let kappa0 := r_k0 p + r_de1_k0 p * dwl + 5 / 10 * r_de2_k0 p * dwl ^ 2 in
  let kappa1 := PI * dn / wl w in
  kappa0 + kappa1 * r_length p.
Definition realistic_coupler (p : bend) : net R :=
  let tau := fun w => cos (bend_angle p w) in
  let kappa := fun w => - sin (bend_angle p w) in
  simple 4 (both_im 1 3 kappa (both_im 0 2 kappa (both_re 2 3 tau (both_re 0 1 tau zero_S)))) 0%Q.

(** mzis.py:82-113.  The product with the loss is only returned; the caller (network.py:419 and
    854-859) uses the matrix that was passed in. *)
Definition mzi (g : guide) (phi theta : R) : net R :=
  let phi0 := guide_phase g in
  let phi1 := fun w => phi0 w + phi in
  simple 4
    (both_im 2 3 (fun w => sin (phi0 w) * cos theta) (both_re 2 3 (fun w => cos (phi0 w) * cos theta)
    (both_im 1 3 (fun w => - sin (phi0 w) * sin theta) (both_re 1 3 (fun w => - cos (phi0 w) * sin theta)
    (both_im 0 2 (fun w => sin (phi1 w) * sin theta) (both_re 0 2 (fun w => cos (phi1 w) * sin theta)
    (both_im 0 1 (fun w => sin (phi1 w) * cos theta) (both_re 0 1 (fun w => cos (phi1 w) * cos theta)
     zero_S)))))))) (guide_delay g).

(** soas.py:57-59 *)
Definition linear_soa (amplification : R) : net R :=
  simple 2 (put_re 0 1 (fun _ => amplification) zero_S) 0%Q.

(** soas.py:117-128 (BaseSoa) and 265-266 (AgrawalSoa: [delays[0] = self.delay]). *)
Definition base_soa (delay : Q) : net R :=
  component 3 (fun i j => (i =? 1)%nat && (j =? 1)%nat) false false true
    (put_re 2 2 (fun _ => 1) (put_re 1 1 (fun _ => 1) (put_re 0 0 (fun _ => 1) zero_S)))
    (fun i => if (i =? 0)%nat then delay else 0%Q).

End Comps.

(** ** Bounded parameters *)
(** Weights are floats, including infinities. *)
Inductive weight := Fin (x : R) | PosInf | NegInf.

(** [torch.sigmoid] *)
Definition sigmoid (x : weight) : R :=
  match x with Fin x => / (1 + exp (- x)) | PosInf => 1 | NegInf => 0 end.

(** nn.py:101-105 [_sigmoid] *)
Definition bounded_value (a b : R) (x : weight) : R := (b - a) * sigmoid x + a.

(** nn.py:108-112 [_inverse_sigmoid]: [1/0.0 = inf], [log(inf) = inf], [log(0.0) = -inf]. *)
Definition inverse_sigmoid (a b d : R) : weight :=
  let scaled := (d - a) / (b - a) in
  if Req_EM_T scaled 0 then NegInf
  else let q := 1 / scaled - 1 in
       if Req_EM_T q 0 then PosInf else Fin (- ln q).

Record bounded := { bp_lo : R; bp_hi : R; bp_weights : list weight }.

(** nn.py:72-98 [__new__] *)
Definition bounded_new (data : list R) (a b : R) : res bounded :=
  if Rle_dec b a then Err ValueError
  else if existsb (fun d => if Rlt_dec d a then true else false) data
       || existsb (fun d => if Rlt_dec b d then true else false) data then Err ValueError
  else Ok {| bp_lo := a; bp_hi := b; bp_weights := map (inverse_sigmoid a b) data |}.

(** nn.py:144-160: the property read in place of the parameter. *)
Definition bounded_read (p : bounded) : list R := map (bounded_value (bp_lo p) (bp_hi p)) (bp_weights p).

(** An optimizer changes a weight in place. *)
Definition bounded_update (p : bounded) (u : nat * weight) : bounded :=
  {| bp_lo := bp_lo p; bp_hi := bp_hi p;
     bp_weights := firstn (fst u) (bp_weights p) ++
       match skipn (fst u) (bp_weights p) with [] => [] | _ :: r => snd u :: r end |}.
Definition bounded_train (p : bounded) (us : list (nat * weight)) : bounded := fold_left bounded_update us p.
