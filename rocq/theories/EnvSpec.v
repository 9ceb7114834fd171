(** What an environment should be, stated without the model's helpers. *)
From Coq Require Import QArith Qabs.
From Verif Require Import Base EnvModel.
Set Implicit Arguments.
Unset Strict Implicit.
Local Open Scope nat_scope.

(** The arguments that can exclude each other. *)
Inductive argname :=
| Adt | Asamplerate | Anum_t | At0 | At1 | At | Abitrate | Abitlength
| Awl | Af | Adwl | Adf | Anum_wl | Anum_f | Awl0 | Af0 | Awl1 | Af1.

Definition is_given (k : kw) (a : argname) : Prop :=
  match a with
  | Adt => k_dt k <> None | Asamplerate => k_samplerate k <> None
  | Anum_t => k_num_t k <> None | At0 => k_t0 k <> None | At1 => k_t1 k <> None
  | At => k_t k <> None | Abitrate => k_bitrate k <> None | Abitlength => k_bitlength k <> None
  | Awl => k_wl k <> None | Af => k_f k <> None | Adwl => k_dwl k <> None | Adf => k_df k <> None
  | Anum_wl => k_num_wl k <> None | Anum_f => k_num_f k <> None
  | Awl0 => k_wl0 k <> None | Af0 => k_f0 k <> None
  | Awl1 => k_wl1 k <> None | Af1 => k_f1 k <> None
  end.

(** At most one argument of each group may be given (the texts of the error messages). *)
Definition groups : list (list argname) :=
  [ [Adt; Asamplerate; At]; [At0; At]; [At1; Anum_t; At]; [Abitrate; Abitlength];
    [Adwl; Adf; Anum_wl; Anum_f; Awl; Af]; [Awl0; Af0; Awl; Af]; [Awl1; Af1; Awl; Af] ].

Definition conflict (k : kw) : Prop :=
  exists g a b, In g groups /\ In a g /\ In b g /\ a <> b /\ is_given k a /\ is_given k b.

(** [n] points at [start], [start + step], [start + 2 step], ... *)
Definition equidistant (l : list Q) (start step : Q) (n : nat) : Prop :=
  length l = n /\ forall i, i < n -> (nth i l 0 == start + inject_Z (Z.of_nat i) * step)%Q.

(** Two grids with the same points. *)
Definition same_points (a b : list Q) : Prop := Forall2 Qeq a b.

(** No argument about time, wavelengths, bits is given. *)
Definition no_time (k : kw) : Prop :=
  k_t k = None /\ k_dt k = None /\ k_samplerate k = None /\ k_num_t k = None /\
  k_t0 k = None /\ k_t1 k = None.
Definition no_wave (k : kw) : Prop :=
  k_wl k = None /\ k_f k = None /\ k_num_wl k = None /\ k_num_f k = None /\ k_dwl k = None /\
  k_df k = None /\ k_wl0 k = None /\ k_f0 k = None /\ k_wl1 k = None /\ k_f1 k = None.
Definition no_bits (k : kw) : Prop := k_bitrate k = None /\ k_bitlength k = None.

(** Equality of the time part, of the wavelength part, of the bit part of two environments. *)
Definition same_time (a b : environment) : Prop :=
  n_t a = n_t b /\ n_t0 a = n_t0 b /\ n_t1 a = n_t1 b /\ n_num_t a = n_num_t b /\
  n_dt a = n_dt b /\ n_samplerate a = n_samplerate b.
Definition same_wave (a b : environment) : Prop :=
  n_wl a = n_wl b /\ n_wl0 a = n_wl0 b /\ n_wl1 a = n_wl1 b /\ n_num_wl a = n_num_wl b /\
  n_dwl a = n_dwl b.
Definition same_freq (a b : environment) : Prop :=
  n_f a = n_f b /\ n_f0 a = n_f0 b /\ n_f1 a = n_f1 b /\ n_num_f a = n_num_f b /\ n_df a = n_df b.
Definition same_bits (a b : environment) : Prop :=
  n_bitrate a = n_bitrate b /\ n_bitlength a = n_bitlength b.

(** Two sets of arguments that agree about time, or about wavelengths. *)
Definition agree_time (j k : kw) : Prop :=
  k_t j = k_t k /\ k_dt j = k_dt k /\ k_samplerate j = k_samplerate k /\ k_num_t j = k_num_t k /\
  k_t0 j = k_t0 k /\ k_t1 j = k_t1 k.
Definition agree_wave (j k : kw) : Prop :=
  k_wl j = k_wl k /\ k_f j = k_f k /\ k_num_wl j = k_num_wl k /\ k_num_f j = k_num_f k /\
  k_dwl j = k_dwl k /\ k_df j = k_df k /\ k_wl0 j = k_wl0 k /\ k_f0 j = k_f0 k /\
  k_wl1 j = k_wl1 k /\ k_f1 j = k_f1 k /\ k_c j = k_c k.
