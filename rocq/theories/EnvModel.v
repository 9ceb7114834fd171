(** The simulation environment (photontorch/environment/environment.py) over exact rationals.
    Simplifications: floats are rationals here (FloatModel.v looks at binary64); a division of an
    array by an array element 0, which gives numpy's inf, is read as 0; an argument passed
    explicitly as None is not modelled (bitrate=None and bitlength=None are "not given").  The old
    names of the arguments (lines 222-234) and extra keyword arguments (line 401) are in EnvKwModel.v. *)
From Coq Require Import QArith Qabs.
From Verif Require Import Base SimModel.
Set Implicit Arguments.
Unset Strict Implicit.
Local Open Scope nat_scope.

(** What can be passed for t, wl or f: a number, a one-dimensional array, or an array of more
    dimensions. *)
Inductive arr := Scalar (q : Q) | Vec (l : list Q) | HighDim.

(** The arguments a caller gives: [None] = not given. *)
Record kw := {
  k_dt : option Q; k_samplerate : option Q; k_num_t : option Z; k_t0 : option Q; k_t1 : option Q;
  k_t : option arr; k_bitrate : option Q; k_bitlength : option Q;
  k_wl : option arr; k_f : option arr; k_dwl : option Q; k_df : option Q;
  k_num_wl : option Z; k_num_f : option Z; k_wl0 : option Q; k_f0 : option Q;
  k_wl1 : option Q; k_f1 : option Q; k_c : option Q;
  k_freqdomain : option bool; k_grad : option bool; k_name : option string }.

Definition no_kw : kw :=
  {| k_dt := None; k_samplerate := None; k_num_t := None; k_t0 := None; k_t1 := None;
     k_t := None; k_bitrate := None; k_bitlength := None; k_wl := None; k_f := None;
     k_dwl := None; k_df := None; k_num_wl := None; k_num_f := None; k_wl0 := None;
     k_f0 := None; k_wl1 := None; k_f1 := None; k_c := None; k_freqdomain := None;
     k_grad := None; k_name := None |}.

(** Values used for the arguments not given: the defaults of the signature (lines 169-190), or
    in [copy] the values of the copied environment (lines 458-466).  The defaults of samplerate,
    num_t, bitlength, f, df, num_wl and num_f are never read by the constructor. *)
Record dflt := {
  d_dt : Q; d_t0 : Q; d_t1 : Q; d_t : arr; d_bitrate : option Q; d_wl : arr; d_dwl : Q;
  d_wl0 : Q; d_f0 : Q; d_wl1 : Q; d_f1 : Q; d_c : Q;
  d_freqdomain : bool; d_grad : bool; d_name : string }.

Definition get {A} (o : option A) (d : A) : A := match o with Some a => a | None => d end.
Definition given {A} (o : option A) : bool := match o with Some _ => true | None => false end.

(** Number of given arguments among a list of flags: [sum([not _is_default(v) for v in ...])]. *)
Definition many (l : list bool) : nat := length (filter (fun b => b) l).

(** Python division of numbers. *)
Definition pydiv (a b : Q) : res Q :=
  if Qeq_bool b 0 then Err ZeroDivisionError else Ok (a / b)%Q.

(** environment.py:114-122 [_arange]. *)
Definition arange (start stop step : Q) : res (list Q) :=
  do q <- pydiv (stop - start) step;
  let num := long q in
  if (num =? 0)%Z then Ok [start]
  else if (0 <? num)%Z
       then Ok (map (fun i => start + step * inject_Z (Z.of_nat i))%Q (seq 0 (Z.to_nat num)))
       else Ok (map (fun i => start + step * inject_Z (- Z.of_nat i))%Q (seq 0 (Z.to_nat (- num)))).

(** [np.linspace(start, stop, num, endpoint=False)]. *)
Definition linspace (start stop : Q) (num : Z) : res (list Q) :=
  if (num <? 0)%Z then Err ValueError
  else Ok (map (fun i => inject_Z (Z.of_nat i) * ((stop - start) / inject_Z num) + start)%Q
               (seq 0 (Z.to_nat num))).

(** environment.py:282-293, 310-323: make an array one-dimensional. *)
Definition flat (a : arr) : res (list Q) :=
  match a with Scalar q => Ok [q] | Vec l => Ok l | HighDim => Err ValueError end.

(** [c / f] for a number or an array. *)
Definition cover (c : Q) (f : arr) : res arr :=
  match f with
  | Scalar q => do r <- pydiv c q; Ok (Scalar r)
  | Vec l => Ok (Vec (map (fun q => c / q)%Q l))
  | HighDim => Ok HighDim
  end.

Section Construct.
Variable (d : dflt) (k : kw).

(** environment.py:236-271: arguments that exclude each other, dt >= 0, t0 <= t1. *)
Definition checks : res unit :=
  if 1 <? many [given (k_dt k); given (k_samplerate k); given (k_t k)] then Err ValueError
  else if given (k_t0 k) && given (k_t k) then Err ValueError
  else if 1 <? many [given (k_t1 k); given (k_num_t k); given (k_t k)] then Err ValueError
  else if given (k_bitrate k) && given (k_bitlength k) then Err ValueError
  else if given (k_wl k) && given (k_f k) then Err ValueError
  else if 1 <? many [given (k_dwl k); given (k_df k); given (k_num_wl k); given (k_num_f k);
                     given (k_wl k); given (k_f k)] then Err ValueError
  else if 1 <? many [given (k_wl0 k); given (k_f0 k); given (k_wl k); given (k_f k)]
       then Err ValueError
  else if 1 <? many [given (k_wl1 k); given (k_f1 k); given (k_wl k); given (k_f k)]
       then Err ValueError
  else if negb (Qle_bool 0 (get (k_dt k) (d_dt d))) then Err ValueError
  else if negb (Qle_bool (get (k_t0 k) (d_t0 d)) (get (k_t1 k) (d_t1 d))) then Err ValueError
  else Ok tt.

(** environment.py:273-274. *)
Definition bitrate_of : res (option Q) :=
  match k_bitlength k with
  | Some b => do r <- pydiv 1 b; Ok (Some r)
  | None => match k_bitrate k with Some b => Ok (Some b) | None => Ok (d_bitrate d) end
  end.

(** environment.py:276-304. *)
Definition time_grid : res (list Q) :=
  if given (k_t k)
     || (many [given (k_dt k); given (k_samplerate k); given (k_num_t k); given (k_t0 k);
               given (k_t1 k)] =? 0)
  then flat (get (k_t k) (d_t d))
  else
    do dt <- match k_samplerate k with
             | Some s => pydiv 1 s
             | None => Ok (get (k_dt k) (d_dt d))
             end;
    let t0 := get (k_t0 k) (d_t0 d) in
    match k_num_t k with
    | Some n => linspace t0 (t0 + inject_Z n * dt) n
    | None => arange t0 (get (k_t1 k) (d_t1 d)) dt
    end.

(** The speed of light in use. *)
Definition light : Q := get (k_c k) (d_c d).

(** environment.py:325-331 and 340-346: the frequency range for num_f and df.  Line 329 (343)
    computes the frequency belonging to wl1 from wl0. *)
Definition freq_ends : res (Q * Q) :=
  do f1 <- match k_wl0 k with
           | Some w => pydiv light w
           | None => Ok (get (k_f1 k) (d_f1 d))
           end;
  do f0 <- match k_wl1 k with
           | Some _ => pydiv light (get (k_wl0 k) (d_wl0 d))
           | None => Ok (get (k_f0 k) (d_f0 d))
           end;
  Ok (f0, f1).

(** environment.py:306-366. *)
Definition wl_grid : res (list Q) :=
  if given (k_wl k) || given (k_f k)
     || (many [given (k_num_wl k); given (k_num_f k); given (k_dwl k); given (k_df k);
               given (k_wl0 k); given (k_f0 k); given (k_wl1 k); given (k_f1 k)] =? 0)
  then
    do wl <- match k_f k with
             | Some f => cover light f
             | None => Ok (get (k_wl k) (d_wl d))
             end;
    flat wl
  else
    match k_num_f k, k_df k with
    | Some n, _ =>
        do ends <- freq_ends;
        let '(f0, f1) := ends in
        do df <- pydiv (f1 - f0) (inject_Z n);
        do f <- arange f0 f1 df;
        Ok (map (fun q => light / q)%Q f)
    | None, Some df =>
        do ends <- freq_ends;
        let '(f0, f1) := ends in
        do f <- arange f0 f1 (if Qle_bool f0 f1 then Qabs df else - Qabs df)%Q;
        Ok (map (fun q => light / q)%Q f)
    | None, None =>
        do wl0 <- match k_f0 k with
                  | Some f => pydiv light f
                  | None => Ok (get (k_wl0 k) (d_wl0 d))
                  end;
        do wl1 <- match k_f1 k with
                  | Some f => pydiv light f
                  | None => Ok (get (k_wl1 k) (d_wl1 d))
                  end;
        do dwl <- match k_num_wl k with
                  | Some n => pydiv (wl1 - wl0) (inject_Z n)
                  | None => Ok (get (k_dwl k) (d_dwl d))
                  end;
        arange wl0 wl1 dwl
    end.

End Construct.

(** The attributes of an environment (lines 368-400). *)
Record environment := {
  n_name : string;
  n_t : list Q; n_t0 : Q; n_t1 : option Q; n_num_t : nat; n_dt : option Q; n_samplerate : option Q;
  n_bitrate : option Q; n_bitlength : option Q;
  n_wl : list Q; n_wl0 : Q; n_wl1 : option Q; n_num_wl : nat; n_dwl : option Q;
  n_f : list Q; n_f0 : Q; n_f1 : option Q; n_num_f : nat; n_df : option Q;
  n_c : Q; n_freqdomain : bool; n_grad : bool }.

(** [l[0]]. *)
Definition head (l : list Q) : res Q := match l with a :: _ => Ok a | [] => Err IndexError end.

(** [None if l.shape[0] < 2 else l[1] - l[0]]. *)
Definition step_of (l : list Q) : option Q :=
  match l with a :: b :: _ => Some (b - a)%Q | _ => None end.

(** [None if l.shape[0] < 2 else l[-1] + (l[1] - l[0])] (line 373). *)
Definition end_first (l : list Q) : option Q :=
  match l with a :: b :: _ => Some (last l 0 + (b - a))%Q | _ => None end.

(** [None if l.shape[0] < 2 else l[-1] + (l[-1] - l[-2])] (lines 382-386, 393-397). *)
Definition end_last (l : list Q) : option Q :=
  match rev l with z :: y :: _ => Some (z + (z - y))%Q | _ => None end.

(** environment.py:169-412: the constructor. *)
Definition construct (d : dflt) (k : kw) : res environment :=
  do _ <- checks d k;
  do bitrate <- bitrate_of d k;
  do t' <- time_grid d k;
  let freqdomain := get (k_freqdomain k) (d_freqdomain d) in
  let t := if freqdomain then firstn 1 t' else t' in
  let bitrate := if freqdomain then None else bitrate in
  do wl <- wl_grid d k;
  let c := light d k in
  do t0 <- head t;
  do samplerate <- match step_of t with
                   | Some dt => do r <- pydiv 1 dt; Ok (Some r)
                   | None => Ok None
                   end;
  do bitlength <- match bitrate with
                  | Some b => do r <- pydiv 1 b; Ok (Some r)
                  | None => Ok None
                  end;
  do wl0 <- head wl;
  let f := map (fun q => c / q)%Q wl in
  do f0 <- head f;
  Ok {| n_name := get (k_name k) (d_name d);
        n_t := t; n_t0 := t0; n_t1 := end_first t; n_num_t := length t; n_dt := step_of t;
        n_samplerate := samplerate; n_bitrate := bitrate; n_bitlength := bitlength;
        n_wl := wl; n_wl0 := wl0; n_wl1 := end_last wl; n_num_wl := length wl;
        n_dwl := step_of wl;
        n_f := f; n_f0 := f0; n_f1 := end_last f; n_num_f := length f; n_df := step_of f;
        n_c := c; n_freqdomain := freqdomain;
        n_grad := get (k_grad k) (d_grad d) |}.

(** environment.py:169-190: the defaults of the signature. *)
Definition class_defaults : dflt :=
  {| d_dt := 1 # 100000000000000; d_t0 := 0; d_t1 := 1 # 1000000000000;
     d_t := Vec (map (fun i => 0 + (1 # 100000000000000) * inject_Z (Z.of_nat i))%Q (seq 0 100));
     d_bitrate := None;
     d_wl := Scalar (155 # 100000000); d_dwl := 1 # 1000000000;
     d_wl0 := 15 # 10000000; d_f0 := 299792458 / (16 # 10000000);
     d_wl1 := 16 # 10000000; d_f1 := 299792458 / (15 # 10000000);
     d_c := 299792458; d_freqdomain := false; d_grad := false; d_name := "env"%string |}.

(** [Environment(...)]. *)
Definition Environment (k : kw) : res environment := construct class_defaults k.

(** environment.py:453-466: the values of an environment as defaults; attributes that are None
    fall back to the defaults of the signature. *)
Definition as_defaults (e : environment) : dflt :=
  {| d_dt := get (n_dt e) (d_dt class_defaults); d_t0 := n_t0 e;
     d_t1 := get (n_t1 e) (d_t1 class_defaults); d_t := Vec (n_t e);
     d_bitrate := n_bitrate e; d_wl := Vec (n_wl e);
     d_dwl := get (n_dwl e) (d_dwl class_defaults); d_wl0 := n_wl0 e; d_f0 := n_f0 e;
     d_wl1 := get (n_wl1 e) (d_wl1 class_defaults); d_f1 := get (n_f1 e) (d_f1 class_defaults);
     d_c := n_c e; d_freqdomain := n_freqdomain e; d_grad := n_grad e; d_name := n_name e |}.

(** [env.copy(...)]. *)
Definition copy (e : environment) (k : kw) : res environment := construct (as_defaults e) k.

(** environment.py:483-496: equality compares every attribute except the arrays. *)
Definition oeqb (a b : option Q) : bool :=
  match a, b with
  | Some x, Some y => Qeq_bool x y
  | None, None => true
  | _, _ => false
  end.

Definition env_eqb (a b : environment) : bool :=
  String.eqb (n_name a) (n_name b) &&
  Qeq_bool (n_t0 a) (n_t0 b) && oeqb (n_t1 a) (n_t1 b) && Nat.eqb (n_num_t a) (n_num_t b) &&
  oeqb (n_dt a) (n_dt b) && oeqb (n_samplerate a) (n_samplerate b) &&
  oeqb (n_bitrate a) (n_bitrate b) && oeqb (n_bitlength a) (n_bitlength b) &&
  Qeq_bool (n_wl0 a) (n_wl0 b) && oeqb (n_wl1 a) (n_wl1 b) && Nat.eqb (n_num_wl a) (n_num_wl b) &&
  oeqb (n_dwl a) (n_dwl b) &&
  Qeq_bool (n_f0 a) (n_f0 b) && oeqb (n_f1 a) (n_f1 b) && Nat.eqb (n_num_f a) (n_num_f b) &&
  oeqb (n_df a) (n_df b) && Qeq_bool (n_c a) (n_c b) &&
  Bool.eqb (n_freqdomain a) (n_freqdomain b) && Bool.eqb (n_grad a) (n_grad b).

(** What the simulation reads from an environment (SimModel.v). *)
Definition sim_env (e : environment) : env :=
  {| e_freq := n_freqdomain e; e_dt := n_dt e; e_num_t := n_num_t e; e_num_wl := n_num_wl e |}.

(** ** Attribute assignment (environment.py:553-571) *)
(** An object under construction or finished: its attributes and the flag [_initialized]. *)
Record object (V : Type) := { o_dict : list (string * V); o_locked : bool }.

(** An attempt to change it: [obj.name = v] or [obj[name] = v]. *)
Inductive attempt (V : Type) := SetAttr (name : string) (v : V) | SetItem (name : string) (v : V).
Arguments SetAttr {V}. Arguments SetItem {V}.

(** [object] has no [__setitem__], so item assignment fails with AttributeError in any case. *)
Definition try_set {V} (o : object V) (a : attempt V) : object V * res unit :=
  match a with
  | SetAttr n v =>
      if o_locked o then (o, Err AttributeError)
      else ({| o_dict := dict_set String.eqb n v (o_dict o); o_locked := o_locked o |}, Ok tt)
  | SetItem _ _ => (o, Err AttributeError)
  end.

Fixpoint try_all {V} (o : object V) (l : list (attempt V)) : object V * list (res unit) :=
  match l with
  | [] => (o, [])
  | a :: r => let '(o1, x) := try_set o a in
              let '(o2, xs) := try_all o1 r in (o2, x :: xs)
  end.
