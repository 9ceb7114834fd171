(** What environments and components print: [__repr__], [__str__] and [_repr_html_]
    (photontorch/environment/environment.py:46-107 and 498-551, photontorch/components/component.py:223-232).
    Numbers are rationals as in EnvModel.v, so there is no minus zero, inf or nan.  No proofs in this file. *)
From Coq Require Import QArith Qabs Qround.
From Verif Require Import Base PyStr EnvModel EnvKwModel.
Set Implicit Arguments.
Unset Strict Implicit.
Local Open Scope string_scope.
Local Open Scope list_scope.
Local Open Scope nat_scope.

(** *** ["%.3e" % q] *)
Definition ten (e : Z) : Q := Qpower 10 e.
(** The number of decimal digits. *)
Definition ndigits (n : Z) : Z := Z.of_nat (String.length (dec (Z.to_N n))).
(** The exponent of a positive number: 10^e <= a < 10^(e+1). *)
Definition expo (a : Q) : Z :=
  let e := (ndigits (Qnum a) - ndigits (QDen a))%Z in
  if Qle_bool (ten e) a then e else (e - 1)%Z.
(** To the nearest integer, halves to the even one. *)
Definition half_even (a : Q) : Z :=
  let f := Qfloor a in
  match Qcompare (a - inject_Z f) (1 # 2) with
  | Lt => f
  | Gt => (f + 1)%Z
  | Eq => if Z.even f then f else (f + 1)%Z
  end.
(** The four digits and the exponent of a positive number. *)
Definition sci (a : Q) : Z * Z :=
  let e := expo a in
  let m := half_even (a / ten (e - 3))%Q in
  if (m =? 10000)%Z then (1000%Z, (e + 1)%Z) else (m, e).
(** "d.ddd", and the exponent with its sign and at least two digits. *)
Definition mantissa (m : Z) : string :=
  match dec (Z.to_N m) with String c r => String c (String "." r) | EmptyString => "" end.
Definition exponent (e : Z) : string :=
  let d := dec (Z.abs_N e) in
  ((if (e <? 0)%Z then "-" else "+") ++ (if (Z.abs e <? 10)%Z then "0" ++ d else d))%string.
Definition fmt (q : Q) : string :=
  if Qeq_bool q 0 then "0.000e+00"
  else let '(m, e) := sci (Qabs q) in
       ((if Qle_bool q 0 then "-" else "") ++ mantissa m ++ "e" ++ exponent e)%string.

(** [sep.join(l)]. *)
Fixpoint join (sep : string) (l : list string) : string :=
  match l with [] => "" | [s] => s | s :: r => (s ++ sep ++ join sep r)%string end.

(** Lines 78-86 and 88-98: [__repr__] and [__str__] of a one-dimensional [_Array]. *)
Definition arr_body (sep : string) (l : list Q) : string :=
  ("[" ++ (if (4 <? length l)%nat then fmt (nth 0 l 0%Q) ++ ", " ++ fmt (nth 1 l 0%Q) ++ ", ..., " ++ fmt (last l 0%Q)
           else join sep (map fmt l)) ++ "]")%string.
Definition arr_repr (l : list Q) : string := ("array(" ++ arr_body ", " l ++ ")")%string.
Definition arr_str (l : list Q) : res string :=
  match l with
  | [] => Err TypeError (* float() of an array without elements *)
  | [q] => Ok (fmt q)
  | _ => Ok (arr_body "," l)
  end.

Section Env.
(** [repr] of strings and of all other objects, and [str] of the latter. *)
Variables (str_repr : string -> string) (other_repr other_str : val -> string).

(** Is the array in attribute [k] an [_Array]?  The environment's own ones are (lines 369, 379, 391), and the
    extra ones that [copy] has marked (line 142). *)
Definition own_array (k : string) (v : pv) : bool := mem k ["t"; "wl"; "f"] || v_mark v.

(** Lines 503-506 (518-521): a float, or [repr] of something else. *)
Definition attr_repr (k : string) (v : pv) : string :=
  match v_val v with
  | VNone => "None"
  | VBool b => if b then "True" else "False"
  | VInt z => dec_Z z
  | VNum q => fmt q
  | VStr s => str_repr s
  | VArr (Vec l) => if own_array k v then arr_repr l else other_repr (v_val v)
  | x => other_repr x
  end.
(** Lines 546-549: a float, or [str] of something else. *)
Definition attr_str (k : string) (v : pv) : res string :=
  match v_val v with
  | VNone => Ok "None"
  | VBool b => Ok (if b then "True" else "False")
  | VInt z => Ok (dec_Z z)
  | VNum q => Ok (fmt q)
  | VStr s => Ok s
  | VArr (Vec l) => if own_array k v then arr_str l else Ok (other_str (v_val v))
  | x => Ok (other_str x)
  end.

(** [k.startswith("_") or k in self._synonyms] are skipped (lines 501, 516, 544). *)
Definition shown (d : dict) : dict := filter (fun e => copied (fst e)) d.

(** [s[:-n]]. *)
Definition drop_last (n : nat) (s : string) : string := substring 0 (String.length s - n) s.
(** Lines 498-508. *)
Definition env_repr (d : dict) : string :=
  let s := fold_left (fun s e => s ++ fst e ++ "=" ++ attr_repr (fst e) (snd e) ++ ", ")%string (shown d) "Environment(" in
  (drop_last 2 s ++ ")")%string.

Fixpoint spaces (n : nat) : string := match n with 0 => "" | S n => String " " (spaces n) end.
Definition newline : string := String (Ascii.ascii_of_nat 10) "".
(** Lines 510-527; [max] of nothing raises ValueError. *)
Definition env_str (d : dict) : res string :=
  match shown d with
  | [] => Err ValueError
  | _ =>
      let w := list_max (map (fun e => String.length (fst e)) (shown d)) + 1 in
      Ok (fold_left (fun s e => s ++ fst e ++ spaces (w - String.length (fst e)) ++ ": " ++ attr_repr (fst e) (snd e) ++ newline)%string
            (shown d) ("Simulation Environment:" ++ newline ++ "-----------------------" ++ newline)%string)
  end.

(** Lines 530-540: the descriptions in the documentation of the constructor (lines 194-216), without what is
    in parentheses. *)
Definition descriptions : list (string * string) :=
  [("t", "[s] full 1D time array."); ("t0", "[s] starting time of the simulation."); ("t1", "[s] ending time of the simulation.");
   ("num_t", "number of timesteps in the simulation."); ("dt", "[s] timestep of the simulation");
   ("samplerate", "[1/s] samplerate of the simulation."); ("bitrate", "[1/s] bitrate of the signal."); ("bitlength", "[s] bitlength of the signal.");
   ("wl", "[m] full 1D wavelength array."); ("wl0", "[m] start of wavelength range."); ("wl1", "[m] end of wavelength range.");
   ("num_wl", "number of independent wavelengths in the simulation"); ("dwl", "[m] wavelength step sizebetween wl0 and wl1.");
   ("f", "[1/s] full 1D frequency array."); ("f0", "[1/s] start of frequency range."); ("f1", "[1/s] end of frequency range.");
   ("num_f", "number of independent frequencies in the simulation"); ("df", "[1/s] frequency step between f0 and f1.");
   ("c", "[m/s] speed of light used during simulations."); ("freqdomain", "only do frequency domain calculations.");
   ("grad", "track gradients during the simulation"); ("name", "name of the environment");
   ("**kwargs", "any number of extra keyword arguments will be stored as attributes to the environment.")].
Definition html_row (k v t : string) : string :=
  ("<tr><th>" ++ k ++ "</th><td>" ++ v ++ "</td><td>" ++ t ++ "</td></tr>" ++ newline)%string.
Definition html_head : string :=
  ("<div>" ++ newline ++ "<table>" ++ newline ++ "<thead>" ++ newline ++ "<tr>" ++ newline ++ "<th>key</th>" ++ newline
   ++ "<th>value</th>" ++ newline ++ "<th>description</th>" ++ newline ++ "</tr>" ++ newline ++ "</thead>" ++ newline ++ "<tbody>" ++ newline)%string.
(** Lines 541-551. *)
Definition describe (k : string) : string := match assoc String.eqb k descriptions with Some t => t | None => "" end.
Definition env_html (d : dict) : res string :=
  do rows <- mapM (fun e => do v <- attr_str (fst e) (snd e); Ok (html_row (fst e) v (describe (fst e)))) (shown d);
  Ok (fold_left append rows html_head ++ "</tbody>" ++ newline ++ "</table>" ++ newline ++ "</div>")%string.
End Env.

(** component.py:223-232: [__repr__] and [__str__] of a component of class [cls]. *)
Definition comp_repr (cls : string) (name : option string) : string :=
  match name with None => cls | Some n => (cls ++ "(name=""" ++ n ++ """)")%string end.
