(** Reading printed numbers, and what a printed environment should contain. *)
From Coq Require Import QArith.
From Verif Require Import Base PyStr.
Set Implicit Arguments.
Unset Strict Implicit.
Local Open Scope string_scope.

(** What comes before and after the first [a]. *)
Fixpoint cut_at (a : ascii) (s : string) : option (string * string) :=
  match s with
  | "" => None
  | String c r => if Ascii.eqb c a then Some ("", r)
                  else match cut_at a r with Some (x, y) => Some (String c x, y) | None => None end
  end.

(** The number written as digits, a point, digits, "e" and an integer. *)
Definition read_pos (s : string) : option Q :=
  match cut_at "e" s with
  | Some (ms, es) =>
      match cut_at "." ms with
      | Some (i, f) =>
          match py_int (i ++ f), py_int es with
          | Some m, Some e => Some (inject_Z m * Qpower 10 (e - Z.of_nat (String.length f)))%Q
          | _, _ => None
          end
      | None => None
      end
  | None => None
  end.
Definition read (s : string) : option Q :=
  match s with
  | String "-" r => match read_pos r with Some v => Some (- v)%Q | None => None end
  | _ => read_pos s
  end.

(** Only spaces. *)
Fixpoint blank (s : string) : Prop := match s with "" => True | String c r => c = " "%char /\ blank r end.

(** The attributes of an environment that are shown, in order, if there are no extra ones. *)
Definition public : list string :=
  ["name"; "t"; "t0"; "t1"; "num_t"; "dt"; "samplerate"; "bitrate"; "bitlength"; "wl"; "wl0"; "wl1"; "num_wl"; "dwl";
   "f"; "f0"; "f1"; "num_f"; "df"; "c"; "freqdomain"; "grad"].

(** Numbers with four significant digits. *)
Definition four_digits (m : Z) (w : Q) : Prop := (1000 <= Z.abs m <= 9999)%Z /\ exists e, (w == inject_Z m * Qpower 10 e)%Q.

(** "d.ddde+dd": a sign if negative, four digits with a point after the first, the sign and at least two
    digits of the exponent, more only if needed. *)
Definition is_digit (c : ascii) : Prop := exists d, (d < 10)%nat /\ c = Ascii.ascii_of_nat (48 + d).
Fixpoint digits (s : string) : Prop := match s with "" => True | String c r => is_digit c /\ digits r end.
Definition layout (q : Q) (s : string) : Prop :=
  exists d1 d2 d3 d4 sg x z, is_digit d1 /\ digits (String d2 (String d3 (String d4 ""))) /\ digits x /\ (2 <= String.length x)%nat /\
    py_int (String sg x) = Some z /\ ((0 <= z)%Z /\ sg = "+"%char \/ (z < 0)%Z /\ sg = "-"%char) /\
    (String.length x = 2%nat \/ (10 ^ (Z.of_nat (String.length x) - 1) <= Z.abs z)%Z) /\
    s = ((if Qle_bool 0 q then "" else "-") ++ String d1 (String "." (String d2 (String d3 (String d4 (String "e" (String sg x)))))))%string.
