(** The Python string operations photontorch uses to write and read connection strings.
    Strings are ASCII [string]s; Unicode is not modelled. *)
From Verif Require Import Base.
Local Open Scope string_scope.

Definition colon : ascii := ":".

(** Characters removed by [str.strip()] and ignored around the digits by [int(s)] (ASCII part:
    tab, newline, vertical tab, form feed, return, 0x1c-0x1f, space). *)
Definition is_space (c : ascii) : bool :=
  let n := nat_of_ascii c in
  (Nat.leb 9 n && Nat.leb n 13) || (Nat.leb 28 n && Nat.leb n 32).

Fixpoint lstrip (s : string) : string :=
  match s with
  | "" => ""
  | String c r => if is_space c then lstrip r else s
  end.

Fixpoint rstrip (s : string) : string :=
  match s with
  | "" => ""
  | String c r => match rstrip r with
                  | "" => if is_space c then "" else String c ""
                  | r' => String c r'
                  end
  end.

(** [s.strip()] *)
Definition strip (s : string) : string := rstrip (lstrip s).

(** [s.split(":")]: always at least one part. *)
Fixpoint split_colon (s : string) : list string :=
  match s with
  | "" => [""]
  | String c r => if Ascii.eqb c colon then "" :: split_colon r
                  else match split_colon r with
                       | [] => [String c ""]
                       | h :: t => String c h :: t
                       end
  end.

(** [":".join(parts)] *)
Fixpoint join_colon (parts : list string) : string :=
  match parts with
  | [] => ""
  | [p] => p
  | p :: r => p ++ String colon (join_colon r)
  end.

Definition digit_val (c : ascii) : option N :=
  let n := nat_of_ascii c in
  if Nat.leb 48 n && Nat.leb n 57 then Some (N.of_nat (n - 48)) else None.

(** Digits of [int(s)]: single underscores are allowed between digits; [need] says that a digit
    must follow. *)
Fixpoint pdig (need : bool) (s : string) (acc : N) : option N :=
  match s with
  | "" => if need then None else Some acc
  | String c r => match digit_val c with
                  | Some d => pdig false r (10 * acc + d)%N
                  | None => if Ascii.eqb c "_" && negb need then pdig true r acc else None
                  end
  end.

(** [int(s)] for a string [s]; [None] is [ValueError]. *)
Definition py_int (s : string) : option Z :=
  match strip s with
  | String "-" r => option_map (fun n => (- Z.of_N n)%Z) (pdig true r 0)
  | String "+" r => option_map Z.of_N (pdig true r 0)
  | s' => option_map Z.of_N (pdig true s' 0)
  end.

Definition digit_char (d : N) : ascii := ascii_of_N (48 + d).

Fixpoint dec_aux (fuel : nat) (n : N) (acc : string) : string :=
  match fuel with
  | O => acc
  | S f => let acc' := String (digit_char (n mod 10)) acc in
           if (n / 10 =? 0)%N then acc' else dec_aux f (n / 10) acc'
  end.

(** ["%i" % n] / [str(n)] for a non-negative integer. *)
Definition dec (n : N) : string := dec_aux (S (N.size_nat n)) n "".

(** ["%i" % z] / [str(z)] for any integer. *)
Definition dec_Z (z : Z) : string :=
  match z with
  | Zneg p => String "-" (dec (Npos p))
  | _ => dec (Z.to_N z)
  end.

Definition dec_nat (n : nat) : string := dec (N.of_nat n).
