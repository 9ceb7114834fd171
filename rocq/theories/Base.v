(** Results, exceptions and list helpers shared by all models. *)
From Coq Require Export Bool String Ascii Arith ZArith NArith Lia List.
Export ListNotations.
Set Implicit Arguments.

(** The Python exception classes that the modelled code can raise (directly, or through the
    Python / numpy / torch operation it uses). *)
Inductive exn :=
| ValueError | IndexError | KeyError | AttributeError | RuntimeError | TypeError
| NameError | ZeroDivisionError | UnboundLocalError.

(** Outcome of a call: a value or a raised exception. *)
Inductive res (A : Type) := Ok (a : A) | Err (e : exn).
Arguments Ok {A} a.
Arguments Err {A} e.

Definition bind {A B} (r : res A) (f : A -> res B) : res B :=
  match r with Ok a => f a | Err e => Err e end.
Notation "'do' x <- r ; k" := (bind r (fun x => k))
  (at level 200, x pattern, r at level 100, k at level 200).

Definition of_option {A} (e : exn) (o : option A) : res A :=
  match o with Some a => Ok a | None => Err e end.

(** Python list indexing [l[i]]: negative indices count from the end, [IndexError] outside. *)
Definition py_index {A} (l : list A) (i : Z) : res A :=
  if (0 <=? i)%Z then of_option IndexError (nth_error l (Z.to_nat i))
  else if (- Z.of_nat (length l) <=? i)%Z
       then of_option IndexError (nth_error l (Z.to_nat (Z.of_nat (length l) + i)))
       else Err IndexError.

(** [mapM f l]: evaluate [f] left to right, stop at the first exception. *)
Fixpoint mapM {A B} (f : A -> res B) (l : list A) : res (list B) :=
  match l with
  | [] => Ok []
  | a :: r => do b <- f a; do bs <- mapM f r; Ok (b :: bs)
  end.

(** [foldM f a l]: loop over [l] with state [a], stop at the first exception. *)
Fixpoint foldM {A B} (f : A -> B -> res A) (a : A) (l : list B) : res A :=
  match l with
  | [] => Ok a
  | b :: r => do a' <- f a b; foldM f a' r
  end.

(** Python dict as an association list in insertion order. *)
Fixpoint assoc {K V} (eqb : K -> K -> bool) (k : K) (d : list (K * V)) : option V :=
  match d with
  | [] => None
  | (k', v) :: r => if eqb k k' then Some v else assoc eqb k r
  end.

(** [d[k] = v]: replaces the value in place if the key exists, appends otherwise. *)
Fixpoint dict_set {K V} (eqb : K -> K -> bool) (k : K) (v : V) (d : list (K * V)) : list (K * V) :=
  match d with
  | [] => [(k, v)]
  | (k', v') :: r => if eqb k k' then (k', v) :: r else (k', v') :: dict_set eqb k v r
  end.
