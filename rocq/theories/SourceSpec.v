(** What a source means: a value for every assignment of positions to dimension names. *)
From Verif Require Import Base SourceModel.
Set Implicit Arguments.
Unset Strict Implicit.
Local Open Scope nat_scope.

Section Spec.
Variable K : Type.

(** A position: one index for each name. *)
Definition position := dim -> nat.

(** A source with named dimensions: the dimensions with their sizes, and the value at a position. *)
Definition read (sh : list (dim * nat)) (v : list nat -> K) (p : position) : K :=
  v (map (fun q => p (fst q)) sh).

(** Size of a dimension; a dimension that is not there counts as one. *)
Fixpoint width (sh : list (dim * nat)) (d : dim) : nat :=
  match sh with
  | [] => 1
  | (d', n) :: r => if dim_eqb d d' then n else width r d
  end.

(** In a dimension of size one every position reads the single entry. *)
Definition repeated (sh : list (dim * nat)) (p : position) : position :=
  fun d => if width sh d =? 1 then 0 else p d.

Definition at_pos (c t w s b : nat) : position :=
  fun d => match d with DC => c | DT => t | DW => w | DS => s | DB => b end.

(** The same named values, whatever the order of the dimensions. *)
Definition same_values (sh sh' : list (dim * nat)) (v v' : list nat -> K) : Prop :=
  (forall d, width sh d = width sh' d) /\ forall p, read sh v p = read sh' v' p.

Definition distinct (sh : list (dim * nat)) : Prop := NoDup (map fst sh).

(** A tensor with these names. *)
Definition named (sh : list (dim * nat)) (v : list nat -> K) : source K :=
  Tensor (map (fun p => (Named (fst p), snd p)) sh) v.

(** Equal results: equal sizes and equal values everywhere. *)
Definition same_block (x y : block K) : Prop :=
  b_c x = b_c y /\ b_t x = b_t y /\ b_w x = b_w y /\ b_s x = b_s y /\ b_b x = b_b y /\
  forall c t w s b, b_val x c t w s b = b_val y c t w s b.

Definition same_res (x y : res (block K)) : Prop :=
  match x, y with
  | Ok a, Ok b => same_block a b
  | Err a, Err b => a = b
  | _, _ => False
  end.

End Spec.
