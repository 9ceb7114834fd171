(** How a drawing of a network should look. *)
From Coq Require Import Reals.
From Verif Require Import Base DrawModel.
Local Open Scope string_scope.
Local Open Scope list_scope.

(** The boxes around the names of components, by class. *)
Definition boxes : list (string * option string) :=
  [("object", Some "C1"); ("Component", Some "C1"); ("Waveguide", None); ("Connection", None); ("Term", None);
   ("DirectionalCoupler", Some "C0"); ("DirectionalCouplerWithLength", Some "C0"); ("RealisticDirectionalCoupler", Some "C0");
   ("Mirror", Some "C0"); ("Source", Some "C3"); ("Detector", Some "C2"); ("GratingCoupler", Some "C6"); ("Soa", Some "C4")].

(** The first class with a box of its own, from the class of the component upwards. *)
Inductive boxed : pycls -> option string -> Prop :=
  | boxed_own n b c : In (n, c) boxes -> boxed (Cls n b) c
  | boxed_base n b c : ~ In n (map fst boxes) -> boxed b c -> boxed (Cls n (Some b)) c.

(** All classes descend from [object]. *)
Inductive descends : pycls -> Prop :=
  | desc_object : descends (Cls "object" None)
  | desc_base n b : descends b -> descends (Cls n (Some b)).

(** The number of edges between two nodes. *)
Fixpoint edges_between (a b : string) (es : list (string * string)) : nat :=
  match es with
  | [] => 0
  | (u, v) :: r => (if (String.eqb u a && String.eqb v b || String.eqb u b && String.eqb v a)%bool then 1 else 0) + edges_between a b r
  end.

(** The length of a vector, and the angle between two vectors measured by their products. *)
Definition dist (p q : R * R) : R := sqrt ((fst q - fst p) ^ 2 + (snd q - snd p) ^ 2)%R.
Definition along (p q m : R * R) : R := ((fst m - fst p) * (fst q - fst p) + (snd m - snd p) * (snd q - snd p))%R.
(** [arctan2 y x] is the direction of the vector [(x, y)]. *)
Definition direction (arctan2 : R -> R -> R) : Prop := forall y x,
  (sqrt (x ^ 2 + y ^ 2) * cos (arctan2 y x) = x /\ sqrt (x ^ 2 + y ^ 2) * sin (arctan2 y x) = y)%R.
