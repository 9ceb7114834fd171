(** What programs on shared objects ought to do. *)
From Verif Require Import Base PyStr NetModel ObjModel.
Set Implicit Arguments.
Unset Strict Implicit.

Section Spec.
Variables (X D : Type).
Notation state := (state X D).
Notation obj := (obj X D).

Definition object (s : state) (l : nat) (o : obj) : Prop := nth_error (st_objs s) l = Some o.
(** Network [l] has the components [cs] and the connections [conns]. *)
Definition circuit_of (s : state) (l : nat) (cs : list (string * nat)) (conns : list string) : Prop :=
  exists n c f i x, object s l (ONet n c cs f i) /\ nth_error (st_sh s) i = Some x /\ sh_conns x = conns.
(** Objects [l] and [k] are the same network or shallow copies of each other. *)
Definition twins (s : state) (l k : nat) : Prop :=
  exists n c cs f n' c' cs' f' i, object s l (ONet n c cs f i) /\ object s k (ONet n' c' cs' f' i).
(** Network [l], or a copy of it, is a component of some network. *)
Definition in_use (s : state) (l : nat) : Prop :=
  exists k c, twins s l c /\ exists p cs conns, circuit_of s p cs conns /\ In (k, c) cs.

(** The circuit an object stands for: networks are replaced by their components and connections. *)
Inductive unfolds (s : state) : nat -> comp X D -> Prop :=
| un_leaf l n b : object s l (OComp n b) -> unfolds s l (Leaf b)
| un_net l cs conns ts : circuit_of s l cs conns -> unfolds_all s cs ts -> unfolds s l (Net ts conns)
with unfolds_all (s : state) : list (string * nat) -> list (string * comp X D) -> Prop :=
| un_nil : unfolds_all s [] []
| un_cons k l t cs ts : unfolds s l t -> unfolds_all s cs ts -> unfolds_all s ((k, l) :: cs) ((k, t) :: ts).
End Spec.
