(** When two circuits are the same up to the numbers of their ports, the names of their components and the order of
    their links, and when one is the other with a subnetwork taken apart. *)
From Coq Require Import QArith.
From Verif Require Import Base PyStr NetModel NetSpec SimModel SimAlg.
Set Implicit Arguments.
Unset Strict Implicit.
Local Open Scope nat_scope.
Local Open Scope list_scope.

Section S.
Variables (K : Type).
Notation cx := (prod K K).
Notation net := (buf (nat -> cx) Q).
Notation comps := (list (string * net)).
Notation parts c := (map strip (split_colon c)).

(** Port [i] of [b] is port [f i] of [b']; [g] is the way back. *)
Record relabels (f g : nat -> nat) (b b' : net) : Prop := {
  rl_np : b_np b' = b_np b;
  rl_f : forall i, i < b_np b -> f i < b_np b /\ g (f i) = i;
  rl_g : forall i, i < b_np b -> g i < b_np b /\ f (g i) = i;
  rl_C : forall i j, i < b_np b -> j < b_np b -> b_C b' (f i) (f j) = b_C b i j;
  rl_S : forall i j w, i < b_np b -> j < b_np b -> b_S b' (f i) (f j) w = b_S b i j w;
  rl_at : forall i, i < b_np b -> b_src b' (f i) = b_src b i /\ b_det b' (f i) = b_det b i
            /\ b_act b' (f i) = b_act b i /\ b_del b' (f i) = b_del b i }.

(** The connection [c'] says of components [h n] what [c] says of components [n], perhaps from the other end. *)
Inductive same_link (h : string -> string) (c c' : string) : Prop :=
| sl_wire n1 p1 n2 p2 : parts c = [n1; p1; n2; p2] -> py_int p1 <> None -> py_int p2 <> None ->
    parts c' = [h n1; p1; h n2; p2] \/ parts c' = [h n2; p2; h n1; p1] -> same_link h c c'
| sl_ext n p z : parts c = [n; p; z] -> py_int p <> None -> py_int z <> None -> parts c' = [h n; p; z] -> same_link h c c'.

(** [c'] can take the place of [c]: only its ports have other numbers, and its free ports come in the same order. *)
Record stands_for (f g : nat -> nat) (c c' : net) : Prop := {
  sf_same : relabels f g c c';
  sf_free : forall fl, free_list c (b_order c) fl -> free_list c' (b_order c') (map f fl) }.

Record same_mods (h hi : string -> string) (fs gs : string -> nat -> nat) (mods mods' : comps) : Prop := {
  sm_to : forall n c, assoc String.eqb n mods = Some c -> hi (h n) = n /\ (py_int n = None -> py_int (h n) = None)
            /\ exists c', assoc String.eqb (h n) mods' = Some c' /\ stands_for (fs n) (gs n) c c';
  sm_from : forall m c', assoc String.eqb m mods' = Some c' -> h (hi m) = m /\ (py_int m = None -> py_int (hi m) = None)
            /\ exists c, assoc String.eqb (hi m) mods = Some c /\ stands_for (fs (hi m)) (gs (hi m)) c c' }.
Record same_links (h hi : string -> string) (conns conns' : list string) : Prop := {
  sk_to : forall c, In c conns -> exists c', In c' conns' /\ same_link h c c';
  sk_from : forall c', In c' conns' -> exists c, In c conns /\ same_link hi c' c }.

Section Flat.
Variables (ccs : comps) (n : string) (child : net) (conns cconns fconns : list string).
(** Port [k] of component [m] of the network is port [k'] of component [m'] of the flat one. *)
Inductive flat_end : string -> Z -> string -> Z -> Prop :=
| fe_out m k : m <> n -> flat_end m k m k
| fe_in k m' k' q : resolves child k q -> names_port ccs m' k' q -> flat_end n k m' k'.
Definition flat_link (c c' : string) : Prop :=
  exists n1 s1 z1 n2 s2 z2 m1 t1 y1 m2 t2 y2,
    split_colon c = [n1; s1; n2; s2] /\ split_colon c' = [m1; t1; m2; t2]
    /\ py_int s1 = Some z1 /\ py_int s2 = Some z2 /\ py_int t1 = Some y1 /\ py_int t2 = Some y2
    /\ flat_end n1 z1 m1 y1 /\ flat_end n2 z2 m2 y2.
(** The links of the flat network are those of the network and those of the subnetwork. *)
Record flattens : Prop := {
  fl_outer : forall c, In c conns -> length (split_colon c) = 4 -> exists c', In c' fconns /\ flat_link c c';
  fl_inner : forall c, In c cconns -> length (split_colon c) = 4 -> In c fconns;
  fl_only : forall c', In c' fconns -> length (split_colon c') = 4 -> (exists c, In c conns /\ flat_link c c') \/ In c' cconns }.
End Flat.

(** Port [p] of the network is port [q] of component [m], which may be a component of the subnetwork [n]. *)
Definition part_of (cs : comps) (n : string) (ccs : comps) (p : nat) (m : string) (c : net) (q : nat) : Prop :=
  m <> n /\ located cs p m c q \/ exists d r, located cs p n d r /\ located ccs r m c q.

End S.
