(** When two circuits of any depth are the same: the same plain components, joined at the same ports. *)
From Coq Require Import QArith.
From Verif Require Import Base PyStr NetModel NetSpec SimModel SimAlg RelabelSpec.
Set Implicit Arguments.
Unset Strict Implicit.
Local Open Scope nat_scope.
Local Open Scope list_scope.

(** Every element once, where it comes first. *)
Fixpoint firsts (l : list string) : list string :=
  match l with
  | [] => []
  | x :: r => x :: remove string_dec x (firsts r)
  end.

Section S.
Variables (K : Type) (k0 : K).
Notation cx := (prod K K).
Notation net := (buf (nat -> cx) Q).
Notation comp := (comp (nat -> cx) Q).
Notation compile := (@compile (nat -> cx) Q (fun _ => c0 k0) 0%Q).
Notation parts c := (map strip (split_colon c)).

(** A port of a plain component of a circuit: the names on the way to the component, and the number of the port there. *)
Definition address := (list string * nat)%type.
Definition under (n : string) (a : address) : address := (n :: fst a, snd a).

(** The components that the connections mention, in this order. *)
Definition mentioned (conns : list string) : list string :=
  firsts (filter (fun s => match py_int s with None => true | Some _ => false end) (flat_map (fun c => parts c) conns)).

(** The addresses of ports 0, 1, ... of a circuit. *)
Fixpoint ports_of (t : comp) : list address :=
  match t with
  | Leaf c => map (fun q => ([], q)) (seq 0 (b_np c))
  | Net mods conns =>
      let subs := map (fun m => (fst m, map (under (fst m)) (ports_of (snd m)))) mods in
      flat_map (fun n => match assoc String.eqb n subs with Some l => l | None => [] end) (mentioned conns)
  end.

(** The plain component at the end of a path. *)
Fixpoint leaf_at (path : list string) (t : comp) : option net :=
  match path, t with
  | [], Leaf c => Some c
  | n :: r, Net mods _ => match assoc String.eqb n mods with Some t' => leaf_at r t' | None => None end
  | _, _ => None
  end.

(** Port number [z] of component [n] is at address [a]. *)
Definition end_of (mods : list (string * comp)) (n : string) (z : Z) (a : address) : Prop :=
  exists t d r a', assoc String.eqb n mods = Some t /\ compile t = Ok d /\ resolves d z r
    /\ nth_error (ports_of t) r = Some a' /\ a = under n a'.
(** A connection of the circuit, or of a circuit in it, joins the two ports. *)
Inductive joined : comp -> address -> address -> Prop :=
| j_here mods conns c n1 s1 z1 n2 s2 z2 a1 a2 : In c conns -> parts c = [n1; s1; n2; s2] -> py_int s1 = Some z1 -> py_int s2 = Some z2 ->
    end_of mods n1 z1 a1 -> end_of mods n2 z2 a2 -> joined (Net mods conns) a1 a2
| j_in mods conns n t a1 a2 : assoc String.eqb n mods = Some t -> joined t a1 a2 -> joined (Net mods conns) (under n a1) (under n a2).
Definition linked (t : comp) (a a' : address) : Prop := joined t a a' \/ joined t a' a.

(** The ports of every component, at any depth, are numbered one by one. *)
Inductive tidy : comp -> Prop :=
| td_leaf c : tidy (Leaf c)
| td_net mods conns : (forall n t, In (n, t) mods -> tidy t /\ forall d, compile t = Ok d -> order_ok d) -> tidy (Net mods conns).

(** The plain component at [path] in [t] is the one at [h path] in [t'], and the two circuits join the same ports. *)
Record same_circuit (h hi : list string -> list string) (t t' : comp) : Prop := {
  cc_to : forall path q, In (path, q) (ports_of t) ->
            hi (h path) = path /\ In (h path, q) (ports_of t') /\ leaf_at (h path) t' = leaf_at path t;
  cc_from : forall path q, In (path, q) (ports_of t') ->
            h (hi path) = path /\ In (hi path, q) (ports_of t) /\ leaf_at (hi path) t = leaf_at path t';
  cc_join : forall p q p' q', In (p, q) (ports_of t) -> In (p', q') (ports_of t) -> joined t (p, q) (p', q') -> linked t' (h p, q) (h p', q');
  cc_join' : forall p q p' q', In (p, q) (ports_of t') -> In (p', q') (ports_of t') -> joined t' (p, q) (p', q') -> linked t (hi p, q) (hi p', q') }.

(** What a circuit is in terms of its plain components. *)
Record made_of (t : comp) (b : net) : Prop := {
  mo_len : length (ports_of t) = b_np b;
  mo_once : NoDup (ports_of t);
  mo_at : forall i path q, nth_error (ports_of t) i = Some (path, q) ->
            exists c, leaf_at path t = Some c /\ q < b_np c /\ b_src b i = b_src c q /\ b_det b i = b_det c q
              /\ b_act b i = b_act c q /\ b_del b i = b_del c q;
  mo_S : forall i j path q path' q' w, nth_error (ports_of t) i = Some (path, q) -> nth_error (ports_of t) j = Some (path', q') ->
            (forall c, path = path' -> leaf_at path t = Some c -> b_S b i j w = b_S c q q' w)
            /\ (path <> path' -> b_S b i j w = c0 k0);
  mo_C : forall i j path q path' q', nth_error (ports_of t) i = Some (path, q) -> nth_error (ports_of t) j = Some (path', q') ->
            (b_C b i j = true <-> (path = path' /\ exists c, leaf_at path t = Some c /\ b_C c q q' = true) \/ linked t (path, q) (path', q')) }.

End S.
