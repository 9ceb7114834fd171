(** Drawing the graph of a network (photontorch/networks/visualize.py:179-287, network.py:1019-1026): the
    texts and lines handed to matplotlib.  Oracles: the positions of [nx.drawing.spring_layout], the random
    numbers of [np.random.rand], [np.arctan2]; coordinates are real numbers.  Not modelled: line widths and
    the other constant decorations.  No proofs in this file. *)
From Coq Require Import Reals.
From Verif Require Import Base PyStr NetModel PlotModel.
Set Implicit Arguments.
Local Open Scope string_scope.
Local Open Scope list_scope.

(** A class: its name and its first base ([cls.__bases__[0]]); only [object] has none. *)
Inductive pycls := Cls (name : string) (base : option pycls).

(** visualize.py:220-235: [None] for texts without a box, else the colour of the box. *)
Definition box_table (name : string) : option (option string) :=
  if existsb (String.eqb name) ["object"; "Component"] then Some (Some "C1")
  else if existsb (String.eqb name) ["Waveguide"; "Connection"; "Term"] then Some None
  else if existsb (String.eqb name) ["DirectionalCoupler"; "DirectionalCouplerWithLength"; "RealisticDirectionalCoupler"; "Mirror"] then Some (Some "C0")
  else if name =? "Source" then Some (Some "C3")
  else if name =? "Detector" then Some (Some "C2")
  else if name =? "GratingCoupler" then Some (Some "C6")
  else if name =? "Soa" then Some (Some "C4")
  else None.

(** visualize.py:236-244: the colours of the face and of the edge. *)
Fixpoint get_box (c : pycls) : res (option (string * string)) :=
  match c with
  | Cls name base =>
      match box_table name with
      | Some None => Ok None
      | Some (Some fc) => Ok (Some (fc, fc))
      | None => match base with Some b => get_box b | None => Err IndexError end
      end
  end.

Record label := { l_at : R * R; l_text : string; l_box : option (string * string) }.

(** visualize.py:246-256: [zip] stops at the end of the shorter list. *)
Definition draw_nodes (nodes : list string) (components : list pycls) (pos : string -> R * R) : res (list label) :=
  mapM (fun nc : string * pycls => do b <- get_box (snd nc); Ok {| l_at := pos (fst nc); l_text := fst nc; l_box := b |})
       (combine nodes components).

(** The edges as networkx lists them ([G.edges()] of an undirected multigraph): by node, by neighbour in the
    order of their first edge, all edges between the two; neighbours whose turn was before are skipped. *)
Definition joins (a b : string) (e : string * string) : bool :=
  ((fst e =? a) && (snd e =? b) || (fst e =? b) && (snd e =? a))%bool.
Definition other_end (n : string) (e : string * string) : list string :=
  if fst e =? n then [snd e] else if snd e =? n then [fst e] else [].
Definition neighbours (es : list (string * string)) (n : string) : list string :=
  fold_left add_node (flat_map (other_end n) es) [].
Fixpoint list_edges (es : list (string * string)) (seen nodes : list string) : list (string * string) :=
  match nodes with
  | [] => []
  | n :: r =>
      flat_map (fun m => if existsb (String.eqb m) seen then [] else repeat (n, m) (length (filter (joins n m) es))) (neighbours es n)
      ++ list_edges es (n :: seen) r
  end.

Section Draw.
Variable arctan2 : R -> R -> R.

(** visualize.py:275-281: the three points of the line from [p] to [q], with the random number [u]. *)
Definition bend (p q : R * R) (u : R) : list (R * R) :=
  let (x1, y1) := p in let (x2, y2) := q in
  let r := sqrt ((x2 - x1) ^ 2 + (y2 - y1) ^ 2)%R in
  let a := arctan2 (y2 - y1)%R (x2 - x1)%R in
  let a := (a + (2 * u - 1) * PI / 4)%R in
  [(x1, y1); (x1 + 5 / 10 * r * cos a, y1 + 5 / 10 * r * sin a); (x2, y2)]%R.

(** visualize.py:273-286: the [k]-th edge uses the [k]-th random number. *)
Definition draw_edges (g : list string * list (string * string)) (pos : string -> R * R) (rand : nat -> R) : list (list (R * R)) :=
  let es := list_edges (snd g) [] (fst g) in
  map (fun ke : nat * (string * string) => bend (pos (fst (snd ke))) (pos (snd (snd ke))) (rand (fst ke))) (combine (seq 0 (length es)) es).

(** What reaches the axes. *)
Record drawing := { d_labels : list label; d_lines : list (list (R * R)); d_axis : bool }.
Definition blank : drawing := {| d_labels := []; d_lines := []; d_axis := true |}.

(** visualize.py:179-199 *)
Definition graph_fn (draw : bool) (comps : list (string * pycls)) (conns : list string) (pos : string -> R * R) (rand : nat -> R) :
    res ((list string * list (string * string)) * drawing) :=
  do g <- graph (map fst comps) conns;
  if draw
  then do ls <- draw_nodes (fst g) (map snd comps) pos;
       Ok (g, {| d_labels := ls; d_lines := draw_edges g pos rand; d_axis := false |})
  else Ok (g, blank).

(** network.py:1019-1026: the method passes [draw=True] whatever it is given. *)
Definition graph_method (draw : bool) (comps : list (string * pycls)) (conns : list string) (pos : string -> R * R) (rand : nat -> R) :
    res ((list string * list (string * string)) * drawing) :=
  graph_fn true comps conns pos rand.
End Draw.
