(** The meshes of photontorch/networks/clements.py, reck.py and rings.py: which components they
    create and which connection strings they write.  Factories are arbitrary: [wg k] and [mzi k] are
    the buffers returned by the [k]-th call of [wg_factory] and [mzi_factory] inside one network.
    Sizes are Python ints, taken as natural numbers (for an int N, [int(N + 0.5)] is N). *)
From Verif Require Import Base PyStr NetModel.
Set Implicit Arguments.
Unset Strict Implicit.
Local Open Scope string_scope.
Local Open Scope list_scope.
Local Open Scope nat_scope.

(** [range(a, b, s)] *)
Definition py_range (a b s : nat) : list nat := map (fun k => a + s * k) (seq 0 ((b - a + (s - 1)) / s)).

(** The value of a loop variable after the loops over [l] (unbound if none of them ran). *)
Definition last_opt {A} (l : list A) : option A := match rev l with x :: _ => Some x | [] => None end.

Notation di := dec_nat.
Definition odd_n (N : nat) : bool := (N mod 2 =? 1)%nat.

Section M.
Variables (X D : Type) (x0 : X) (d0 : D).
Notation buf := (buf X D).
Notation comps := (comps X D).

(** [components["mzi%i" % i] = factory()] for i in range(n) *)
Definition many (name : string) (n : nat) (f : nat -> buf) : comps :=
  map (fun i => ((name ++ di i)%string, f i)) (seq 0 n).

(** clements.py:39-63 [_PhaseArray] *)
Definition phase_array_conns (N : nat) : list string :=
  flat_map (fun i => ["wg" ++ di i ++ ":0:" ++ di i;
                      "wg" ++ di i ++ ":1:" ++ di (N + i)]%string) (seq 0 N).
Definition phase_array (N : nat) (wg : nat -> buf) : res buf :=
  build x0 d0 (many "wg" N wg) (phase_array_conns N).

(** clements.py:66-112 [_MixingPhaseArrayClements]; the waveguide "wg_" is the last one created *)
Definition mixing_clements_conns (N : nat) : list string :=
  flat_map (fun i => ["mzi" ++ di i ++ ":1:wg" ++ di (2 * i) ++ ":0";
                      "mzi" ++ di i ++ ":2:wg" ++ di (2 * i + 1) ++ ":0"]%string) (seq 0 (N / 2))
  ++ (if odd_n N then ["wg_:1:wg" ++ di (N - 1) ++ ":0"]%string else [])
  ++ flat_map (fun i => ["mzi" ++ di i ++ ":0:" ++ di (2 * i);
                         "mzi" ++ di i ++ ":3:" ++ di (2 * i + 1)]%string) (seq 0 (N / 2))
  ++ (if odd_n N then ["wg_:0:" ++ di (N - 1)]%string else [])
  ++ map (fun i => "wg" ++ di i ++ ":1:" ++ di (N + i))%string (seq 0 N).
Definition mixing_clements (N : nat) (wg mzi : nat -> buf) : res buf :=
  build x0 d0 (many "wg" N wg ++ many "mzi" (N / 2) mzi
               ++ (if odd_n N then [("wg_", wg N)] else []))
        (mixing_clements_conns N).

(** clements.py:115-179 [_Capacity2ClementsNxN]; "wg0" and "wg1" are one and the same object
    (line 147).  [k] (line 170) uses the loop variable of the loops before it. *)
Definition cap2_conns (N k : nat) : list string :=
  let num_mzis := N - 1 in
  ["mzi0:1:wg0:0"]
  ++ flat_map (fun i => ["mzi" ++ di (i - 1) ++ ":2:mzi" ++ di i ++ ":0";
                         "mzi" ++ di i ++ ":3:mzi" ++ di (i + 1) ++ ":1"]%string)
              (py_range 1 (num_mzis - 1) 2)
  ++ (if (1 <? num_mzis) && odd_n N
      then ["mzi" ++ di (num_mzis - 2) ++ ":2:mzi" ++ di (num_mzis - 1) ++ ":0"]%string else [])
  ++ (if odd_n N then ["wg1:1:mzi" ++ di (N - 2) ++ ":3"]%string
      else ["mzi" ++ di (N - 2) ++ ":2:wg1:0"]%string)
  ++ flat_map (fun i => ["mzi" ++ di i ++ ":0:" ++ di i;
                         "mzi" ++ di i ++ ":3:" ++ di (i + 1)]%string) (py_range 0 num_mzis 2)
  ++ (if odd_n N then ["wg1:0:" ++ di (N - 1)]%string else [])
  ++ ["wg0:1:" ++ di k]%string
  ++ flat_map (fun i => ["mzi" ++ di i ++ ":1:" ++ di (k + i);
                         "mzi" ++ di i ++ ":2:" ++ di (k + i + 1)]%string) (py_range 1 num_mzis 2)
  ++ (if odd_n N then [] else ["wg1:1:" ++ di (2 * N - 1)]%string).
Definition cap2_clements (N : nat) (wg mzi : nat -> buf) : res buf :=
  let num_mzis := N - 1 in
  do i <- of_option UnboundLocalError
            (last_opt (seq 0 num_mzis ++ py_range 1 (num_mzis - 1) 2 ++ py_range 0 num_mzis 2));
  build x0 d0 (many "mzi" num_mzis mzi ++ [("wg1", wg 0); ("wg0", wg 0)])
        (cap2_conns N (i + 2 + N mod 2)).

(** [layer%i:%i:layer%i:%i], clements.py:248-251 = rings.py:201-204 *)
Definition chain_conns (N n : nat) : list string :=
  flat_map (fun i => map (fun j => "layer" ++ di i ++ ":" ++ di (N + j)
                                   ++ ":layer" ++ di (i + 1) ++ ":" ++ di j)%string (seq 0 N))
           (seq 0 n).

(** [components["layer%i" % i] = layer i] for i in range(n), building each *)
Definition layers (n : nat) (layer : nat -> res buf) : res comps :=
  mapM (fun i => do b <- layer i; Ok (("layer" ++ di i)%string, b)) (seq 0 n).

(** clements.py:182-254 [ClementsNxN]; [wg l] and [mzi l] are the calls made for layer [l]. *)
Definition clements (N capacity : nat) (wg mzi : nat -> nat -> buf) : res buf :=
  do ls <- layers (capacity / 2) (fun i => cap2_clements N (wg i) (mzi i));
  do l <- (if odd_n capacity then mixing_clements N (wg (capacity / 2)) (mzi (capacity / 2))
           else phase_array N (wg (capacity / 2)));
  build x0 d0 (ls ++ [(("layer" ++ di (capacity / 2))%string, l)]) (chain_conns N (capacity / 2)).

(** [[Source(name="s%i" % i) for i in range(N)] + [Detector(name="d%i" % i) ...]]
    (clements.py:267-269, reck.py:154-156, rings.py:220-222) *)
Definition mesh_terms (N : nat) (source detector : buf) : comps :=
  many "s" N (fun _ => source) ++ many "d" N (fun _ => detector).
(** The network that [terminate()] without argument builds around a network called [name] ... *)
Definition mesh_close (name : string) (N : nat) (source detector : buf) (b : buf) : res buf :=
  terminate_net x0 d0 name b (mesh_terms N source detector).
(** ... and [terminate()] itself, for a network with [name] attribute [own] and lower-case class name
    [cls] (clements.py:256-272, reck.py:143-159, rings.py:209-225; [ret.to(device)] is not modelled). *)
Definition mesh_terminate (own : option string) (cls : string) (N : nat) (source detector : buf) (b : buf) : res buf :=
  terminate_list x0 d0 own cls b (mesh_terms N source detector).

(** reck.py:31-71 [_ReckNxN] *)
Definition reck_layer_conns (N i : nat) : list string :=
  let num_mzis := N - 1 in
  map (fun i => "mzi" ++ di i ++ ":3:mzi" ++ di (i + 1) ++ ":1")%string (seq 0 (num_mzis - 1))
  ++ ["mzi" ++ dec_Z (Z.of_nat num_mzis - 1) ++ ":3:wg:1"]%string
  ++ map (fun i => "mzi" ++ di i ++ ":0:" ++ di i)%string (seq 0 num_mzis)
  ++ ["wg:0:" ++ di (i + 1)]%string
  ++ ["mzi" ++ di 0 ++ ":1:" ++ di N]%string
  ++ map (fun i => "mzi" ++ di i ++ ":2:" ++ di (N + i + 1))%string (seq 0 num_mzis).
Definition reck_layer (N : nat) (wg mzi : nat -> buf) : res buf :=
  let num_mzis := N - 1 in
  do i <- of_option UnboundLocalError (last_opt (seq 0 num_mzis));
  build x0 d0 (many "mzi" num_mzis mzi ++ [("wg", wg 0)]) (reck_layer_conns N i).

(** reck.py:74-141 [ReckNxN]; the last waveguide is call 0 of "layer" N-1. *)
Definition reck_conns (N : nat) : list string :=
  flat_map (fun m => map (fun n => "layer" ++ di (m - 1) ++ ":" ++ di (N - m + 2 + n)
                                   ++ ":layer" ++ di m ++ ":" ++ di n)%string (seq 0 (N - m)))
           (seq 1 (N - 2))
  ++ ["layer" ++ dec_Z (Z.of_nat N - 2) ++ ":" ++ dec_Z (Z.of_nat N - (Z.of_nat N - 2) + 1) ++ ":wg:0"]%string.
Definition reck (N : nat) (wg mzi : nat -> nat -> buf) : res buf :=
  do ls <- layers (N - 1) (fun m => reck_layer (N - m) (wg m) (mzi m));
  build x0 d0 (ls ++ [("wg", wg (N - 1) 0)]) (reck_conns N).

(** rings.py:33-73 [_MixingPhaseArrayRings] *)
Definition mixing_rings_conns (N : nat) : list string :=
  flat_map (fun i => ["mzi" ++ di i ++ ":3:wg" ++ di (2 * i) ++ ":0";
                      "mzi" ++ di i ++ ":2:wg" ++ di (2 * i + 1) ++ ":0"]%string) (seq 0 (N / 2))
  ++ flat_map (fun i => ["mzi" ++ di i ++ ":0:" ++ di (2 * i);
                         "mzi" ++ di i ++ ":1:" ++ di (2 * i + 1)]%string) (seq 0 (N / 2))
  ++ map (fun i => "wg" ++ di i ++ ":1:" ++ di (N + i))%string (seq 0 N).
Definition mixing_rings (N : nat) (wg mzi : nat -> buf) : res buf :=
  if odd_n N then Err ValueError else
  build x0 d0 (many "wg" N wg ++ many "mzi" (N / 2) mzi) (mixing_rings_conns N).

(** rings.py:76-137 [_UnclosedRingArray] *)
Definition unclosed_conns (N : nat) : list string :=
  let num_rings := N / 2 in
  let num_mzis := 2 * num_rings - 1 in
  ["wg0:0:mzi0:3"]
  ++ flat_map (fun i => ["mzi" ++ di i ++ ":0:mzi" ++ di (i - 1) ++ ":2";
                         "mzi" ++ di i ++ ":3:mzi" ++ di (i + 1) ++ ":3"]%string) (py_range 1 num_mzis 2)
  ++ ["wg1:0:mzi" ++ dec_Z (2 * Z.of_nat num_rings - 1 - 1) ++ ":2"]%string
  ++ flat_map (fun i => ["mzi" ++ di i ++ ":0:" ++ di i;
                         "mzi" ++ di i ++ ":1:" ++ di (i + 1)]%string) (py_range 0 num_mzis 2)
  ++ ["wg0:1:" ++ di (2 * num_rings)]%string
  ++ flat_map (fun i => ["mzi" ++ di i ++ ":1:" ++ di (2 * num_rings + i);
                         "mzi" ++ di i ++ ":2:" ++ di (2 * num_rings + i + 1)]%string) (py_range 1 num_mzis 2)
  ++ ["wg1:1:" ++ dec_Z (4 * Z.of_nat num_rings - 1)]%string.
Definition unclosed_rings (N : nat) (wg mzi : nat -> buf) : res buf :=
  if odd_n N then Err ValueError else
  build x0 d0 (many "wg" 2 wg ++ many "mzi" (2 * (N / 2) - 1) mzi) (unclosed_conns N).

(** rings.py:140-207 [RingNetwork] *)
Definition ring_network (N capacity : nat) (wg mzi : nat -> nat -> buf) : res buf :=
  if odd_n N then Err ValueError else
  do ls <- layers (capacity / 2) (fun i => unclosed_rings N (wg i) (mzi i));
  do l <- mixing_rings N (wg (capacity / 2)) (mzi (capacity / 2));
  build x0 d0 (ls ++ [(("layer" ++ di (capacity / 2))%string, l)]) (chain_conns N (capacity / 2)).

End M.
