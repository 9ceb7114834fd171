(** The filters of the examples and of the documentation, as the calls that build them.  No proofs in this file. *)
From Coq Require Import QArith Reals.
From Verif Require Import Base NetModel SimModel CompModel.
Set Implicit Arguments.
Unset Strict Implicit.
Local Open Scope string_scope.
Local Open Scope list_scope.
Local Open Scope nat_scope.

Notation calls := (list (nop (nat -> R * R) Q)).
(** [self.name = component] in a network (network.py:139-176, nn.py: __setattr__). *)
Definition assign (n : string) (b : net R) : nop (nat -> R * R) Q := OAdd n {| o_name := None; o_buf := b |}.
Definition linked (ports : list string) : nop (nat -> R * R) Q := OLink (nat -> R * R) Q (map PStr ports).

(** examples/01_all_pass_filter.ipynb, class AllPass: two waveguides to and from the ring, a coupler, the ring. *)
Definition allpass (wg_in dc wg_through wg_ring : net R) : calls :=
  [assign "src" source; assign "wg_in" wg_in; assign "dc" dc; assign "wg_through" wg_through; assign "wg_ring" wg_ring;
   assign "det" detector;
   linked ["src:0"; "0:wg_in:1"; "0:dc:1"; "0:wg_through:1"; "0:det"];
   linked ["dc:2"; "0:wg_ring:1"; "3:dc"]].

(** examples/02_add_drop_filter.ipynb, tests/test_networks.py:189-201: two couplers and the two halves of the ring. (Objects assigned to
    several attributes are written once per attribute.) *)
Definition adddrop (dc1 dc2 wg1 wg2 : net R) : calls :=
  [assign "term_in" source; assign "term_pass" detector; assign "term_add" detector; assign "term_drop" detector;
   assign "dc1" dc1; assign "dc2" dc2; assign "wg1" wg1; assign "wg2" wg2;
   linked ["term_in:0"; "0:dc1:2"; "0:wg1:1"; "1:dc2:3"; "0:term_drop"];
   linked ["term_pass:0"; "1:dc1:3"; "0:wg2:1"; "0:dc2:2"; "0:term_add"]].

(** examples/09_XOR_task_with_MZI.ipynb, class Circuit: an unbalanced interferometer. *)
Definition interferometer (dc1 dc2 wg1 wg2 : net R) : calls :=
  [assign "src" source; assign "det" detector; assign "trm1" term; assign "trm2" term;
   assign "dc1" dc1; assign "dc2" dc2; assign "wg1" wg1; assign "wg2" wg2;
   linked ["trm1:0"; "3:dc1:2"; "0:wg1:1"; "3:dc2:2"; "0:trm2"];
   linked ["src:0"; "0:dc1:1"; "0:wg2:1"; "0:dc2:1"; "0:det"]].

(** examples/00_introduction_to_photontorch.ipynb, classes AllPass (a network with two free ports) and Circuit (which uses it like a component). *)
Definition intro_allpass (wg1 dc1 : net R) : calls :=
  [assign "wg1" wg1; assign "dc1" dc1; linked ["dc1:2"; "0:wg1:1"; "3:dc1"]].
Definition intro_circuit (allpass : net R) : calls :=
  [assign "allpass" allpass; assign "source" source; assign "detector" detector; linked ["source:0"; "0:allpass:1"; "0:detector"]].
