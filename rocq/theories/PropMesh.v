(** Properties C60, C61, C62 and C64: the meshes build for every size and close with one source and
    one detector per line. *)
From Coq Require Import Permutation.
From Verif Require Import Base PyStr PyStrProofs NetModel NetSpec NetProofs WireProofs OrderProofs TypedNet TermProofs NetBuild MeshModel MeshNet MeshBuild MeshLayers MeshChain MeshTop.
Set Implicit Arguments.
Unset Strict Implicit.
Local Open Scope string_scope.
Local Open Scope list_scope.
Local Open Scope nat_scope.

Section Props.
Variables (X D : Type) (x0 : X) (d0 : D).
Notation buf := (buf X D).

(** What is asked of the components the factories make: [n] ports, numbered in order, no inner
    connections, no sources, detectors or active ports. *)
Definition element (n : nat) (c : buf) : Prop :=
  b_np c = n /\ b_order c = seq 0 n /\ (forall i j, b_C c i j = false) /\
  forall i, i < n -> b_src c i = false /\ b_det c i = false /\ b_act c i = false.
(** A source or a detector. *)
Definition ending (src : bool) (c : buf) : Prop :=
  b_np c = 1 /\ b_order c = [0] /\ b_C c 0 0 = false /\ b_src c 0 = src /\ b_det c 0 = negb src /\ b_act c 0 = false.

(** The lower-case class name of a network that can be terminated with the sources "s0", ... and detectors "d0", ... *)
Definition usable_name (name : string) : Prop :=
  good_name name /\ (forall i, name <> ("s" ++ dec_nat i)%string) /\ (forall i, name <> ("d" ++ dec_nat i)%string)
  /\ name <> "base"%string.

(** Ports of the terminated network: term 0, then the network's ports, then terms 1, 2, ... *)
Definition term_port (b : buf) (i : nat) : nat := match i with 0 => 0 | S k => S (b_np b + k) end.
Definition old_port (q : nat) : nat := S q.

(** [b] has 2N free ports; terminating it gives a closed network with N sources and N detectors,
    every port meeting exactly one other; the i-th source or detector meets the i-th free port. *)
Definition closes (N : nat) (name : string) (s d b : buf) : Prop :=
  exists fl b', free_list b (b_order b) fl /\ length fl = 2 * N
    /\ mesh_terminate x0 d0 None name N s d b = Ok b'
    /\ num_src b' = N /\ num_det b' = N /\ one_partner b'
    /\ (forall i q, i < 2 * N -> nth_error fl i = Some q -> b_C b' (term_port b i) (old_port q) = true).

Lemma element_leaf n c : element n c -> leaf_ok n c /\ silent c.
Proof.
  intros (H1 & H2 & H3 & H4). assert (HS : silent c) by (intros i Hi; rewrite H1 in Hi; now apply H4).
  split; [|exact HS]. constructor; auto. intros i Hi. destruct (HS i Hi) as (E1 & E2 & E3). rewrite E1, E2, E3. intuition discriminate.
Qed.
Lemma ending_one src c : ending src c -> one_port c /\ num_src c = (if src then 1 else 0) /\ num_det c = (if src then 0 else 1).
Proof.
  intros (H1 & H2 & H3 & H4 & H5 & H6). split.
  - constructor; auto. intros i Hi. rewrite H1 in Hi. replace i with 0 by lia. rewrite H4, H5, H6. destruct src; intuition discriminate.
  - unfold num_src, num_det. rewrite H1. cbn [seq filter]. rewrite H4, H5. destruct src; split; reflexivity.
Qed.

Lemma closes_any name N s d b : usable_name name -> ending true s -> ending false d -> 1 <= N ->
  part_ok b -> silent b -> fd b = 2 * N -> closes N name s d b.
Proof.
  intros (Hn1 & Hn2 & Hn3 & Hn4) Hs Hd HN Hp Hsil Hf. destruct (ending_one Hs) as (S1 & S2 & S3), (ending_one Hd) as (D1 & D2 & D3).
  destruct (@mesh_closed X D x0 d0 name N b s d) as (b' & H1 & H2 & H3 & H4 & H5 & H6 & H7 & H8 & H9 & H10); auto.
  exists (free_ports b), b'. split; [now apply free_list_iff|]. split; [exact Hf|]. split; [rewrite mesh_terminate_unnamed by exact Hn4; exact H1|]. split; [exact H3|].
  split; [exact H4|]. split; [exact H5|]. intros i q Hi E.
  assert (Hq : q < b_np b).
  { apply nth_error_In in E. apply filter_In in E. apply (order_ok_lt (po_order Hp)). apply E. }
  apply (H9 i q Hi Hq). exact E.
Qed.

Section Factories.
Variables (wg mzi : nat -> nat -> buf) (s d : buf).
Hypothesis Hwg : forall l i, element 2 (wg l i).
Hypothesis Hmzi : forall l i, element 4 (mzi l i).
Hypothesis Hs : ending true s.
Hypothesis Hd : ending false d.

(** * C60 *)
Theorem C60_clements N c name : 2 <= N -> 2 <= c -> usable_name name ->
  exists b, clements x0 d0 N c wg mzi = Ok b /\ closes N name s d b.
Proof.
  intros HN Hc Hn. destruct (@clements_ok X D x0 d0 wg mzi (fun l i => element_leaf (Hwg l i)) (fun l i => element_leaf (Hmzi l i)) N c HN Hc)
    as (b & Hb & H1 & H2 & H3).
  exists b. split; [exact Hb|]. apply closes_any; auto. lia.
Qed.

(** * C61 *)
Theorem C61_reck N name : 2 <= N -> usable_name name ->
  exists b, reck x0 d0 N wg mzi = Ok b /\ closes N name s d b.
Proof.
  intros HN Hn. destruct (@reck_ok X D x0 d0 wg mzi (fun l i => element_leaf (Hwg l i)) (fun l i => element_leaf (Hmzi l i)) N HN)
    as (b & Hb & H1 & H2 & H3).
  exists b. split; [exact Hb|]. apply closes_any; auto. lia.
Qed.

(** * C62 *)
Theorem C62_rings N c name : 2 <= N -> Nat.Even N -> 2 <= c -> usable_name name ->
  exists b, ring_network x0 d0 N c wg mzi = Ok b /\ closes N name s d b.
Proof.
  intros HN (h & ->) Hc Hn.
  destruct (@ring_ok X D x0 d0 wg mzi (fun l i => element_leaf (Hwg l i)) (fun l i => element_leaf (Hmzi l i)) h c) as (b & Hb & H1 & H2 & H3); [lia|exact Hc|].
  exists b. split; [exact Hb|]. apply closes_any; auto. lia.
Qed.
Theorem C62_odd N c : Nat.Odd N -> ring_network x0 d0 N c wg mzi = Err ValueError.
Proof.
  intros (h & ->). apply ring_odd. destruct (parity (2 * h + 1)) as (h' & r & E & Hr & _ & _ & ->).
  destruct r as [|[|r]]; [lia|reflexivity|lia].
Qed.

(** * C64 *)
(** Without a second layer there are no connections, and the network has no buffers at all. *)
Theorem C64_single_layer N c : 1 <= N -> c < 2 -> clements x0 d0 N c wg mzi = Err AttributeError.
Proof. intros HN Hc. apply clements_low; auto; intros; now apply element_leaf. Qed.
Theorem C64_single_ring N c : 2 <= N -> Nat.Even N -> c < 2 -> ring_network x0 d0 N c wg mzi = Err AttributeError.
Proof. intros HN (h & ->) Hc. apply ring_low; [intros; now apply element_leaf|intros; now apply element_leaf|lia|exact Hc]. Qed.
Theorem C64_small N c : N < 2 -> 2 <= c -> clements x0 d0 N c wg mzi = Err UnboundLocalError.
Proof. intros H1 H2. apply clements_small; auto; intros; now apply element_leaf. Qed.
Theorem C64_small_reck N : N < 2 -> reck x0 d0 N wg mzi = Err KeyError.
Proof. intros H. destruct (reck_small x0 d0 wg mzi) as (E0 & E1). destruct N as [|[|N]]; [exact E0|exact E1|lia]. Qed.
End Factories.
End Props.

(** Concrete components without scattering matrices. *)
Definition part4 (n : nat) : buf unit unit :=
  {| b_np := n; b_C := fun _ _ => false; b_src := fun _ => false; b_det := fun _ => false; b_act := fun _ => false;
     b_order := seq 0 n; b_S := fun _ _ => tt; b_del := fun _ => tt |}.
Definition end1 (src : bool) : buf unit unit :=
  {| b_np := 1; b_C := fun _ _ => false; b_src := fun _ => src; b_det := fun _ => negb src; b_act := fun _ => false;
     b_order := [0]; b_S := fun _ _ => tt; b_del := fun _ => tt |}.
Lemma part4_element n : element n (part4 n).
Proof. repeat split. Qed.
Lemma end1_ending src : ending src (end1 src).
Proof. repeat split. Qed.
Lemma name_usable : usable_name "clementsnxn".
Proof.
  split; [|repeat split; discriminate]. split; [|split; [|reflexivity]]; repeat split; discriminate.
Qed.
(** ClementsNxN(3, 3): layers of 12 and 12 ports. *)
Example C60_ex : exists b, clements tt tt 3 3 (fun _ _ => part4 2) (fun _ _ => part4 4) = Ok b
  /\ b_np b = 24 /\ length (free_ports b) = 6.
Proof. eexists. split; [vm_compute; reflexivity|]. repeat split; vm_compute; reflexivity. Qed.
Example C61_ex : exists b, reck tt tt 3 (fun _ _ => part4 2) (fun _ _ => part4 4) = Ok b /\ b_np b = 18
  /\ length (free_ports b) = 6.
Proof. eexists. split; [vm_compute; reflexivity|]. split; vm_compute; reflexivity. Qed.
Example C62_ex : exists b, ring_network tt tt 2 2 (fun _ _ => part4 2) (fun _ _ => part4 4) = Ok b /\ b_np b = 16
  /\ length (free_ports b) = 4.
Proof. eexists. split; [vm_compute; reflexivity|]. split; vm_compute; reflexivity. Qed.

(** C64 as stated is false: capacity 1 gives a network that cannot be used. *)
Theorem C64_refuted : exists N c (wg mzi : nat -> nat -> buf unit unit),
  (forall l i, element 2 (wg l i)) /\ (forall l i, element 4 (mzi l i)) /\ 2 <= N /\ 1 <= c
  /\ forall b, clements tt tt N c wg mzi <> Ok b.
Proof.
  exists 4, 1, (fun _ _ => part4 2), (fun _ _ => part4 4). split; [intros; apply part4_element|]. split; [intros; apply part4_element|].
  split; [lia|]. split; [lia|]. intros b. rewrite C64_single_layer; [discriminate|intros; apply part4_element|intros; apply part4_element|lia|lia].
Qed.

Print Assumptions C60_clements.
Print Assumptions C61_reck.
Print Assumptions C62_rings.
Print Assumptions C62_odd.
Print Assumptions C64_single_layer.
Print Assumptions C64_single_ring.
Print Assumptions C64_small.
Print Assumptions C64_small_reck.
Print Assumptions C64_refuted.
