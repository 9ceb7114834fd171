(** Properties C01-C12 and C66: building circuits. *)
From Coq Require Import Permutation Sorted.
From Verif Require Import Base PyStr PyStrProofs NetModel NetSpec LinkProofs NetProofs WireProofs OrderProofs StateProofs TypedNet TermProofs NetBuild OrderExact.
Set Implicit Arguments.
Unset Strict Implicit.
Local Open Scope string_scope.
Local Open Scope list_scope.

(** Concrete components for the examples: [lf n] has [n] unconnected ports. *)
Definition lf (n : nat) : buf unit unit :=
  {| b_np := n; b_C := fun _ _ => false; b_src := fun _ => false; b_det := fun _ => false;
     b_act := fun _ => false; b_order := seq 0 n; b_S := fun _ _ => tt; b_del := fun _ => tt |}.
Definition src : buf unit unit :=
  {| b_np := 1; b_C := fun _ _ => false; b_src := fun _ => true; b_det := fun _ => false;
     b_act := fun _ => false; b_order := [0]; b_S := fun _ _ => tt; b_del := fun _ => tt |}.
Definition ubuild := @build unit unit tt tt.
Definition ucompile := @compile unit unit tt tt.

(** The all-pass ring of the documentation: link(0, "0:dc:2", "0:wg:1", "3:dc:1", 1). *)
Definition ring_pieces : list lpiece :=
  [ {| lp_in := Some "0"; lp_name := "dc"; lp_out := Some "2" |};
    {| lp_in := Some "0"; lp_name := "wg"; lp_out := Some "1" |};
    {| lp_in := Some "3"; lp_name := "dc"; lp_out := Some "1" |} ].
Definition ring_conns : list string := ["dc:2:wg:0"; "wg:1:dc:3"; "dc:0:0"; "dc:1:1"].
Definition ring_mods : list (string * buf unit unit) := [("dc", lf 4); ("wg", lf 2)].

(** * C01 *)
Theorem C01_link_chain (lead : option Z) (ps : list lpiece) (trail : option Z) (l r : list parg) :
  wf_chain lead ps trail -> renders_ext lead l -> renders_ext trail r ->
  link_strings (l ++ map (fun p => PStr (piece_str p)) ps ++ r)
  = (map decl_str (chain_decls lead ps trail), None).
Proof. exact (fun H => @link_strings_chain lead ps trail H l r). Qed.

Example C01_ex : wf_chain (Some 0%Z) ring_pieces (Some 1%Z)
  /\ map decl_str (chain_decls (Some 0%Z) ring_pieces (Some 1%Z)) = ring_conns
  /\ link_strings [PInt 0; PStr "0:dc:2"; PStr "0:wg:1"; PStr "3:dc:1"; PStr " 1"] = (ring_conns, None).
Proof.
  split; [|split; reflexivity]. constructor.
  - discriminate.
  - assert (Hc : forall s, no_colon s -> colon_free s).
    { intros s Hs (a & b & ->). assert (Ha : forall a, no_colon (a ++ String colon b) -> False).
      { intros a0. induction a0 as [|c a0 IH]; cbn; [tauto|]. intros [_ H]. exact (IH H). }
      exact (Ha a Hs). }
    intros p Hp. cbn in Hp. destruct Hp as [<-|[<-|[<-|[]]]]; cbn;
      (split; [|split]; [|intros s [= <-]|intros s [= <-]]); apply Hc; cbn; repeat split; discriminate.
  - intros [|[|[|[|i]]]] p H; cbn in H; try discriminate; injection H as <-; discriminate.
  - intros [|[|[|[|i]]]] p H; cbn in H; try discriminate; injection H as <-; discriminate.
Qed.
Print Assumptions C01_link_chain.

(** * C02 *)
Theorem C02_wiring (X D : Type) (x0 : X) (d0 : D) (mods : list (string * buf X D)) conns b :
  build x0 d0 mods conns = Ok b ->
  exists cs, sub_components mods conns cs
    /\ b_np b = ports_before cs
    /\ (forall i j, b_C b i j = true <->
          inner cs i j \/ exists conn, In conn (map clean_conn conns) /\ (wires cs conn i j \/ wires cs conn j i))
    /\ (all_sym cs -> sym_C b).
Proof. exact (@build_wiring X D x0 d0 mods conns b). Qed.

Theorem C02_nested_symmetric (X D : Type) (x0 : X) (d0 : D) (c : comp X D) b :
  every_leaf (@sym_C X D) c -> compile x0 d0 c = Ok b -> sym_C b.
Proof. exact (@compile_sym X D x0 d0 c b). Qed.

Definition pairs_of (b : buf unit unit) : list (nat * nat) :=
  filter (fun p => b_C b (fst p) (snd p)) (list_prod (seq 0 (b_np b)) (seq 0 (b_np b))).

Example C02_ex : exists b, ubuild ring_mods ring_conns = Ok b
  /\ pairs_of b = [(2, 4); (3, 5); (4, 2); (5, 3)].
Proof. eexists. split; [vm_compute; reflexivity|]. reflexivity. Qed.

Definition ring_net : comp unit unit := Net [("dc", Leaf (lf 4)); ("wg", Leaf (lf 2))] ring_conns.
Definition two_rings : comp unit unit :=
  Net [("a", ring_net); ("b", ring_net)] ["a:1:b:0"; "a:0:0"; "b:1:1"].
Example C02_nested_ex : every_leaf (@sym_C unit unit) two_rings
  /\ exists b, ucompile two_rings = Ok b /\ b_C b 1 6 = true /\ b_C b 2 4 = true /\ b_C b 8 10 = true.
Proof.
  split.
  - assert (Hr : every_leaf (@sym_C unit unit) ring_net).
    { constructor. intros n c [E|[E|[]]]; injection E as <- <-; constructor; intros i j _ _; reflexivity. }
    constructor. intros n c [E|[E|[]]]; injection E as <- <-; exact Hr.
  - eexists. split; [vm_compute; reflexivity|]. repeat split.
Qed.
Print Assumptions C02_wiring.
Print Assumptions C02_nested_symmetric.

(** * C03 *)
Theorem C03_child_wiring (X D : Type) (x0 : X) (d0 : D) (mods : list (string * buf X D)) conns b :
  build x0 d0 mods conns = Ok b -> (forall n c, In (n, c) mods -> order_ok c) ->
  exists cs, sub_components mods conns cs
    /\ (forall pre n c post i', cs = pre ++ (n, c) :: post -> i' < b_np c -> ~ unconnected c i' ->
          forall j, b_C b (ports_before pre + i') j = true <->
                    exists j', j' < b_np c /\ j = ports_before pre + j' /\ b_C c i' j' = true)
    /\ (forall pre n c post i' j', cs = pre ++ (n, c) :: post -> i' < b_np c -> j' < b_np c ->
          let i := ports_before pre + i' in let j := ports_before pre + j' in
          b_C b i j = true <-> b_C c i' j' = true \/
            exists conn, In conn (map clean_conn conns) /\ (wires cs conn i j \/ wires cs conn j i)).
Proof. exact (@build_child X D x0 d0 mods conns b). Qed.

Example C03_ex : exists ring b, ubuild ring_mods ring_conns = Ok ring
  /\ (forall n c, In (n, c) [("a", ring); ("b", ring)] -> order_ok c)
  /\ ubuild [("a", ring); ("b", ring)] ["a:1:b:0"; "a:0:0"; "b:1:1"] = Ok b
  /\ ~ unconnected ring 2 /\ pairs_of b = [(1, 6); (2, 4); (3, 5); (4, 2); (5, 3); (6, 1); (8, 10); (9, 11); (10, 8); (11, 9)].
Proof.
  eexists. eexists. split; [vm_compute; reflexivity|]. split; [|split; [vm_compute; reflexivity|split; [|reflexivity]]].
  - intros n c [E|[E|[]]]; injection E as _ <-; apply Permutation_refl.
  - intros H. destruct (H 4) as [H1 _]; [cbn; lia|]. vm_compute in H1. discriminate.
Qed.
Print Assumptions C03_child_wiring.

(** * C04 *)
Theorem C04_partners_partial (X D : Type) (x0 : X) (d0 : D) (mods : list (string * buf X D)) conns b :
  build x0 d0 mods conns = Ok b ->
  exists cs ws, sub_components mods conns cs /\ wire_list cs (map clean_conn conns) ws
    /\ (orders_ok cs -> (forall n c, In (n, c) cs -> at_most_one_partner c) -> NoDup (endpoints ws) ->
        at_most_one_partner b
        /\ num_free b + 2 * length ws = list_sum (map (fun c => num_free (snd c)) cs)).
Proof. exact (@build_partner X D x0 d0 mods conns b). Qed.

(** [num_free] counts the unconnected ports. *)
Theorem C04_num_free (X D : Type) (b : buf X D) n : free_count b n <-> n = num_free b.
Proof. exact (@num_free_count X D b n). Qed.

Example C04_ex : exists b, ubuild ring_mods ring_conns = Ok b /\ num_free b = 2
  /\ orders_ok ring_mods /\ (forall n c, In (n, c) ring_mods -> at_most_one_partner c)
  /\ wire_list ring_mods (map clean_conn ring_conns) [(2, 4); (5, 3)].
Proof.
  eexists. split; [vm_compute; reflexivity|]. split; [reflexivity|]. split; [|split].
  - intros n c [E|[E|[]]]; injection E as _ <-; apply Permutation_refl.
  - intros n c [E|[E|[]]]; injection E as _ <-; intros i j k _ _ _ H; discriminate H.
  - change (map clean_conn ring_conns) with ring_conns. unfold ring_conns.
    constructor; [apply parse_Some; reflexivity|]. constructor; [apply parse_Some; reflexivity|].
    apply wl_ext; [discriminate|]. apply wl_ext; [discriminate|]. constructor.
Qed.

(** The full claim fails: one port can be wired to two others. *)
Theorem C04_double_wiring_refuted :
  exists (mods : list (string * buf unit unit)) conns b,
    build tt tt mods conns = Ok b /\ (forall n c, In (n, c) mods -> at_most_one_partner c /\ order_ok c)
    /\ ~ at_most_one_partner b.
Proof.
  exists [("a", lf 2); ("b", lf 2); ("c", lf 2)], ["a:0:b:0"; "a:0:c:0"]. eexists.
  split; [vm_compute; reflexivity|]. split.
  - intros n c [E|[E|[E|[]]]]; injection E as _ <-; (split; [intros i j k _ _ _ H; discriminate H|apply Permutation_refl]).
  - intros H. specialize (H 0 2 4). cbn in H. specialize (H ltac:(lia) ltac:(lia) ltac:(lia) eq_refl eq_refl). discriminate.
Qed.
Print Assumptions C04_partners_partial.
Print Assumptions C04_num_free.
Print Assumptions C04_double_wiring_refuted.

(** * C05 *)
Theorem C05_external_ports_partial (X D : Type) (x0 : X) (d0 : D) (cs : list (string * buf X D)) conns es b :
  NoDup (map fst cs) ->
  (forall n c, In (n, c) cs -> b_order c = seq 0 (b_np c)) ->
  net_buf x0 d0 cs conns = Ok b ->
  ext_list cs conns es -> numbered es (total_ports cs) ->
  (forall z p, In (z, p) es -> unconnected b p) ->
  exists ext rest, free_list b (b_order b) (ext ++ rest)
    /\ (forall j p, nth_error ext j = Some p <-> In (Z.of_nat j, p) es)
    /\ StronglySorted lt rest
    /\ (forall p, In p rest <-> p < b_np b /\ unconnected b p /\ ~ In p ext).
Proof. exact (@net_external_ports X D x0 d0 cs conns es b). Qed.

(** For arbitrary children: external port j is entry [p] of the children's concatenated orders,
    although [p] already went through the child's order once. *)
Theorem C05_order_looked_up_twice (X D : Type) (x0 : X) (d0 : D) (cs : list (string * buf X D)) conns es b j p :
  NoDup (map fst cs) -> orders_ok cs -> net_buf x0 d0 cs conns = Ok b ->
  ext_list cs conns es -> numbered es (total_ports cs) -> In (Z.of_nat j, p) es ->
  nth_error (b_order b) j = nth_error (child_orders 0 cs) p.
Proof. exact (@net_order_general X D x0 d0 cs conns es b j p). Qed.

Definition swap : comp unit unit := Net [("a", Leaf (lf 2))] ["a:1:0"; "a:0:1"].
Definition wrapped : comp unit unit := Net [("c", swap)] ["c:0:0"; "c:1:1"].

(** Port 0 of [swap] is port 1 of "a".  [wrapped] declares its own port 0 to be port 0 of [swap],
    but a parent of [wrapped] that connects to port 0 reaches port 0 of "a". *)
Theorem C05_nested_refuted :
  exists s w t, ucompile swap = Ok s /\ resolves s 0 1 /\ ucompile wrapped = Ok w
    /\ resolves w 0 0
    /\ ucompile (Net [("w", wrapped); ("t", Leaf (lf 1))] ["w:0:t:0"]) = Ok t
    /\ b_C t 0 2 = true /\ b_C t 1 2 = false.
Proof.
  do 3 eexists. split; [vm_compute; reflexivity|]. split; [apply resolves_index; reflexivity|].
  split; [vm_compute; reflexivity|]. split; [apply resolves_index; reflexivity|].
  split; [vm_compute; reflexivity|]. split; reflexivity.
Qed.

Example C05_ex : exists b, net_buf tt tt ring_mods ring_conns = Ok b
  /\ (forall n c, In (n, c) ring_mods -> b_order c = seq 0 (b_np c))
  /\ ext_list ring_mods ring_conns [(0%Z, 0); (1%Z, 1)] /\ numbered [(0%Z, 0); (1%Z, 1)] (total_ports ring_mods)
  /\ (forall z p, In (z, p) [(0%Z, 0); (1%Z, 1)] -> unconnected b p).
Proof.
  eexists. split; [vm_compute; reflexivity|]. split; [|split; [|split]].
  - intros n c [E|[E|[]]]; injection E as _ <-; reflexivity.
  - unfold ring_conns. apply el_wire; [reflexivity|]. apply el_wire; [reflexivity|].
    assert (Hn : NoDup (map fst ring_mods)) by (repeat constructor; cbn; intuition discriminate).
    constructor; [apply parse_output_Some; [exact Hn|reflexivity]|].
    constructor; [apply parse_output_Some; [exact Hn|reflexivity]|constructor].
  - constructor; cbn.
    + apply Permutation_refl.
    + repeat constructor; cbn; intuition lia.
    + intros z p [E|[E|[]]]; injection E as <- <-; lia.
  - intros z p [E|[E|[]]]; injection E as <- <-; apply free_at_spec; reflexivity.
Qed.
Print Assumptions C05_external_ports_partial.
Print Assumptions C05_order_looked_up_twice.
Print Assumptions C05_nested_refuted.

(** * C06 *)
Theorem C06_order_partial (X D : Type) (x0 : X) (d0 : D) (cs : list (string * buf X D)) conns es b :
  NoDup (map fst cs) -> orders_ok cs -> net_buf x0 d0 cs conns = Ok b ->
  ext_list cs conns es -> numbered es (total_ports cs) -> order_ok b.
Proof. exact (@net_order_perm X D x0 d0 cs conns es b). Qed.

(** For different numbers on different ports, k of them, exactly: the ports with a number outside
    0..k-1 must be the last ports of the network. *)
Theorem C06_exact (X D : Type) (x0 : X) (d0 : D) (cs : list (string * buf X D)) conns es b :
  NoDup (map fst cs) -> orders_ok cs -> net_buf x0 d0 cs conns = Ok b -> ext_list cs conns es ->
  NoDup (map fst es) -> NoDup (map snd es) ->
  (order_ok b <-> forall p, In p (strays es) -> b_np b - length (strays es) <= p).
Proof. exact (@net_order_exact X D x0 d0 cs conns es b). Qed.

Example C06_exact_ex : exists b, net_buf tt tt [("a", lf 3)] ["a:0:0"; "a:2:7"] = Ok b
  /\ ext_list [("a", lf 3)] ["a:0:0"; "a:2:7"] [(0%Z, 0); (7%Z, 2)]
  /\ strays [(0%Z, 0); (7%Z, 2)] = [2] /\ b_order b = [0; 1; 2].
Proof.
  eexists. split; [vm_compute; reflexivity|]. split; [|split; reflexivity].
  assert (Hn : NoDup (map fst [("a", lf 3)])) by (repeat constructor; cbn; intuition discriminate).
  constructor; [apply parse_output_Some; [exact Hn|reflexivity]|].
  constructor; [apply parse_output_Some; [exact Hn|reflexivity]|constructor].
Qed.

(** External numbers 1 and 2 without 0: port 1 of "a" is then listed twice and one port is lost. *)
Theorem C06_gap_refuted :
  exists (mods : list (string * buf unit unit)) conns b,
    build tt tt mods conns = Ok b /\ (forall n c, In (n, c) mods -> order_ok c) /\ ~ order_ok b.
Proof.
  exists [("a", lf 3)], ["a:0:1"; "a:1:2"]. eexists. split; [vm_compute; reflexivity|]. split.
  - intros n c [E|[]]; injection E as _ <-; apply Permutation_refl.
  - intros H. apply Permutation_sym, Permutation_NoDup in H; [|apply seq_NoDup]. vm_compute in H.
    inversion H as [|? ? H1 H2]; subst. inversion H2 as [|? ? H3 H4]; subst. cbn in *. intuition.
Qed.

Example C06_ex : orders_ok ring_mods /\ exists b, net_buf tt tt ring_mods ring_conns = Ok b /\ b_order b = [0; 1; 2; 3; 4; 5].
Proof.
  split; [|eexists; split; [vm_compute; reflexivity|reflexivity]].
  intros n c [E|[E|[]]]; injection E as _ <-; apply Permutation_refl.
Qed.
Print Assumptions C06_order_partial.
Print Assumptions C06_exact.
Print Assumptions C06_gap_refuted.

(** * C07 *)
Theorem C07_good_accepted (X D : Type) nw (b : buf X D) :
  flags_ok b -> order_ok b -> 0 < b_np b -> (nw = true \/ (forall i, i < b_np b -> b_act b i = false)
    \/ (forall i, i < b_np b -> b_act b i = true)) -> check_buf nw b = Ok b.
Proof. exact (@check_ok_all X D nw b). Qed.

Theorem C07_accepted_flags (X D : Type) (x0 : X) (d0 : D) (c : comp X D) b : compile x0 d0 c = Ok b -> flags_ok b.
Proof. exact (@compile_flags X D x0 d0 c b). Qed.

(** When a port order is rejected: sorted, it differs from 0,1,2,... at every position. *)
Theorem C07_rejected_orders (X D : Type) (b : buf X D) : length (b_order b) = b_np b ->
  (order_bad b = true <-> forall i v, nth_error (sort (b_order b)) i = Some v -> v <> i).
Proof. exact (@order_bad_iff X D b). Qed.

(** What is refused, and how: ports with two roles and components of which only some ports are active with a ValueError, port orders
    with a NameError (the message names a variable that does not exist). *)
Definition two_roles (X D : Type) (b : buf X D) : Prop := exists i, i < b_np b /\
  (b_src b i = true /\ b_det b i = true \/ b_src b i = true /\ b_act b i = true \/ b_det b i = true /\ b_act b i = true).
Definition half_active (X D : Type) (b : buf X D) : Prop :=
  (exists i, i < b_np b /\ b_act b i = true) /\ exists i, i < b_np b /\ b_act b i = false.
Theorem C07_exact (X D : Type) nw (b : buf X D) r : check_buf nw b = r <->
  two_roles b /\ r = Err ValueError \/
  ~ two_roles b /\ order_bad b = true /\ r = Err NameError \/
  ~ two_roles b /\ order_bad b = false /\ nw = false /\ half_active b /\ r = Err ValueError \/
  ~ two_roles b /\ order_bad b = false /\ (nw = true \/ ~ half_active b) /\ r = Ok b.
Proof.
  assert (Any : forall f, any_port b f = true <-> exists i, i < b_np b /\ f i = true).
  { intros f. unfold any_port. rewrite existsb_exists. split; intros (i & H & E); exists i; (split; [|exact E]); rewrite in_seq in *; lia. }
  assert (All : all_ports b (b_act b) = false <-> exists i, i < b_np b /\ b_act b i = false).
  { unfold all_ports. split.
    - intros H. destruct (existsb (fun i => negb (b_act b i)) (seq 0 (b_np b))) eqn:E.
      + apply existsb_exists in E as (i & Hi & E). exists i. apply in_seq in Hi. split; [lia|]. apply Bool.negb_true_iff. exact E.
      + exfalso. rewrite <- Bool.not_true_iff_false in E, H. apply H, forallb_forall. intros i Hi. destruct (b_act b i) eqn:F; [reflexivity|].
        exfalso. apply E, existsb_exists. exists i. rewrite F. split; [exact Hi|reflexivity].
    - intros (i & Hi & E). apply Bool.not_true_iff_false. intros H. rewrite forallb_forall in H. rewrite (H i) in E; [discriminate|apply in_seq; lia]. }
  assert (Two : two_roles b <-> any_port b (fun i => b_src b i && b_det b i) = true \/ any_port b (fun i => b_src b i && b_act b i) = true \/
    any_port b (fun i => b_det b i && b_act b i) = true).
  { rewrite !Any. setoid_rewrite Bool.andb_true_iff. unfold two_roles. split; [intros (i & Hi & [H|[H|H]]); eauto|intros [(i & Hi & H)|[(i & Hi & H)|(i & Hi & H)]]; eauto]. }
  assert (Half : half_active b <-> any_port b (b_act b) = true /\ all_ports b (b_act b) = false) by (unfold half_active; rewrite Any, All; tauto).
  rewrite Two, Half. unfold check_buf.
  destruct (any_port b (fun i => b_src b i && b_det b i)); [intuition congruence|].
  destruct (any_port b (fun i => b_src b i && b_act b i)); [intuition congruence|].
  destruct (any_port b (fun i => b_det b i && b_act b i)); [intuition congruence|].
  destruct (order_bad b); [intuition congruence|].
  destruct (any_port b (b_act b)), (all_ports b (b_act b)), nw; cbn [andb orb negb]; intuition congruence.
Qed.

(** [0; 0] is accepted, and a component without ports is always rejected. *)
Theorem C07_bad_order_refuted :
  (exists b : buf unit unit, check_buf false b = Ok b /\ ~ order_ok b)
  /\ (forall b : buf unit unit, b_np b = 0 -> check_buf false b = Err NameError).
Proof.
  split.
  - exists {| b_np := 2; b_C := fun _ _ => false; b_src := fun _ => false; b_det := fun _ => false;
              b_act := fun _ => false; b_order := [0; 0]; b_S := fun _ _ => tt; b_del := fun _ => tt |}.
    split; [reflexivity|]. intros H. apply Permutation_sym, Permutation_NoDup in H; [|apply seq_NoDup].
    cbn in H. inversion H as [|? ? H1 _]; subst. cbn in *. intuition.
  - intros b H. unfold check_buf, any_port. rewrite H. cbn [seq existsb]. rewrite (no_ports_bad H). reflexivity.
Qed.

Example C07_ex : flags_ok src /\ order_ok src /\ check_buf false src = Ok src.
Proof.
  split; [|split; [apply Permutation_refl|reflexivity]].
  intros i _. split; [split; reflexivity|discriminate].
Qed.
Definition two_headed : buf unit unit := {| b_np := 1; b_C := fun _ _ => false; b_src := fun _ => true; b_det := fun _ => false;
  b_act := fun _ => true; b_order := [0]; b_S := fun _ _ => tt; b_del := fun _ => tt |}.
Example C07_exact_ex : two_roles two_headed /\ check_buf true two_headed = Err ValueError /\ ~ two_roles src.
Proof. split; [exists 0; split; [constructor|right; left; split; reflexivity]|]. split; [reflexivity|]. intros (i & _ & [[_ H]|[[_ H]|[H _]]]); discriminate. Qed.
Print Assumptions C07_good_accepted.
Print Assumptions C07_accepted_flags.
Print Assumptions C07_rejected_orders.
Print Assumptions C07_exact.
Print Assumptions C07_bad_order_refuted.

(** * C08 *)
Theorem C08_no_self_wire_partial (X D : Type) (cs : list (string * buf X D)) conn n1 s1 k1 n2 s2 k2 i j :
  NoDup (map fst cs) -> orders_ok cs ->
  split_colon conn = [n1; s1; n2; s2] -> py_int s1 = Some k1 -> py_int s2 = Some k2 ->
  (0 <= k1)%Z -> (0 <= k2)%Z ->
  parse_connection cs conn = Ok (Some (i, j)) -> i <> j.
Proof. exact (@no_self_wire X D cs conn n1 s1 k1 n2 s2 k2 i j). Qed.

Theorem C08_negative_refuted :
  exists (mods : list (string * buf unit unit)) conns b p,
    build tt tt mods conns = Ok b /\ (forall n c, In (n, c) mods -> forall i, b_C c i i = false) /\ b_C b p p = true.
Proof.
  exists [("a", lf 2)], ["a:1:a:-1"]. eexists. exists 1. split; [vm_compute; reflexivity|].
  split; [|reflexivity]. intros n c [E|[]]; injection E as _ <-. reflexivity.
Qed.

Example C08_ex : parse_connection ring_mods "dc:2:wg:0" = Ok (Some (2, 4)).
Proof. reflexivity. Qed.
Print Assumptions C08_no_self_wire_partial.
Print Assumptions C08_negative_refuted.

(** * C09 *)
(** A chain that is malformed before anything is declared changes nothing. *)
Theorem C09_malformed_unchanged_partial (X D : Type) (x0 : X) (d0 : D) (s : nstate X D) ports e :
  link_strings ports = ([], Some e) -> link x0 d0 s ports = (s, Some e).
Proof. exact (@link_rejected_unchanged X D x0 d0 s ports e). Qed.

(** Which exceptions a malformed chain raises, and how much of it is declared before.  [colons]: the
    number of colons in a string. *)
Fixpoint colons (s : string) : nat :=
  match s with "" => 0 | String c r => (if Ascii.eqb c ":" then 1 else 0) + colons r end.
Lemma split_colons s : length (split_colon s) = S (colons s).
Proof.
  induction s as [|c s IH]; [reflexivity|]. cbn [split_colon colons]. change colon with ":"%char. destruct (Ascii.eqb c ":"); [cbn [length]; now rewrite IH|].
  destruct (split_colon s); cbn [length] in *; [discriminate|exact IH].
Qed.
Lemma pairs_step x y z u v w r : link_pairs ([x; y; z] :: [u; v; w] :: r)
  = (conn4 y z v u :: fst (link_pairs ([u; v; w] :: r)), snd (link_pairs ([u; v; w] :: r))).
Proof. cbn [link_pairs]. destruct r as [|q r]; [reflexivity|]. destruct (match q with [p2; n2; _] => _ | _ => _ end) as [cs e]. reflexivity. Qed.
Lemma pairs_bad : forall ss (k : nat) s, nth_error ss k = Some s -> length (split_colon s) <> 3 ->
  (forall i s', i < k -> nth_error ss i = Some s' -> length (split_colon s') = 3) -> 2 <= length ss ->
  exists cs, link_pairs (map (fun s => map Some (split_colon s)) ss) = (cs, Some ValueError) /\ length cs = pred k.
Proof.
  induction ss as [|a ss IH]; intros k s E B G L; [destruct k; discriminate|].
  destruct ss as [|b ss]; [cbn in L; lia|]. cbn [map].
  destruct (Nat.eq_dec (length (split_colon a)) 3) as [La|La].
  - destruct k as [|k]; [cbn in E; injection E as <-; contradiction|].
    destruct (split_colon a) as [|a0 [|a1 [|a2 [|]]]]; try discriminate La. cbn [map]. cbn [nth_error] in E.
    destruct (Nat.eq_dec (length (split_colon b)) 3) as [Lb|Lb].
    + remember (split_colon b) as sb eqn:Eb. destruct sb as [|b0 [|b1 [|b2 [|]]]]; try discriminate Lb. cbn [map].
      destruct k as [|k]; [cbn in E; injection E as <-; rewrite <- Eb in B; contradiction|].
      destruct (IH (S k) s E B) as (cs & Hcs & Lcs).
      * intros i s' Hi Hs. apply (G (S i) s'); [lia|exact Hs].
      * cbn [nth_error] in E. destruct ss; [destruct k; discriminate|]. cbn [length]. lia.
      * cbn [map] in Hcs. rewrite <- Eb in Hcs. cbn [map] in Hcs. rewrite pairs_step, Hcs. eexists. split; [reflexivity|]. cbn [fst length pred] in *. lia.
    + assert (K : k = 0). { destruct k as [|k]; [reflexivity|]. exfalso. apply Lb. apply (G 1 b); [lia|reflexivity]. }
      subst k. exists []. split; [|reflexivity]. destruct (split_colon b) as [|b0 [|b1 [|b2 [|]]]]; try reflexivity. contradiction.
  - assert (K : k = 0). { destruct k as [|k]; [reflexivity|]. exfalso. apply La. apply (G 0 a); [lia|reflexivity]. }
    subst k. exists []. split; [|reflexivity]. destruct (split_colon a) as [|a0 [|a1 [|a2 [|]]]]; try reflexivity. contradiction.
Qed.
Lemma mapM_split ss : mapM link_split (map PStr ss) = Ok (map (fun s => map Some (split_colon s)) ss).
Proof. induction ss as [|a ss IH]; [reflexivity|]. cbn [map mapM link_split bind]. rewrite IH. reflexivity. Qed.
Lemma ints_ends a b (m : list parg) :
  (do ps <- link_first (PInt a :: m ++ [PInt b]); link_last ps) = Ok (PInt a :: m ++ [PInt b]).
Proof.
  cbn [link_first bind]. unfold link_last. change (PInt a :: m ++ [PInt b]) with ((PInt a :: m) ++ [PInt b]).
  rewrite last_last. destruct m; reflexivity.
Qed.
Theorem C09_refused :
  link_strings [] = ([], Some IndexError)
  /\ (forall a b, link_strings [PInt a; PInt b] = ([], Some ValueError))
  /\ (forall a, link_strings [PNone; PInt a] = ([], Some TypeError))
  /\ (forall a b ss k s, nth_error ss k = Some s -> colons s <> 2 ->
       (forall i s', i < k -> nth_error ss i = Some s' -> colons s' = 2) ->
       exists cs, link_strings (PInt a :: map PStr ss ++ [PInt b]) = (cs, Some ValueError) /\ length cs = pred k)
  /\ (forall a b l x r, (forall s, x <> PStr s) ->
       link_strings (PInt a :: (map PStr l ++ x :: r) ++ [PInt b]) = ([], Some AttributeError)).
Proof.
  split; [reflexivity|]. split; [reflexivity|]. split; [reflexivity|]. split.
  - intros a b ss k s E B G. unfold link_strings. rewrite ints_ends. cbn [tl]. rewrite removelast_last, mapM_split.
    cbn [hd parg_int]. change (PInt a :: map PStr ss ++ [PInt b]) with ((PInt a :: map PStr ss) ++ [PInt b]). rewrite last_last.
    cbn [parg_int link_pad_first link_pad_last bind].
    assert (B' : length (split_colon s) <> 3) by (rewrite split_colons; lia).
    assert (G' : forall i s', i < k -> nth_error ss i = Some s' -> length (split_colon s') = 3).
    { intros i s' Hi Hs. rewrite split_colons, (G i s' Hi Hs). reflexivity. }
    destruct ss as [|s0 [|s1 ss]]; [destruct k; discriminate| |].
    + destruct k as [|k]; [|destruct k; discriminate]. cbn in E. injection E as ->. cbn [map link_pairs].
      exists []. split; [|reflexivity]. destruct (split_colon s) as [|b0 [|b1 [|b2 [|]]]]; try reflexivity. cbn in B'. contradiction.
    + destruct (pairs_bad E B' G') as (cs & Hcs & Lcs); [cbn; lia|]. cbn [map] in *. rewrite Hcs. eauto.
  - intros a b l x r X. unfold link_strings. rewrite ints_ends. cbn [tl]. rewrite removelast_last.
    assert (M : mapM link_split (map PStr l ++ x :: r) = Err AttributeError).
    { induction l as [|c l IH]; cbn [map app mapM link_split bind]; [|now rewrite IH]. destruct x; try reflexivity. exfalso. exact (X s eq_refl). }
    rewrite M. reflexivity.
Qed.
(** "b" has no port: nothing is declared; without "c:0" the wire from a to b is. *)
Example C09_refused_ex : link_strings [PInt 0; PStr "0:a:1"; PStr "0:b:1"; PStr "0:c"; PInt 1] = (["a:1:b:0"], Some ValueError)
  /\ colons "0:c" = 1 /\ colons "0:a:1" = 2 /\ colons "0:b:1" = 2.
Proof. repeat split. Qed.

(** But a link with a port that is not a number makes every later link fail, whatever else is done. *)
Theorem C09_failure_permanent (X D : Type) (x0 : X) (d0 : D) (s : nstate X D) c os ports :
  ns_mods s <> [] -> In c (ns_conns s) -> unreadable c ->
  exists e, snd (link x0 d0 (nrun x0 d0 s os) ports) = Some e.
Proof. exact (@unreadable_forever X D x0 d0 s c os ports). Qed.

Definition uobj (b : buf unit unit) : cobj unit unit := {| o_name := None; o_buf := b |}.
Definition two_guides : list (nop unit unit) := [OAdd "a" (uobj (lf 2)); OAdd "b" (uobj (lf 2))].
Theorem C09_failed_link_refuted :
  exists (s0 : nstate unit unit) bad good,
    s0 = nrun tt tt (ns_empty unit unit) two_guides
    /\ snd (link tt tt s0 good) = None
    /\ (exists e, snd (link tt tt s0 bad) = Some e)
    /\ fst (link tt tt s0 bad) <> s0
    /\ (exists e, snd (link tt tt (fst (link tt tt s0 bad)) good) = Some e).
Proof.
  exists (nrun tt tt (ns_empty unit unit) two_guides), [PStr "a:7"; PStr "0:b"], [PStr "a:1"; PStr "0:b"].
  split; [reflexivity|]. split; [reflexivity|]. split; [eexists; vm_compute; reflexivity|].
  split; [|eexists; vm_compute; reflexivity].
  intros H. apply (f_equal (@ns_conns unit unit)) in H. vm_compute in H. discriminate.
Qed.

Example C09_ex : link_strings [PInt 0; PInt 1; PStr "a:0"] = ([], Some AttributeError)
  /\ let s := fst (link tt tt (nrun tt tt (ns_empty unit unit) two_guides) [PStr "a:x"; PStr "0:b"]) in
     ns_mods s <> [] /\ In "a:x:b:0" (ns_conns s) /\ unreadable "a:x:b:0".
Proof.
  split; [reflexivity|]. cbv zeta. split; [discriminate|]. split; [left; reflexivity|].
  exists "a", "x", "b", "0". split; [reflexivity|]. left. reflexivity.
Qed.
(** A link that fails while the buffers are being set up leaves no valid buffers behind if all
    components it names exist; otherwise it leaves the old ones. *)
Theorem C09_failed_buffers (X D : Type) (x0 : X) (d0 : D) (s s' : nstate X D) ports e :
  link x0 d0 s ports = (s', Some e) -> snd (link_strings ports) = None ->
  ((forall n, In n (used_names (ns_conns s')) -> In n (map fst (ns_mods s))) -> ns_buf s' = Broken X D)
  /\ ((exists n, In n (used_names (ns_conns s')) /\ ~ In n (map fst (ns_mods s))) -> ns_buf s' = ns_buf s).
Proof.
  unfold link. destruct (link_strings ports) as [cs oe]. cbn [snd]. intros H ->. revert H.
  unfold rebuild. cbn [ns_conns ns_mods ns_buf].
  destruct (ns_conns s ++ cs) as [|c0 l]; [discriminate|].
  destruct (ns_mods s) as [|m ms] eqn:Em; [discriminate|]. rewrite <- Em.
  destruct (set_buffers x0 d0 (plain (ns_mods s)) (c0 :: l)) as [[[cs' b]|]|e']; try discriminate.
  intros H. apply pair_equal_spec in H as [<- _]. cbn [ns_conns ns_buf].
  assert (Hh : forall n, has_mod (ns_mods s) n = true <-> In n (map fst (ns_mods s))).
  { intros n. unfold has_mod. rewrite existsb_exists, in_map_iff. split.
    - intros (x & Hx & E). apply String.eqb_eq in E. eauto.
    - intros (x & <- & Hx). exists x. split; [exact Hx|apply String.eqb_refl]. }
  destruct (forallb (has_mod (ns_mods s)) (used_names (map clean_conn (c0 :: l)))) eqn:Ef.
  - split; [reflexivity|]. intros (n & Hn & Hx). exfalso. apply Hx, Hh. rewrite forallb_forall in Ef. auto.
  - split; [|reflexivity]. intros Ha. exfalso.
    assert (forallb (has_mod (ns_mods s)) (used_names (map clean_conn (c0 :: l))) = true); [|congruence].
    apply forallb_forall. intros n Hn. apply Hh, Ha, Hn.
Qed.
Print Assumptions C09_failed_buffers.
Example C09_buffers_ex : exists s' e, link tt tt (nrun tt tt (ns_empty unit unit) two_guides) [PStr "a:7"; PStr "0:b"] = (s', Some e)
  /\ used_names (ns_conns s') = ["a"; "b"].
Proof. do 2 eexists. split; [vm_compute; reflexivity|reflexivity]. Qed.
Print Assumptions C09_malformed_unchanged_partial.
Print Assumptions C09_refused.
Print Assumptions C09_failure_permanent.
Print Assumptions C09_failed_link_refuted.

(** * C10 *)
Theorem C10_linked_component_kept_partial (X D : Type) (x0 : X) (d0 : D) (os1 os2 : list (nop X D)) n c :
  let s := nrun x0 d0 (ns_empty X D) os1 in
  let s' := nrun x0 d0 s os2 in
  In n (ns_names s) ->
  (In n (ns_names s') /\ stored s' n = stored s n) /\ add_component s' n c = (s', Some AttributeError).
Proof. exact (@names_protected X D x0 d0 os1 os2 n c). Qed.

(** Before the first link the second component silently replaces the first. *)
Theorem C10_replaced_refuted :
  exists (s1 s2 : nstate unit unit) n c1 c2,
    add_component (ns_empty unit unit) n c1 = (s1, None)
    /\ add_component s1 n c2 = (s2, None) /\ stored s1 n = Some (o_buf c1)
    /\ stored s2 n = Some (o_buf c2) /\ b_np (o_buf c1) <> b_np (o_buf c2).
Proof.
  do 2 eexists. exists "a", (uobj (lf 2)), (uobj (lf 4)).
  split; [reflexivity|]. split; [reflexivity|]. split; [reflexivity|]. split; [reflexivity|]. discriminate.
Qed.

Example C10_ex : In "a" (ns_names (nrun tt tt (ns_empty unit unit) (two_guides ++ [OLink _ _ [PStr "a:1"; PStr "0:b"]]))).
Proof. left. reflexivity. Qed.
Print Assumptions C10_linked_component_kept_partial.
Print Assumptions C10_replaced_refuted.

(** * C11, C12 *)
(** Ports of the terminated network: term 0, then the network's ports, then terms 1, 2, ... *)
Definition term_port (X D : Type) (b : buf X D) (i : nat) : nat :=
  match i with 0 => 0 | S k => S (b_np b + k) end.
Definition old_port (q : nat) : nat := S q.

Theorem C11_terminate (X D : Type) (x0 : X) (d0 : D) name (b : buf X D) (terms : list (string * buf X D)) fl :
  good_name name -> (forall t c, In (t, c) terms -> good_name t /\ one_port c) ->
  NoDup ("base"%string :: name :: map fst terms) -> order_ok b -> flags_ok b ->
  free_list b (b_order b) fl -> terms <> [] -> length terms = length fl ->
  exists b', terminate_list x0 d0 None name b terms = Ok b'
    /\ b_np b' = b_np b + length terms
    /\ (forall q q', q < b_np b -> q' < b_np b -> b_C b' (old_port q) (old_port q') = b_C b q q')
    /\ (forall i q, i < length terms -> q < b_np b ->
          (b_C b' (term_port b i) (old_port q) = true <-> nth_error fl i = Some q)
          /\ (b_C b' (old_port q) (term_port b i) = true <-> nth_error fl i = Some q))
    /\ (forall i j, i < length terms -> j < length terms -> b_C b' (term_port b i) (term_port b j) = false)
    /\ (forall p, p < b_np b' -> ~ unconnected b' p)
    /\ num_src b' = num_src b + list_sum (map (fun t => num_src (snd t)) terms)
    /\ num_det b' = num_det b + list_sum (map (fun t => num_det (snd t)) terms)
    /\ order_ok b' /\ (at_most_one_partner b -> at_most_one_partner b').
Proof.
  intros Hn Hg Hnd. inversion Hnd as [|? ? Hb Hnd']; subst. rewrite terminate_list_unnamed by exact Hb.
  exact (@terminate_all X D x0 d0 name b terms fl Hn Hg Hnd').
Qed.

(** With a single term, copies of it are called cls_0, cls_1, ...; [cls] is its lower-case class name. *)
Theorem C11_terminate_one (X D : Type) (x0 : X) (d0 : D) name cls (b t : buf X D) fl :
  good_name name -> (forall i, good_name (cls ++ "_" ++ dec_nat i)%string /\ name <> (cls ++ "_" ++ dec_nat i)%string) ->
  name <> "base"%string -> (forall i, (cls ++ "_" ++ dec_nat i)%string <> "base"%string) ->
  one_port t -> order_ok b -> flags_ok b -> free_list b (b_order b) fl -> fl <> [] ->
  exists b', terminate_one x0 d0 None name cls b t = Ok b'
    /\ b_np b' = b_np b + length fl
    /\ (forall i q, i < length fl -> q < b_np b ->
          (b_C b' (term_port b i) (old_port q) = true <-> nth_error fl i = Some q)
          /\ (b_C b' (old_port q) (term_port b i) = true <-> nth_error fl i = Some q))
    /\ (forall p, p < b_np b' -> ~ unconnected b' p)
    /\ num_src b' = num_src b + length fl * num_src t
    /\ num_det b' = num_det b + length fl * num_det t.
Proof.
  intros Hn Hg Hnb Htb Ht Ho Hf Hfl Hne. assert (Hl : num_free b = length fl).
  { apply free_list_ports in Hfl. subst fl. symmetry. apply free_ports_length, Ho. }
  unfold terminate_one. set (terms := map (fun n => (n, t)) (term_names cls (num_free b))).
  assert (Hlt : length terms = length fl) by (unfold terms, term_names; now rewrite !map_length, seq_length, Hl).
  assert (Hfst : map fst terms = term_names cls (num_free b)).
  { unfold terms. rewrite map_map. cbn [fst]. apply map_id. }
  destruct (@C11_terminate X D x0 d0 name b terms fl) as (b' & H1 & H2 & H3 & H4 & H5 & H6 & H7 & H8 & _); auto.
  - intros n c Hc. unfold terms in Hc. apply in_map_iff in Hc as (n' & E & Hc). injection E as <- <-.
    unfold term_names in Hc. apply in_map_iff in Hc as (i & <- & _). split; [apply Hg|exact Ht].
  - rewrite Hfst. constructor.
    { intros [E|Hc]; [exact (Hnb E)|]. unfold term_names in Hc. apply in_map_iff in Hc as (i & E & _). exact (Htb i E). }
    constructor.
    + unfold term_names. intros Hc. apply in_map_iff in Hc as (i & E & _). apply (proj2 (Hg i)). now symmetry.
    + unfold term_names. apply FinFun.Injective_map_NoDup; [|apply seq_NoDup]. intros i j E.
      apply dec_nat_inj. clear -E. induction cls as [|a c IH]; cbn in E; injection E as E; auto.
  - destruct terms; [destruct fl; [congruence|discriminate Hlt]|discriminate].
  - assert (Hsum : forall f : buf X D -> nat, list_sum (map (fun x => f (snd x)) terms) = length fl * f t).
    { intros f. rewrite <- Hlt. unfold terms. generalize (term_names cls (num_free b)). intros l.
      rewrite map_map, map_length. cbn [snd]. induction l as [|n l IH]; cbn [map list_sum fold_right length Nat.mul]; [reflexivity|]. cbn in IH. rewrite <- IH. reflexivity. }
    exists b'. rewrite Hlt in *. split; [exact H1|]. split; [exact H2|]. split; [exact H4|]. split; [exact H6|].
    split; [rewrite H7, (Hsum (@num_src X D)); reflexivity|rewrite H8, (Hsum (@num_det X D)); reflexivity].
Qed.
Example C11_one_ex : good_name ("term_" ++ dec_nat 12)%string /\ "net" <> ("term_" ++ dec_nat 12)%string
  /\ exists b', terminate_one tt tt None "net" "term" (lf 3) (lf 1) = Ok b' /\ b_np b' = 6.
Proof.
  split; [repeat split; discriminate|]. split; [discriminate|]. eexists. split; vm_compute; reflexivity.
Qed.
Print Assumptions C11_terminate_one.

Theorem C12_none (X D : Type) (x0 : X) (d0 : D) own name (b : buf X D) terms :
  (forall q, q < b_np b -> ~ unconnected b q) -> terminate_list x0 d0 own name b terms = Err IndexError.
Proof. intros H. unfold terminate_list. rewrite terminate_closed by exact H. reflexivity. Qed.

Theorem C12_too_many (X D : Type) (x0 : X) (d0 : D) name (b : buf X D) (terms : list (string * buf X D)) fl :
  good_name name -> (forall t c, In (t, c) terms -> good_name t /\ one_port c) ->
  NoDup ("base"%string :: name :: map fst terms) -> order_ok b -> flags_ok b ->
  free_list b (b_order b) fl -> fl <> [] -> length fl < length terms ->
  terminate_list x0 d0 None name b terms = Err ValueError.
Proof.
  intros Hn Hg Hnd. inversion Hnd as [|? ? Hb Hnd']; subst. rewrite terminate_list_unnamed by exact Hb.
  exact (@terminate_many X D x0 d0 name b terms fl Hn Hg Hnd').
Qed.

Theorem C12_fewer (X D : Type) (x0 : X) (d0 : D) name (b : buf X D) (terms : list (string * buf X D)) fl :
  good_name name -> (forall t c, In (t, c) terms -> good_name t /\ one_port c) ->
  NoDup ("base"%string :: name :: map fst terms) -> order_ok b -> flags_ok b ->
  free_list b (b_order b) fl -> terms <> [] -> length terms <= length fl ->
  exists b', terminate_list x0 d0 None name b terms = Ok b'
    /\ (forall q, q < b_np b -> (unconnected b' (old_port q) <-> In q (skipn (length terms) fl)))
    /\ (forall i, i < length terms -> ~ unconnected b' (term_port b i)).
Proof.
  intros Hn Hg Hnd. inversion Hnd as [|? ? Hb Hnd']; subst. rewrite terminate_list_unnamed by exact Hb.
  exact (@terminate_fewer X D x0 d0 name b terms fl Hn Hg Hnd').
Qed.

Example C11_ex : exists ring b, ubuild ring_mods ring_conns = Ok ring
  /\ free_list ring (b_order ring) [0; 1]
  /\ good_name "ring" /\ good_name "s" /\ good_name "t" /\ one_port src /\ one_port (lf 1)
  /\ order_ok ring /\ flags_ok ring
  /\ terminate_list tt tt None "ring" ring [("s", src); ("t", lf 1)] = Ok b
  /\ pairs_of b = [(0, 1); (1, 0); (2, 7); (3, 5); (4, 6); (5, 3); (6, 4); (7, 2)]
  /\ terminate_list tt tt None "ring" ring [("s", src); ("t", lf 1); ("u", lf 1)] = Err ValueError
  /\ terminate_list tt tt None "b" b [("v", lf 1)] = Err IndexError.
Proof.
  do 2 eexists. split; [vm_compute; reflexivity|]. split; [apply free_list_iff; reflexivity|].
  do 3 (split; [repeat split; discriminate|]).
  assert (Hf : forall n, flags_ok (lf n)) by (intros n i _; cbn; intuition discriminate).
  split; [constructor; try reflexivity; intros i _; cbn; intuition discriminate|].
  split; [constructor; try reflexivity; apply Hf|].
  split; [apply Permutation_refl|]. split; [|split; [vm_compute; reflexivity|repeat split; vm_compute; reflexivity]].
  intros i Hi. cbn in Hi. do 6 (destruct i as [|i]; [cbn; intuition discriminate|]). lia.
Qed.
(** C11 and C12 are false of networks with a name: whatever the terms, terminating them fails, because
    [nw.base = self] is refused. *)
Theorem C11_named_fails (X D : Type) (x0 : X) (d0 : D) n cls (b : buf X D) (terms : list (string * buf X D)) fl :
  good_name n -> (forall t c, In (t, c) terms -> good_name t /\ one_port c) ->
  NoDup ("base"%string :: n :: map fst terms) -> order_ok b -> flags_ok b ->
  free_list b (b_order b) fl -> terms <> [] -> length terms <= length fl ->
  terminate_list x0 d0 (Some n) cls b terms = Err ValueError.
Proof.
  intros Hn Hg Hnd Ho Hf Hfl Hne Hl. inversion Hnd as [|? ? Hb Hnd']; subst.
  destruct (@terminate_fewer X D x0 d0 n b terms fl Hn Hg Hnd' Ho Hf Hfl Hne Hl) as (b' & E & _).
  unfold terminate_list, copied_name. rewrite E. cbn [bind]. unfold set_base.
  replace (existsb (String.eqb "base") (n :: map fst terms)) with false.
  - destruct (String.eqb_spec n "base") as [->|]; [cbn in Hb; tauto|reflexivity].
  - symmetry. apply not_true_is_false. intros H. apply existsb_exists in H as (m & Hm & H). apply String.eqb_eq in H. subst m. exact (Hb Hm).
Qed.
Theorem C11_named_refuted : exists (b : buf unit unit) n terms fl,
  good_name n /\ (forall t c, In (t, c) terms -> good_name t /\ one_port c) /\ NoDup (n :: map fst terms)
  /\ order_ok b /\ flags_ok b /\ free_list b (b_order b) fl /\ length terms = length fl /\ terms <> []
  /\ forall cls b', terminate_list tt tt (Some n) cls b terms <> Ok b'.
Proof.
  exists (lf 1), "net"%string, [("t"%string, lf 1)], [0]. split; [repeat split; discriminate|].
  assert (Hf : flags_ok (lf 1)) by (intros i _; cbn; intuition discriminate).
  split. { intros t c [E|[]]. injection E as <- <-. split; [repeat split; discriminate|]. constructor; try reflexivity. exact Hf. }
  split. { repeat constructor; cbn; intuition discriminate. }
  split; [apply Permutation_refl|]. split; [exact Hf|]. split; [apply free_list_iff; reflexivity|]. split; [reflexivity|]. split; [discriminate|].
  intros cls b'. apply terminate_list_named.
Qed.
(** A term called "base" is refused as well. *)
Theorem C11_base_refuted : exists (b : buf unit unit) terms fl,
  (forall t c, In (t, c) terms -> good_name t /\ one_port c) /\ NoDup ("net"%string :: map fst terms)
  /\ order_ok b /\ flags_ok b /\ free_list b (b_order b) fl /\ length terms = length fl
  /\ terminate_list tt tt None "net" b terms = Err AttributeError.
Proof.
  exists (lf 1), [("base"%string, lf 1)], [0].
  assert (Hf : flags_ok (lf 1)) by (intros i _; cbn; intuition discriminate).
  split. { intros t c [E|[]]. injection E as <- <-. split; [repeat split; discriminate|]. constructor; try reflexivity. exact Hf. }
  split. { repeat constructor; cbn; intuition discriminate. }
  split; [apply Permutation_refl|]. split; [exact Hf|]. split; [apply free_list_iff; reflexivity|]. split; reflexivity.
Qed.
Print Assumptions C11_named_fails.
Print Assumptions C11_named_refuted.
Print Assumptions C11_base_refuted.
Print Assumptions C11_terminate.
Print Assumptions C12_none.
Print Assumptions C12_too_many.
Print Assumptions C12_fewer.

(** * C66 *)
(** Linking step by step gives the network that is built from all connections at once. *)
Theorem C66_incremental (X D : Type) (x0 : X) (d0 : D) (s s' : nstate X D) (links : list (list parg)) :
  ns_mods s <> [] -> accepted (nstep x0 d0) s (map (@OLink X D) links) s' ->
  flat_map (fun p => fst (link_strings p)) links <> [] ->
  exists b, ns_buf s' = Built b
    /\ build x0 d0 (plain (ns_mods s)) (ns_conns s ++ flat_map (fun p => fst (link_strings p)) links) = Ok b.
Proof. exact (@links_once X D x0 d0 s s' links). Qed.

Example C66_ex : exists s', accepted (nstep tt tt) (nrun tt tt (ns_empty unit unit) two_guides)
    (map (@OLink unit unit) [[PInt 0; PStr "0:a:1"; PStr "0:b"]; [PStr "b:1"; PInt 1]]) s'.
Proof. eexists. eapply acc_cons; [vm_compute; reflexivity|]. eapply acc_cons; [vm_compute; reflexivity|]. apply acc_nil. Qed.
Print Assumptions C66_incremental.
