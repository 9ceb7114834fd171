(** Exact answers where C04, C05 and C10 fail: which wirings give every port at most one partner,
    which declared port numbers are honoured, and which components are accepted. *)
From Coq Require Import QArith Permutation Sorted.
From Verif Require Import Base PyStr NetModel NetSpec NetProofs WireProofs OrderProofs NetBuild PropNet.
Set Implicit Arguments.
Unset Strict Implicit.
Local Open Scope list_scope.
Local Open Scope nat_scope.

(** * C04 *)
(** Every port has at most one partner exactly if no two connections join it to different ports;
    and always, every port that is named is used up. *)
Theorem C04_exact (X D : Type) (x0 : X) (d0 : D) (mods : list (string * buf X D)) conns b :
  build x0 d0 mods conns = Ok b ->
  exists cs ws, sub_components mods conns cs /\ wire_list cs (map clean_conn conns) ws
    /\ (orders_ok cs -> (forall n c, In (n, c) cs -> at_most_one_partner c) ->
        (at_most_one_partner b <->
         forall i j k, In (i, j) ws \/ In (j, i) ws -> In (i, k) ws \/ In (k, i) ws -> j = k)
        /\ num_free b + length (nodup Nat.eq_dec (endpoints ws)) = list_sum (map (fun c => num_free (snd c)) cs)).
Proof.
  intros H. destruct (build_inv H) as (cs & Hs & Hb). pose proof (sc_once Hs) as Hnd.
  destruct (wire_list_exists Hb) as [ws Hw]. exists cs, ws. split; [exact Hs|]. split; [exact Hw|].
  intros Ho Hpart. split; [split|].
  - intros A i j k Hj Hk.
    assert (Cj : b_C b i j = true) by (apply (C_wires Hnd Hb Hw); auto).
    assert (Ck : b_C b i k = true) by (apply (C_wires Hnd Hb Hw); auto).
    destruct (net_C_range Hnd Hb Ho Cj), (net_C_range Hnd Hb Ho Ck). apply (A i j k); auto.
  - intros F i j k _ _ _ Hj Hk. apply (C_wires Hnd Hb Hw) in Hj, Hk.
    assert (Hex : forall i j, In (i, j) ws \/ In (j, i) ws -> forall k, inner cs i k -> False).
    { intros a a' Ha k' (pre & n & c & post & i1 & k1 & Hcs & Hi1 & Hk1 & HC & E & _).
      assert (Hx : exists conn, wires cs conn a a' \/ wires cs conn a' a).
      { destruct Ha as [Ha|Ha]; apply (wire_list_In Hnd Hb Hw) in Ha; destruct Ha as (conn & _ & Hc); eauto. }
      destruct Hx as [conn Hx].
      destruct (wires_located Ho Hx) as (n2 & c2 & q & (pre2 & post2 & Hcs2 & E2 & Hq) & Hu).
      rewrite E in E2. destruct (located_unique Hcs Hcs2 Hi1 Hq E2) as (_ & _ & -> & _ & ->).
      destruct (Hu k1 Hk1). congruence. }
    destruct Hj as [Hj|Hj], Hk as [Hk|Hk].
    + destruct Hj as (pre & n & c & post & i1 & j1 & Hcs & Hi1 & Hj1 & HC & E & ->).
      destruct Hk as (pre2 & n2 & c2 & post2 & i2 & j2 & Hcs2 & Hi2 & Hj2 & HC2 & E2 & ->).
      rewrite E in E2. destruct (located_unique Hcs Hcs2 Hi1 Hi2 E2) as (-> & -> & -> & -> & ->).
      f_equal. apply (Hpart n2 c2) with (i := i2); auto.
      rewrite Hcs. apply in_or_app. right. left. reflexivity.
    + exfalso. eapply Hex; eassumption.
    + exfalso. eapply Hex; eassumption.
    + eapply F; eassumption.
  - assert (Hsum : list_sum (map (fun c => num_free (snd c)) cs)
                   = length (filter (child_free cs) (seq 0 (total_ports cs)))).
    { unfold child_free. rewrite count_blocks. reflexivity. }
    rewrite Hsum. unfold num_free. rewrite (net_np Hb).
    assert (EI : forall p, In p (nodup Nat.eq_dec (endpoints ws)) <-> In p (endpoints ws)) by (intros p; apply nodup_In).
    rewrite <- (@filter_remove_count (nodup Nat.eq_dec (endpoints ws)) (filter (child_free cs) (seq 0 (total_ports cs)))).
    + f_equal. f_equal.
      assert (Hff : forall (f g : nat -> bool) l, filter f (filter g l) = filter (fun x => g x && f x) l).
      { clear. intros f g l. induction l as [|a l IH]; [reflexivity|]. cbn. destruct (g a); cbn; rewrite IH; reflexivity. }
      rewrite Hff. apply filter_ext_In. intros p Hp. apply in_seq in Hp.
      destruct (located_exists (cs := cs) (p := p)) as (n & c & q & Hl); [lia|].
      unfold child_free. rewrite (block_vec_located _ _ Hl).
      apply eq_true_iff_eq. rewrite andb_true_iff, negb_true_iff, !free_at_spec.
      rewrite (net_unconnected Hnd Hb Hw Ho Hl).
      assert (Hex : existsb (Nat.eqb p) (nodup Nat.eq_dec (endpoints ws)) = false <-> ~ In p (endpoints ws)).
      { rewrite <- EI. rewrite <- not_true_iff_false, existsb_exists. split.
        - intros G Hin. apply G. exists p. split; [exact Hin|apply Nat.eqb_refl].
        - intros G (x & Hx & E). apply Nat.eqb_eq in E. subst. contradiction. }
      rewrite Hex. tauto.
    + apply NoDup_filter, seq_NoDup.
    + apply NoDup_nodup.
    + intros p Hp. apply EI in Hp. destruct (endpoints_located Hnd Hb Hw Ho Hp) as (n & c & q & Hl & Hu).
      apply filter_In. split.
      * apply in_seq. pose proof (located_lt Hl). lia.
      * unfold child_free. rewrite (block_vec_located _ _ Hl). now apply free_at_spec.
Qed.
Print Assumptions C04_exact.
(** A connection given twice does no harm; a port joined to two others does. *)
Example C04_exact_ex : exists b b', ubuild ring_mods (ring_conns ++ ["dc:2:wg:0"%string]) = Ok b /\ num_free b = 2
  /\ pairs_of b = [(2, 4); (3, 5); (4, 2); (5, 3)]
  /\ ubuild ring_mods ["dc:2:wg:0"; "dc:2:wg:1"]%string = Ok b' /\ num_free b' = 3 /\ pairs_of b' = [(2, 4); (2, 5); (4, 2); (5, 2)].
Proof. do 2 eexists. split; [vm_compute; reflexivity|]. split; [reflexivity|]. split; [reflexivity|]. split; [vm_compute; reflexivity|]. split; reflexivity. Qed.

(** * C10 *)
(** Which components [add_component] accepts: those for a name that no link has used, without a name or with this one.
    What was stored under the name before is gone, everything else stays. *)
Theorem C10_exact (X D : Type) (s : nstate X D) n c :
  (snd (add_component s n c) = None <-> ~ In n (ns_names s) /\ (o_name c = None \/ o_name c = Some n)) /\
  (snd (add_component s n c) = None -> stored (fst (add_component s n c)) n = Some (o_buf c)) /\
  (snd (add_component s n c) <> None -> fst (add_component s n c) = s) /\
  (forall m, m <> n -> stored (fst (add_component s n c)) m = stored s m).
Proof.
  assert (Ex : existsb (String.eqb n) (ns_names s) = true <-> In n (ns_names s)).
  { rewrite existsb_exists. split; [intros (x & I & E); apply String.eqb_eq in E; now subst|intros I; exists n; rewrite String.eqb_refl; auto]. }
  assert (Set1 : forall (l : list (string * cobj X D)), assoc String.eqb n (dict_set String.eqb n c l) = Some c).
  { induction l as [|[m d] l IH]; cbn; [now rewrite String.eqb_refl|]. destruct (String.eqb n m) eqn:E; cbn; rewrite ?String.eqb_refl, ?E; auto. }
  assert (Set2 : forall m (l : list (string * cobj X D)), m <> n -> assoc String.eqb m (dict_set String.eqb n c l) = assoc String.eqb m l).
  { intros m l N. apply String.eqb_neq in N. induction l as [|[m' d] l IH]; cbn; [now rewrite N|].
    destruct (String.eqb_spec n m') as [<-|E]; cbn; [now rewrite N|]. destruct (String.eqb m m'); auto. }
  unfold add_component, stored. destruct (existsb (String.eqb n) (ns_names s)) ; cbn [fst snd].
  - assert (I := proj1 Ex eq_refl). split; [split; [discriminate|tauto]|]. split; [discriminate|]. auto.
  - assert (NI : ~ In n (ns_names s)) by (intros I; apply (proj2 Ex) in I; discriminate).
    destruct (o_name c) as [m|] eqn:O; [destruct (String.eqb_spec m n) as [->|Nm]|]; cbn [fst snd ns_mods].
    + split; [tauto|]. split; [now rewrite Set1|]. split; [congruence|]. intros m Nm. now rewrite Set2.
    + split; [split; [discriminate|]; intros [_ [H|H]]; congruence|]. split; [discriminate|]. auto.
    + split; [tauto|]. split; [now rewrite Set1|]. split; [congruence|]. intros m Nm. now rewrite Set2.
Qed.
Print Assumptions C10_exact.
Example C10_exact_ex : snd (add_component (ns_empty unit unit) "a" {| o_name := Some "b"%string; o_buf := lf 2 |}) = Some ValueError /\
  snd (add_component (ns_empty unit unit) "a" {| o_name := Some "a"%string; o_buf := lf 2 |}) = None.
Proof. split; reflexivity. Qed.

(** * C05 *)
Lemma child_orders_located (X D : Type) (cs : list (string * buf X D)) p n c q : orders_ok cs -> located cs p n c q ->
  exists off, p = off + q /\ nth_error (child_orders 0 cs) p = option_map (fun k => off + k) (nth_error (b_order c) q).
Proof.
  intros Ho (pre & post & -> & -> & Hq). exists (ports_before pre). split; [reflexivity|].
  assert (G : forall off, (forall m d, In (m, d) (pre ++ (n, c) :: post) -> order_ok d) ->
    nth_error (child_orders off (pre ++ (n, c) :: post)) (ports_before pre + q) = option_map (fun k => off + ports_before pre + k) (nth_error (b_order c) q)).
  { clear Ho. induction pre as [|[m d] pre IH]; intros off Ho.
    - cbn [app child_orders ports_before]. assert (L : length (b_order c) = b_np c) by (rewrite (Permutation_length (Ho n c (or_introl eq_refl))), seq_length; reflexivity).
      rewrite nth_error_app1 by (rewrite map_length; cbn; lia). rewrite nth_error_map. cbn. destruct (nth_error (b_order c) q); cbn; [f_equal; lia|reflexivity].
    - assert (L : length (b_order d) = b_np d) by (rewrite (Permutation_length (Ho m d (or_introl eq_refl))), seq_length; reflexivity).
      cbn [app child_orders]. change (ports_before ((m, d) :: pre)) with (b_np d + ports_before pre). rewrite nth_error_app2 by (rewrite map_length; lia).
      rewrite map_length, L. replace (b_np d + ports_before pre + q - b_np d) with (ports_before pre + q) by lia.
      rewrite IH by (intros m' d' H'; apply (Ho m'); right; exact H'). destruct (nth_error (b_order c) q); cbn; [f_equal; lia|reflexivity]. }
  specialize (G 0 Ho). cbn [Nat.add] in G. exact G.
Qed.

(** The numbers declared by a network mean the declared ports exactly if every declared port is one that its
    component does not renumber; and always, the order of the network is the declared ports and then the
    others in their natural order, all of them looked up in the order of their component once more. *)
Theorem C05_exact (X D : Type) (x0 : X) (d0 : D) (cs : list (string * buf X D)) conns es b :
  NoDup (map fst cs) -> orders_ok cs -> net_buf x0 d0 cs conns = Ok b ->
  ext_list cs conns es -> numbered es (total_ports cs) ->
  ((forall j p, In (Z.of_nat j, p) es -> nth_error (b_order b) j = Some p) <->
   (forall z p n c q, In (z, p) es -> located cs p n c q -> nth_error (b_order c) q = Some q)) /\
  exists ext rest, (forall j p, nth_error ext j = Some p <-> In (Z.of_nat j, p) es) /\ StronglySorted lt rest /\
    (forall p, In p rest <-> p < total_ports cs /\ ~ In p ext) /\
    Forall2 (fun p p' => exists n c q off k, located cs p n c q /\ p = off + q /\ nth_error (b_order c) q = Some k /\ p' = off + k) (ext ++ rest) (b_order b).
Proof.
  intros Hnd Ho Hb He Hn. split; [split|].
  - intros H z p n c q Hz Hl. assert (K : exists j, z = Z.of_nat j).
    { pose proof (in_map fst _ _ Hz) as Hk. apply (Permutation_in _ (nb_keys Hn)) in Hk. apply in_map_iff in Hk. destruct Hk as (j & E & _). exists j. symmetry. exact E. }
    destruct K as (j & ->). specialize (H j p Hz).
    rewrite (C05_order_looked_up_twice Hnd Ho Hb He Hn Hz) in H. destruct (child_orders_located Ho Hl) as (off & -> & E). rewrite E in H.
    destruct (nth_error (b_order c) q) as [k|]; cbn in H; [|discriminate]. injection H as H. f_equal. lia.
  - intros H j p Hj. rewrite (C05_order_looked_up_twice Hnd Ho Hb He Hn Hj).
    destruct (located_exists (nb_lt Hn Hj)) as (n & c & q & Hl). destruct (child_orders_located Ho Hl) as (off & -> & E). rewrite E, (H _ _ _ _ _ Hj Hl). reflexivity.
  - exists (ext_ports es), (rest_ports es (total_ports cs)). split; [intros j p; apply (ext_ports_nth _ _ Hn)|].
    split; [unfold rest_ports; apply filter_sorted, seq_sorted|]. split; [intros p; rewrite rest_ports_In, (ext_ports_In _ Hn); reflexivity|].
    destruct (net_buf_inv Hb) as (Hord & _ & Hnp & _). rewrite (net_order_ok Hnd Ho He Hn) in Hord. apply Ok_inj in Hord. rewrite <- Hord, order_list_eq.
    assert (B : forall p, In p (ext_ports es ++ rest_ports es (total_ports cs)) -> p < total_ports cs).
    { intros p Hp. rewrite <- order_list_eq in Hp. apply (Permutation_in _ (order_list_perm Hn)) in Hp. apply in_seq in Hp. lia. }
    induction (ext_ports es ++ rest_ports es (total_ports cs)) as [|p l IH]; [constructor|]. cbn [map]. constructor; [|apply IH; intros p' Hp'; apply B; right; exact Hp'].
    destruct (located_exists (B p (or_introl eq_refl))) as (n & c & q & Hl). destruct (child_orders_located Ho Hl) as (off & E1 & E2).
    destruct (nth_error (b_order c) q) as [k|] eqn:Ek.
    + exists n, c, q, off, k. split; [exact Hl|]. split; [exact E1|]. split; [exact Ek|]. cbn in E2. apply nth_error_nth. exact E2.
    + exfalso. cbn in E2. apply nth_error_None in E2. rewrite (Permutation_length (child_orders_perm 0 Ho)), seq_length in E2. pose proof (B p (or_introl eq_refl)). lia.
Qed.

(** The network [wrapped] of C05_nested_refuted: its child renumbers both ports. *)
Example C05_exact_ex : exists s, ucompile swap = Ok s /\ nth_error (b_order s) 0 = Some 1 /\ nth_error (b_order s) 1 = Some 0 /\
  numbered [(0%Z, 1); (1%Z, 0)] (total_ports [("c"%string, s)]) /\ located [("c"%string, s)] 1 "c" s 1.
Proof.
  destruct (ucompile swap) as [s|] eqn:E; [|vm_compute in E; discriminate]. exists s. split; [reflexivity|].
  vm_compute in E. injection E as <-. split; [reflexivity|]. split; [reflexivity|]. split.
  - constructor; cbn.
    + apply Permutation_refl.
    + repeat constructor; cbn; intuition lia.
    + intros z p [H|[H|[]]]; injection H as <- <-; lia.
  - exists [], []. split; [reflexivity|]. split; [reflexivity|]. cbn. lia.
Qed.
Print Assumptions C05_exact.
