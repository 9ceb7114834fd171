(** Taking a subnetwork apart: a network with a subnetwork is the network of all the components. *)
From Coq Require Import Ring QArith Permutation.
From Verif Require Import Base PyStr NetModel NetSpec NetProofs WireProofs StateProofs NetBuild SimModel SimAlg SimSpec SimNodes SimProofs SimDelay SimRegular CircuitSpec CircuitProofs RelabelSpec Relabel.
Set Implicit Arguments.
Unset Strict Implicit.
Local Open Scope nat_scope.
Local Open Scope list_scope.

Section F.
Variables (K : Type) (k0 k1 : K) (kadd kmul ksub : K -> K -> K) (kopp : K -> K).
Hypothesis KR : ring_theory k0 k1 kadd kmul ksub kopp (@eq K).
Notation cx := (prod K K).
Notation c0 := (c0 k0).
Notation net := (buf (nat -> cx) Q).
Notation comps := (list (string * net)).
Notation net_buf := (@net_buf (nat -> cx) Q (fun _ => c0) 0%Q).
Notation build := (@build (nat -> cx) Q (fun _ => c0) 0%Q).
Notation is_net := (is_net k0).

(** ** Lists of components in two pieces *)
Lemma total_app (l1 l2 : comps) : total_ports (l1 ++ l2) = total_ports l1 + total_ports l2.
Proof. unfold total_ports. rewrite map_app. apply list_sum_app. Qed.
Lemma total_cons n (c : net) (l : comps) : total_ports ((n, c) :: l) = b_np c + total_ports l.
Proof. reflexivity. Qed.
Lemma block_vec_app {A} (sel : net -> nat -> A) d (l1 l2 : comps) i :
  block_vec sel d (l1 ++ l2) i = if i <? total_ports l1 then block_vec sel d l1 i else block_vec sel d l2 (i - total_ports l1).
Proof.
  revert i. induction l1 as [|[n c] l1 IH]; intros i; cbn [app].
  - change (total_ports []) with 0. cbn [Nat.ltb Nat.leb]. now rewrite Nat.sub_0_r.
  - cbn [block_vec]. rewrite total_cons, IH. destruct (Nat.ltb_spec i (b_np c)).
    + destruct (Nat.ltb_spec i (b_np c + total_ports l1)); [reflexivity|lia].
    + destruct (Nat.ltb_spec (i - b_np c) (total_ports l1)), (Nat.ltb_spec i (b_np c + total_ports l1)); try lia; [reflexivity|]. f_equal. lia.
Qed.
Lemma block_mat_app {A} (sel : net -> nat -> nat -> A) d (l1 l2 : comps) i j :
  block_mat sel d (l1 ++ l2) i j =
    if (i <? total_ports l1) && (j <? total_ports l1) then block_mat sel d l1 i j
    else if (i <? total_ports l1) || (j <? total_ports l1) then d
    else block_mat sel d l2 (i - total_ports l1) (j - total_ports l1).
Proof.
  revert i j. induction l1 as [|[n c] l1 IH]; intros i j; cbn [app].
  - change (total_ports []) with 0. cbn [Nat.ltb Nat.leb andb orb]. now rewrite !Nat.sub_0_r.
  - cbn [block_mat]. rewrite total_cons, IH.
    destruct (Nat.ltb_spec i (b_np c)), (Nat.ltb_spec j (b_np c)), (Nat.ltb_spec i (b_np c + total_ports l1)), (Nat.ltb_spec j (b_np c + total_ports l1)); try lia; cbn [andb orb]; try reflexivity;
      destruct (Nat.ltb_spec (i - b_np c) (total_ports l1)), (Nat.ltb_spec (j - b_np c) (total_ports l1)); try lia; cbn [andb orb]; try reflexivity.
    f_equal; lia.
Qed.
Lemma names_app (l1 l2 : comps) n k p : names_port (l1 ++ l2) n k p <-> names_port l1 n k p \/ exists p', p = total_ports l1 + p' /\ names_port l2 n k p'.
Proof.
  split.
  - intros (pre & c & post & q & E & R & ->). revert pre E. induction l1 as [|[m d] l1 IH]; intros pre E.
    + right. exists (ports_before pre + q). split; [reflexivity|]. exists pre, c, post, q. auto.
    + destruct pre as [|[m' d'] pre]; cbn [app] in E; injection E as -> -> E.
      * left. exists [], c, l1, q. auto.
      * destruct (IH pre E) as [(pre2 & c2 & post2 & q2 & F & R2 & F2)|(p' & F1 & F2)]; [left|right].
        -- exists ((m', d') :: pre2), c2, post2, q2. split; [now rewrite F|]. split; [exact R2|]. rewrite !ports_before_cons, <- !Nat.add_assoc. f_equal. exact F2.
        -- exists p'. split; [|exact F2]. rewrite total_cons, ports_before_cons, <- !Nat.add_assoc. f_equal. exact F1.
  - intros [(pre & c & post & q & -> & R & ->)|(p' & -> & pre & c & post & q & -> & R & ->)].
    + exists pre, c, (post ++ l2), q. rewrite <- app_assoc. auto.
    + exists (l1 ++ pre), c, post, q. rewrite <- app_assoc. split; [reflexivity|]. split; [exact R|]. rewrite ports_before_app. change (total_ports l1) with (ports_before l1). lia.
Qed.
Lemma names_cons m (d : net) (l : comps) n k p : names_port ((m, d) :: l) n k p <-> n = m /\ resolves d k p \/ exists p', p = b_np d + p' /\ names_port l n k p'.
Proof.
  change ((m, d) :: l) with ([(m, d)] ++ l). rewrite names_app. replace (total_ports [(m, d)]) with (b_np d) by (rewrite total_cons; symmetry; apply Nat.add_0_r).
  apply or_iff_compat_r. split.
  - intros (pre & c & post & q & E & R & ->). destruct pre as [|x pre]; [|destruct pre; discriminate]. injection E as -> -> _. auto.
  - intros [-> R]. exists [], d, [], p. auto.
Qed.
Lemma names_in (l : comps) n k p : names_port l n k p -> In n (map fst l).
Proof. intros (pre & c & post & q & -> & _). rewrite map_app. apply in_elt. Qed.

(** ** A network without the checks *)
Definition names_b (cs : comps) (n : string) (k : Z) (p : nat) : bool :=
  match assoc String.eqb n cs, start_of n cs with
  | Some b, Some st => match py_index (free_ports b) k with Ok q => p =? st + q | Err _ => false end
  | _, _ => false
  end.
Definition wires_b (cs : comps) (conn : string) (i j : nat) : bool :=
  match split_colon conn with
  | [n1; s1; n2; s2] => match py_int s1, py_int s2 with Some z1, Some z2 => names_b cs n1 z1 i && names_b cs n2 z2 j | _, _ => false end
  | _ => false
  end.
Lemma names_b_iff (cs : comps) n k p : NoDup (map fst cs) -> names_b cs n k p = true <-> names_port cs n k p.
Proof.
  intros ND. unfold names_b. split.
  - destruct (assoc String.eqb n cs) eqn:A; [|discriminate]. destruct (start_of n cs) eqn:B; [|discriminate].
    destruct (py_index _ _) eqn:C; [|discriminate]. rewrite Nat.eqb_eq. intros ->. eapply lookup_names_port; eassumption.
  - intros H. destruct (names_port_lookup H ND) as (b & st & q & -> & -> & -> & ->). apply Nat.eqb_refl.
Qed.
Lemma wires_b_iff (cs : comps) c i j : NoDup (map fst cs) -> wires_b cs c i j = true <-> wires cs c i j.
Proof.
  intros ND. unfold wires_b. split.
  - intros H. destruct (split_colon c) as [|n1 [|s1 [|n2 [|s2 [|]]]]] eqn:E; try discriminate.
    destruct (py_int s1) eqn:E1; [|discriminate]. destruct (py_int s2) eqn:E2; [|discriminate].
    apply andb_true_iff in H. rewrite !names_b_iff in H by exact ND. exists n1, s1, z, n2, s2, z0. tauto.
  - intros (n1 & s1 & z1 & n2 & s2 & z2 & -> & -> & -> & H1 & H2). apply andb_true_iff. rewrite !names_b_iff by exact ND. auto.
Qed.
Definition raw_net (cs : comps) (conns : list string) : net :=
  {| b_np := total_ports cs;
     b_C := fun i j => block_mat (@b_C (nat -> cx) Q) false cs i j || existsb (fun c => wires_b cs c i j || wires_b cs c j i) conns;
     b_src := block_vec (@b_src (nat -> cx) Q) false cs; b_det := block_vec (@b_det (nat -> cx) Q) false cs; b_act := block_vec (@b_act (nat -> cx) Q) false cs;
     b_order := []; b_S := block_mat (@b_S (nat -> cx) Q) (fun _ => c0) cs; b_del := block_vec (@b_del (nat -> cx) Q) 0%Q cs |}.
Lemma raw_is_net (cs : comps) conns : NoDup (map fst cs) -> is_net cs conns (raw_net cs conns).
Proof.
  intros ND. constructor; try reflexivity. intros i j. cbn [raw_net b_C]. rewrite orb_true_iff, block_inner, existsb_exists.
  apply or_iff_compat_l. split; intros (c & I & H); exists c; (split; [exact I|]); [apply orb_true_iff in H|apply orb_true_iff]; now rewrite !wires_b_iff in * by exact ND.
Qed.

Lemma ex_or {A} (l : list A) (P Q' : A -> Prop) : (exists c, In c l /\ (P c \/ Q' c)) <-> (exists c, In c l /\ P c) \/ (exists c, In c l /\ Q' c).
Proof. split; [intros (c & I & [H|H]); eauto|intros [(c & I & H)|(c & I & H)]; eauto]. Qed.

(** ** Flattening *)
Section One.
Variables (pre post ccs : comps) (n : string) (child b : net) (conns cconns fconns : list string).
Notation cs := (pre ++ (n, child) :: post).
Notation flat := (pre ++ ccs ++ post).
Hypothesis ND : NoDup (map fst cs).
Hypothesis NDc : NoDup (map fst ccs).
Hypothesis NDf : NoDup (map fst flat).
Hypothesis Hc : net_buf ccs cconns = Ok child.
Hypothesis Hb : net_buf cs conns = Ok b.

Notation flattens := (flattens ccs n child conns cconns fconns).
Notation flat_end := (flat_end ccs n child).
Notation flat_link := (flat_link ccs n child).
Hypothesis HF : flattens.

Lemma child_np : b_np child = total_ports ccs.
Proof. apply (net_buf_inv Hc). Qed.
Lemma n_out : ~ In n (map fst pre) /\ ~ In n (map fst post).
Proof. rewrite map_app in ND. cbn [map fst] in ND. apply NoDup_remove_2 in ND. split; intros I; apply ND, in_or_app; auto. Qed.
Lemma end_names m k m' k' p : flat_end m k m' k' -> names_port cs m k p -> names_port flat m' k' p.
Proof.
  intros HE HN. apply names_app in HN. apply names_app. destruct HE as [m k NE|k m' k' q R N].
  - destruct HN as [HN|(p' & -> & HN)]; [now left|right]. apply names_cons in HN. destruct HN as [[-> _]|(p'' & -> & HN)]; [congruence|].
    exists (b_np child + p''). split; [lia|]. apply names_app. right. exists p''. now rewrite <- child_np.
  - destruct HN as [HN|(p' & -> & HN)]; [now apply names_in, (proj1 n_out) in HN|right]. apply names_cons in HN.
    destruct HN as [[_ R']|(p'' & -> & HN)]; [|now apply names_in, (proj2 n_out) in HN].
    exists p'. split; [reflexivity|]. apply names_app. left. now rewrite (resolves_fun R' R).
Qed.
Lemma link_wires c c' i j : flat_link c c' -> wires cs c i j -> wires flat c' i j.
Proof.
  intros (n1 & s1 & z1 & n2 & s2 & z2 & m1 & t1 & y1 & m2 & t2 & y2 & E & E' & A1 & A2 & A3 & A4 & F1 & F2) (x1 & r1 & v1 & x2 & r2 & v2 & W & W1 & W2 & W3 & W4).
  rewrite E in W. injection W as <- <- <- <-. rewrite A1 in W1. rewrite A2 in W2. injection W1 as <-. injection W2 as <-.
  exists m1, t1, y1, m2, t2, y2. repeat split; auto; eapply end_names; eassumption.
Qed.
Lemma child_wires c i j : wires ccs c i j -> wires flat c (total_ports pre + i) (total_ports pre + j).
Proof.
  intros (x1 & r1 & v1 & x2 & r2 & v2 & W & W1 & W2 & W3 & W4). exists x1, r1, v1, x2, r2, v2.
  repeat split; auto; apply names_app; right; eexists; (split; [reflexivity|]); apply names_app; now left.
Qed.
Lemma wires_fun (l : comps) c i j i' j' : NoDup (map fst l) -> wires l c i j -> wires l c i' j' -> i = i' /\ j = j'.
Proof.
  intros D (x1 & r1 & v1 & x2 & r2 & v2 & W & W1 & W2 & W3 & W4) (x1' & r1' & v1' & x2' & r2' & v2' & V & V1 & V2 & V3 & V4).
  rewrite W in V. injection V as <- <- <- <-. rewrite W1 in V1. rewrite W2 in V2. injection V1 as <-. injection V2 as <-.
  split; eapply names_port_fun; eassumption.
Qed.
Lemma wires_len (l : comps) c i j : wires l c i j -> length (split_colon c) = 4.
Proof. intros (x1 & r1 & v1 & x2 & r2 & v2 & W & _). now rewrite W. Qed.
(** Every wire of a network that was built wires something. *)
Lemma built_wires (l : comps) cn (d : net) c : net_buf l cn = Ok d -> In c cn -> length (split_colon c) = 4 -> exists i j, wires l c i j.
Proof.
  intros H I L. destruct (wire_list_exists H) as [ws W]. clear H. induction W as [|c' cn' i j ws W1 W2 IH|c' cn' ws NL W2 IH]; [destruct I| |].
  - destruct I as [->|I]; eauto.
  - destruct I as [->|I]; [congruence|auto].
Qed.

Lemma flat_wires i j : (exists c, In c fconns /\ wires flat c i j) <->
  (exists c, In c conns /\ wires cs c i j) \/ exists i' j', i = total_ports pre + i' /\ j = total_ports pre + j' /\ exists c, In c cconns /\ wires ccs c i' j'.
Proof.
  split.
  - intros (c' & I & W). destruct (fl_only HF I (wires_len W)) as [(c & Ic & FL)|Ic].
    + left. exists c. split; [exact Ic|]. destruct (@built_wires cs conns b c Hb Ic) as (i0 & j0 & W0).
      { destruct FL as (n1 & s1 & z1 & n2 & s2 & z2 & m1 & t1 & y1 & m2 & t2 & y2 & E & _). now rewrite E. }
      destruct (wires_fun NDf W (link_wires FL W0)) as [-> ->]. exact W0.
    + right. destruct (built_wires Hc Ic (wires_len W)) as (i' & j' & W').
      destruct (wires_fun NDf W (child_wires W')) as [-> ->]. exists i', j'. eauto.
  - intros [(c & Ic & W)|(i' & j' & -> & -> & c & Ic & W)].
    + destruct (fl_outer HF Ic (wires_len W)) as (c' & I' & FL). exists c'. split; [exact I'|]. eapply link_wires; eassumption.
    + exists c. split; [exact (fl_inner HF Ic (wires_len W))|now apply child_wires].
Qed.
Hypothesis HOc : orders_ok ccs.
Lemma wires_lt c i j : wires ccs c i j -> i < b_np child /\ j < b_np child.
Proof.
  intros (x1 & r1 & v1 & x2 & r2 & v2 & W & W1 & W2 & W3 & W4). rewrite child_np.
  destruct (names_port_located HOc W3) as (d1 & q1 & L1 & _), (names_port_located HOc W4) as (d2 & q2 & L2 & _).
  split; [exact (located_lt L1)|exact (located_lt L2)].
Qed.
Lemma flat_inner i j : inner cs i j <-> inner flat i j
  \/ exists i' j', i = total_ports pre + i' /\ j = total_ports pre + j' /\ exists c, In c cconns /\ (wires ccs c i' j' \/ wires ccs c j' i').
Proof.
  rewrite <- !block_inner, !block_mat_app. pose proof (net_buf_C NDc Hc) as HC. cbn [block_mat]. rewrite <- child_np.
  assert (HR : forall i' j' c, wires ccs c i' j' \/ wires ccs c j' i' -> i' < b_np child /\ j' < b_np child).
  { intros i' j' c [W|W]; apply wires_lt in W; tauto. }
  destruct (Nat.ltb_spec i (total_ports pre)) as [Li|Li], (Nat.ltb_spec j (total_ports pre)) as [Lj|Lj]; cbn [andb orb];
    [split; [now left|]; intros [H|(i' & j' & -> & -> & _)]; [exact H|lia]..|].
  destruct (Nat.ltb_spec (i - total_ports pre) (b_np child)) as [Mi|Mi], (Nat.ltb_spec (j - total_ports pre) (b_np child)) as [Mj|Mj]; cbn [andb orb];
    [|split; [now left|]; intros [H|(i' & j' & -> & -> & c & _ & W)]; [exact H|apply HR in W; lia]..].
  rewrite HC, block_inner. apply or_iff_compat_l. split.
  - intros (c & I & W). exists (i - total_ports pre), (j - total_ports pre). repeat split; [lia|lia|eauto].
  - intros (i' & j' & -> & -> & c & I & W). replace (total_ports pre + i' - total_ports pre) with i' by lia. replace (total_ports pre + j' - total_ports pre) with j' by lia. eauto.
Qed.
Lemma flat_vec {A} (sel : net -> nat -> A) d i : sel child = block_vec sel d ccs -> block_vec sel d flat i = block_vec sel d cs i.
Proof.
  intros E. rewrite !block_vec_app. destruct (i <? total_ports pre); [reflexivity|]. cbn [block_vec]. rewrite child_np, E. reflexivity.
Qed.
Lemma flat_relabels : relabels (fun i => i) (fun i => i) b (raw_net flat fconns).
Proof.
  pose proof (built_net NDc Hc) as Nc. pose proof (built_net ND Hb) as Nb.
  assert (NF : is_net flat fconns (raw_net flat fconns)) by (now apply raw_is_net).
  assert (EN : total_ports flat = total_ports cs) by (rewrite !total_app, total_cons, child_np; reflexivity).
  constructor; auto.
  - rewrite (in_np Nb). exact EN.
  - intros i j Li Lj. apply eq_true_iff_eq. rewrite (in_C NF), (in_C Nb), flat_inner.
    pose proof (flat_wires i j) as W1. pose proof (flat_wires j i) as W2.
    assert (A : (exists c, In c fconns /\ (wires flat c i j \/ wires flat c j i)) <-> (exists c, In c fconns /\ wires flat c i j) \/ (exists c, In c fconns /\ wires flat c j i)) by apply ex_or.
    assert (B : (exists c, In c conns /\ (wires cs c i j \/ wires cs c j i)) <-> (exists c, In c conns /\ wires cs c i j) \/ (exists c, In c conns /\ wires cs c j i)) by apply ex_or.
    rewrite A, B, W1, W2. split.
    + intros [H|[[H|(i' & j' & -> & -> & c & I & W)]|[H|(i' & j' & -> & -> & c & I & W)]]]; [tauto|tauto| |tauto|].
      * left. right. exists i', j'. eauto 8.
      * left. right. exists j', i'. eauto 8.
    + intros [[H|(i' & j' & -> & -> & c & I & [W|W])]|H]; [tauto| | |tauto].
      * right. left. right. exists i', j'. eauto 8.
      * right. right. right. exists j', i'. eauto 8.
  - intros i j w Li Lj. rewrite (in_S NF), (in_S Nb), !block_mat_app.
    destruct ((i <? total_ports pre) && (j <? total_ports pre)); [reflexivity|]. destruct ((i <? total_ports pre) || (j <? total_ports pre)); [reflexivity|].
    cbn [block_mat]. rewrite child_np, (in_S Nc). reflexivity.
  - intros i Li. rewrite (in_src NF), (in_src Nb), (in_det NF), (in_det Nb), (in_act NF), (in_act Nb), (in_del NF), (in_del Nb).
    rewrite !flat_vec; auto; apply Nc.
Qed.
End One.

(** ** Components in any order *)
Notation idm := (fun _ : string => fun i : nat => i).
Notation ids := (fun n : string => n).
Lemma same_matched (cs cs' : comps) : (forall n c, In (n, c) cs <-> In (n, c) cs') -> matched ids ids idm idm cs cs'.
Proof.
  intros HP. split; intros n c I; (split; [reflexivity|]); exists c; (split; [now apply HP|apply relabels_id]).
Qed.
Lemma stands_id (c : net) : stands_for (fun i => i) (fun i => i) c c.
Proof. split; [apply relabels_id|]. intros fl. now rewrite map_id. Qed.
Lemma same_joins (cs cs' : comps) conns : NoDup (map fst cs') -> orders_ok cs -> (forall n c, In (n, c) cs <-> In (n, c) cs') ->
  forall n1 q1 n2 q2, joins cs conns n1 q1 n2 q2 -> joins cs' conns n1 q1 n2 q2.
Proof.
  intros ND' HO HP n1 q1 n2 q2 (cn & i & j & c1 & c2 & I & W & L1 & L2). pose proof (same_matched HP) as M.
  destruct (there ND' M L1) as (c1' & _ & L1'), (there ND' M L2) as (c2' & _ & L2').
  exists cn, (move ids idm cs cs' i), (move ids idm cs cs' j), c1', c2'. split; [exact I|]. split; [|split; assumption].
  assert (HF : forall n c c', In (n, c) cs -> In (n, c') cs' -> stands_for (fun i => i) (fun i => i) c c').
  { intros n c c' H1 H2. apply HP in H1. rewrite (part_unique ND' H1 H2). apply stands_id. }
  assert (HW : forall i j, wires cs cn i j -> wires cs' cn (move ids idm cs cs' i) (move ids idm cs cs' j)).
  { intros i0 j0 (m1 & s1 & z1 & m2 & s2 & z2 & W0 & W1 & W2 & W3 & W4). exists m1, s1, z1, m2, s2, z2.
    apply (names_moved ND' HO M HF) in W3. apply (names_moved ND' HO M HF) in W4. auto 10. }
  destruct W as [W|W]; apply HW in W; auto.
Qed.

Theorem flat_relabel (cs ccs fs : comps) n child b b' conns cconns fconns :
  NoDup (map fst cs) -> NoDup (map fst ccs) -> NoDup (map fst fs) -> orders_ok ccs -> orders_ok fs ->
  net_buf ccs cconns = Ok child -> net_buf cs conns = Ok b -> net_buf fs fconns = Ok b' -> In (n, child) cs ->
  (forall m, In m (map fst ccs) -> ~ In m (map fst cs) \/ m = n) ->
  (forall m c, In (m, c) fs <-> In (m, c) ccs \/ m <> n /\ In (m, c) cs) ->
  flattens ccs n child conns cconns fconns ->
  exists f g, relabels f g b b' /\ forall p m c q, part_of cs n ccs p m c q -> located fs (f p) m c q.
Proof.
  intros ND NDc NDf HOc HOf Hc Hb Hf Hn HD HP HF.
  apply in_split in Hn. destruct Hn as (pre & post & E). subst cs.
  pose proof (@n_out pre post n child ND) as [O1 O2].
  assert (ND1 : NoDup (map fst (pre ++ post))).
  { rewrite map_app in *. cbn [map fst] in ND. now apply NoDup_remove_1 in ND. }
  assert (NDx : NoDup (map fst (pre ++ ccs ++ post))).
  { rewrite !map_app in *. apply Permutation_NoDup with (l := map fst ccs ++ map fst pre ++ map fst post); [apply Permutation_app_swap_app|].
    clear - NDc ND1 HD O1 O2. induction (map fst ccs) as [|x l IH]; [exact ND1|]. cbn [app]. inversion NDc as [|? ? H1 H2]; subst.
    constructor; [|apply IH; [exact H2|intros m I; apply HD; now right]].
    intros I. apply in_app_or in I. destruct I as [I|I]; [now apply H1|]. destruct (HD x (or_introl eq_refl)) as [H| ->].
    - apply H. cbn [map]. apply in_app_or in I. apply in_or_app. destruct I; [now left|right; now right].
    - apply in_app_or in I. tauto. }
  pose proof (@flat_relabels pre post ccs n child b conns cconns fconns ND NDc NDx Hc Hb HF HOc) as R1.
  assert (HPx : forall m c, In (m, c) (pre ++ ccs ++ post) <-> In (m, c) fs).
  { intros m c. rewrite HP, !in_app_iff. cbn [In]. split.
    - intros [I|[I|I]]; [right|now left|right]; (split; [intros ->; apply (in_map fst) in I; tauto|]); auto.
    - intros [I|[NE [I|[I|I]]]]; auto. congruence. }
  assert (HOx : orders_ok (pre ++ ccs ++ post)) by (intros m c I; apply (HOf m), HPx, I).
  pose proof (same_matched HPx) as M.
  pose proof (@matched_relabel _ k0 ids ids idm idm _ _ fconns fconns _ _ NDx NDf M (raw_is_net fconns NDx) (built_net NDf Hf)
    (same_joins (conns := fconns) NDf HOx HPx) (same_joins (conns := fconns) NDx HOf (fun n c => iff_sym (HPx n c)))) as R2.
  eexists _, _. split; [exact (relabels_trans R1 R2)|]. cbn beta.
  intros p m c q L.
  assert (L' : located (pre ++ ccs ++ post) p m c q).
  { destruct L as [[NE (pre1 & post1 & E & -> & Lq)]|(d & r & (pre1 & post1 & E & -> & Lr) & (pre2 & post2 & E2 & -> & Lq))].
    - destruct (app_split_cases E) as [(_ & E1 & _)|[(mid & E1 & E2)|(mid & E1 & E2)]]; [injection E1 as <- _; congruence| |].
      + subst. exists (pre ++ ccs ++ mid), post1. rewrite <- !app_assoc. split; [reflexivity|]. split; [|exact Lq].
        rewrite !ports_before_app, ports_before_cons. pose proof (child_np Hc) as CN. unfold total_ports in CN. fold (ports_before ccs) in CN. lia.
      + subst. exists pre1, (mid ++ ccs ++ post). rewrite <- !app_assoc. auto.
    - destruct (decomp_unique ND eq_refl E) as (-> & <- & ->). subst ccs. exists (pre1 ++ pre2), (post2 ++ post1).
      rewrite <- !app_assoc. cbn [app]. split; [reflexivity|]. split; [rewrite ports_before_app; lia|exact Lq]. }
  destruct (there NDf M L') as (c' & _ & L2). assert (c' = c) as <-; [|exact L2].
  apply located_In in L2. apply located_In, HPx in L'. exact (part_unique NDf L2 L').
Qed.
End F.
