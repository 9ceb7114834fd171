(** Building networks from typed connections that use every free port at most once. *)
From Coq Require Import Permutation.
From Verif Require Import Base PyStr PyStrProofs NetModel NetSpec LinkProofs NetProofs WireProofs OrderProofs TypedNet TermProofs NetBuild.
Set Implicit Arguments.
Unset Strict Implicit.
Local Open Scope list_scope.
Local Open Scope nat_scope.

(** Ports mentioned by a connection, and its external number. *)
Definition tends (t : tconn) : list (string * nat) :=
  match t with TW n1 k1 n2 k2 => [(n1, k1); (n2, k2)] | TE n k _ => [(n, k)] end.
Definition tnum (t : tconn) : list nat := match t with TW _ _ _ _ => [] | TE _ _ j => [j] end.
Definition is_wire (t : tconn) : bool := match t with TW _ _ _ _ => true | TE _ _ _ => false end.

Section G.
Variables (X D : Type) (x0 : X) (d0 : D).
Notation buf := (buf X D).
Notation comps := (list (string * buf)).

Definition fd (c : buf) : nat := length (free_ports c).
Definition all_ends (mods : comps) : list (string * nat) :=
  flat_map (fun nc => map (pair (fst nc)) (seq 0 (fd (snd nc)))) mods.

(** What is required of components, and what networks then satisfy again. *)
Record part_ok (c : buf) : Prop := {
  po_order : order_ok c;
  po_flags : flags_ok c;
  po_once : at_most_one_partner c;
  po_sym : sym_C c
}.

Lemma in_all_ends (mods : comps) n k : In (n, k) (all_ends mods) <-> exists c, In (n, c) mods /\ k < fd c.
Proof.
  unfold all_ends. rewrite in_flat_map. split.
  - intros ((m & c) & Hin & H). cbn in H. apply in_map_iff in H. destruct H as (j & E & Hj). injection E as -> ->.
    apply in_seq in Hj. exists c. split; [exact Hin|lia].
  - intros (c & Hin & Hk). exists (n, c). split; [exact Hin|]. cbn. apply in_map, in_seq. lia.
Qed.

Lemma NoDup_pairs (n : string) (l : list nat) : NoDup l -> NoDup (map (pair n) l).
Proof. apply FinFun.Injective_map_NoDup. intros a b E. now injection E. Qed.

Lemma NoDup_app' {A} (l r : list A) : NoDup l -> NoDup r -> (forall x, In x l -> ~ In x r) -> NoDup (l ++ r).
Proof.
  induction l as [|a l IH]; intros Hl Hr Hd; [exact Hr|]. cbn. inversion Hl; subst. constructor.
  - rewrite in_app_iff. intros [H|H]; [contradiction|]. apply (Hd a); [now left|exact H].
  - apply IH; auto. intros x Hx. apply Hd. now right.
Qed.

Lemma NoDup_right {A} (l r : list A) : NoDup (l ++ r) -> NoDup r.
Proof. induction l as [|a l IH]; cbn; [auto|]. intros H. inversion H; auto. Qed.
Lemma NoDup_left {A} (l r : list A) : NoDup (l ++ r) -> NoDup l.
Proof.
  induction l as [|a l IH]; cbn; [constructor|]. intros H. inversion H as [|? ? Hn Hr]; subst. constructor; auto.
  intros Hi. apply Hn, in_or_app. auto.
Qed.

Lemma all_ends_NoDup (mods : comps) : NoDup (map fst mods) -> NoDup (all_ends mods).
Proof.
  induction mods as [|[n c] mods IH]; intros H; [constructor|]. cbn in H. inversion H as [|? ? Hn Hnd]; subst.
  unfold all_ends. cbn [flat_map fst snd]. fold (all_ends mods). apply NoDup_app'.
  - apply NoDup_pairs, seq_NoDup.
  - now apply IH.
  - intros x Hx Hy. apply in_map_iff in Hx. destruct Hx as (k & <- & _). apply in_all_ends in Hy.
    destruct Hy as (c' & Hin & _). apply Hn. change n with (fst (n, c')). now apply in_map.
Qed.

Definition loc (cs : comps) (e : string * nat) : nat :=
  match assoc String.eqb (fst e) cs, start_of (fst e) cs with
  | Some c, Some st => st + nth (snd e) (free_ports c) 0
  | _, _ => 0
  end.

Lemma fd_lt (c : buf) k : order_ok c -> k < fd c -> nth k (free_ports c) 0 < b_np c /\ unconnected c (nth k (free_ports c) 0).
Proof.
  intros Ho Hk. assert (H : In (nth k (free_ports c) 0) (free_ports c)) by (apply nth_In; exact Hk).
  unfold free_ports in H at 2. apply filter_In in H. destruct H as [H1 H2]. split; [now apply order_ok_lt|now apply free_at_spec].
Qed.

Section Parts.
Variable cs : comps.
Hypothesis Hnd : NoDup (map fst cs).
Hypothesis Hok : forall n c, In (n, c) cs -> part_ok c.

Lemma cs_orders_ok : orders_ok cs.
Proof. intros n c H. apply (po_order (Hok H)). Qed.

Lemma loc_decomp n c k : In (n, c) cs -> k < fd c ->
  exists pre post, cs = pre ++ (n, c) :: post /\ loc cs (n, k) = ports_before pre + nth k (free_ports c) 0
    /\ assoc String.eqb n cs = Some c /\ start_of n cs = Some (ports_before pre).
Proof.
  intros Hin Hk. pose proof (assoc_nodup Hnd Hin) as Ha.
  destruct (lookup_decomp Ha) as (pre & post & E & _ & St). exists pre, post.
  split; [exact E|]. split; [|auto]. unfold loc. cbn [fst snd]. rewrite Ha, St. reflexivity.
Qed.

Lemma loc_gport n k : In (n, k) (all_ends cs) -> gport cs n k (loc cs (n, k)).
Proof.
  intros H. apply in_all_ends in H. destruct H as (c & Hin & Hk).
  destruct (loc_decomp Hin Hk) as (pre & post & E & El & Ha & Hs). rewrite El.
  exists c, (ports_before pre), (nth k (free_ports c) 0). split; [exact Ha|]. split; [exact Hs|].
  split; [|reflexivity]. apply nth_error_nth'. exact Hk.
Qed.

Lemma loc_located n c k : In (n, c) cs -> k < fd c -> located cs (loc cs (n, k)) n c (nth k (free_ports c) 0).
Proof.
  intros Hin Hk. destruct (loc_decomp Hin Hk) as (pre & post & E & El & _). rewrite El.
  exists pre, post. split; [exact E|]. split; [reflexivity|]. now apply fd_lt; [apply (po_order (Hok Hin))|].
Qed.

Lemma loc_lt e : In e (all_ends cs) -> loc cs e < total_ports cs.
Proof.
  destruct e as [n k]. intros H. apply in_all_ends in H. destruct H as (c & Hin & Hk).
  eapply located_lt. apply (loc_located Hin Hk).
Qed.

Lemma loc_inj e e' : In e (all_ends cs) -> In e' (all_ends cs) -> loc cs e = loc cs e' -> e = e'.
Proof.
  destruct e as [n k], e' as [n' k']. intros H H' E. apply in_all_ends in H, H'.
  destruct H as (c & Hin & Hk), H' as (c' & Hin' & Hk').
  destruct (loc_located Hin Hk) as (pre & post & E1 & P1 & L1).
  destruct (loc_located Hin' Hk') as (pre' & post' & E2 & P2 & L2).
  assert (EP : ports_before pre + nth k (free_ports c) 0 = ports_before pre' + nth k' (free_ports c') 0) by congruence.
  destruct (located_unique E1 E2 L1 L2 EP) as (_ & <- & <- & _ & E3). f_equal.
  assert (ND : NoDup (free_ports c)) by (apply NoDup_filter, order_ok_NoDup, (po_order (Hok Hin))).
  rewrite NoDup_nth in ND. apply (ND k k' Hk Hk' E3).
Qed.

Variable ts : list tconn.
Hypothesis Hends : forall e, In e (flat_map tends ts) -> In e (all_ends cs).
Hypothesis Hend1 : NoDup (flat_map tends ts).
Hypothesis Hnames : forall n, In n (flat_map tnames ts) -> good_name n.

Definition ws_of (l : list tconn) : list (nat * nat) :=
  flat_map (fun t => match t with TW n1 k1 n2 k2 => [(loc cs (n1, k1), loc cs (n2, k2))] | TE _ _ _ => [] end) l.
Definition es_of (l : list tconn) : list (Z * nat) :=
  flat_map (fun t => match t with TW _ _ _ _ => [] | TE n k j => [(Z.of_nat j, loc cs (n, k))] end) l.

Lemma ts_means : tmeans cs ts (ws_of ts) (es_of ts).
Proof.
  revert Hends Hend1 Hnames. generalize ts. induction ts0 as [|t l IH]; intros H1 H2 H3; [constructor|].
  assert (IH' : tmeans cs l (ws_of l) (es_of l)).
  { apply IH.
    - intros e He. apply H1. cbn [flat_map]. apply in_or_app. auto.
    - cbn [flat_map] in H2. now apply NoDup_right in H2.
    - intros n Hn. apply H3. cbn [flat_map]. apply in_or_app. auto. }
  destruct t as [n1 k1 n2 k2|n k j]; cbn [ws_of es_of flat_map app].
  - apply tm_wire; auto.
    + apply H3. now left.
    + apply H3. right. now left.
    + apply loc_gport, H1. now left.
    + apply loc_gport, H1. right. now left.
    + intros [-> ->]. cbn in H2. inversion H2 as [|? ? Hni _]; subst. apply Hni. now left.
  - apply tm_ext; auto.
    + apply H3. now left.
    + apply loc_gport, H1. now left.
Qed.

Lemma ends_perm l : Permutation (endpoints (ws_of l) ++ map snd (es_of l)) (map (loc cs) (flat_map tends l)).
Proof.
  induction l as [|[n1 k1 n2 k2|n k j] l IH]; [constructor| |].
  - cbn. apply perm_skip, perm_skip. exact IH.
  - cbn [flat_map tends ws_of es_of app map snd]. cbn. eapply Permutation_trans; [|apply perm_skip, IH].
    apply Permutation_sym, Permutation_middle.
Qed.

Lemma map_loc_NoDup (l : list (string * nat)) : (forall e, In e l -> In e (all_ends cs)) -> NoDup l -> NoDup (map (loc cs) l).
Proof.
  induction l as [|e l IH]; intros H1 H2; [constructor|]. inversion H2; subst. cbn. constructor.
  - intros H. apply in_map_iff in H. destruct H as (e' & E & He'). apply loc_inj in E; [subst; contradiction| |].
    + apply H1. now right.
    + apply H1. now left.
  - apply IH; auto. intros x Hx. apply H1. now right.
Qed.

Lemma all_loc_NoDup : NoDup (endpoints (ws_of ts) ++ map snd (es_of ts)).
Proof. eapply Permutation_NoDup; [apply Permutation_sym, ends_perm|]. apply map_loc_NoDup; auto. Qed.

Lemma ws_NoDup : NoDup (endpoints (ws_of ts)).
Proof. apply (NoDup_left all_loc_NoDup). Qed.

Lemma es_keys l : map fst (es_of l) = map Z.of_nat (flat_map tnum l).
Proof. induction l as [|[n1 k1 n2 k2|n k j] l IH]; cbn; [reflexivity|exact IH|]. f_equal. exact IH. Qed.

Lemma es_length l : length (es_of l) = length (flat_map tnum l).
Proof. rewrite <- (map_length fst), es_keys, map_length. reflexivity. Qed.

Lemma es_In l z p : In (z, p) (es_of l) <-> exists n k j, In (TE n k j) l /\ z = Z.of_nat j /\ p = loc cs (n, k).
Proof.
  unfold es_of. rewrite in_flat_map. split.
  - intros ([n1 k1 n2 k2|n k j] & H & Hz); cbn in Hz; [contradiction|]. destruct Hz as [[= <- <-]|[]]. eauto 6.
  - intros (n & k & j & H & -> & ->). exists (TE n k j). split; [exact H|now left].
Qed.

Lemma ws_In l i j : In (i, j) (ws_of l) <-> exists n1 k1 n2 k2, In (TW n1 k1 n2 k2) l /\ i = loc cs (n1, k1) /\ j = loc cs (n2, k2).
Proof.
  unfold ws_of. rewrite in_flat_map. split.
  - intros ([n1 k1 n2 k2|n k m] & H & Hz); cbn in Hz; [|contradiction]. destruct Hz as [[= <- <-]|[]]. eauto 8.
  - intros (n1 & k1 & n2 & k2 & H & -> & ->). exists (TW n1 k1 n2 k2). split; [exact H|now left].
Qed.

Variable m : nat.
Hypothesis Hnum : Permutation (flat_map tnum ts) (seq 0 m).

Lemma ts_numbered : numbered (es_of ts) (total_ports cs).
Proof.
  constructor.
  - rewrite es_keys, es_length, (Permutation_length Hnum), seq_length. now apply Permutation_map.
  - apply (NoDup_right all_loc_NoDup).
  - intros z p H. apply es_In in H. destruct H as (n & k & j & Hin & _ & ->). apply loc_lt, Hends.
    apply in_flat_map. exists (TE n k j). split; [exact Hin|now left].
Qed.

Variable b : buf.
Hypothesis Hb : net_buf x0 d0 cs (map tstr ts) = Ok b.

Lemma ts_wl : wire_list cs (map tstr ts) (ws_of ts).
Proof. exact (tmeans_wire_list Hnd ts_means). Qed.
Lemma ts_el : ext_list cs (map tstr ts) (es_of ts).
Proof. exact (tmeans_ext_list Hnd ts_means). Qed.

Lemma net_part_ok : part_ok b.
Proof.
  constructor.
  - exact (net_order_perm Hnd cs_orders_ok Hb ts_el ts_numbered).
  - pose proof Hb as Hb0. unfold net_buf in Hb0. clear - Hb0. inv_res. eapply check_flags. eassumption.
  - apply (net_partner Hnd Hb ts_wl cs_orders_ok); [|exact ws_NoDup]. intros n c H. apply (po_once (Hok H)).
  - apply (net_sym Hnd Hb). intros n c H. apply (po_sym (Hok H)).
Qed.

Lemma net_wire n1 k1 n2 k2 : In (TW n1 k1 n2 k2) ts ->
  b_C b (loc cs (n1, k1)) (loc cs (n2, k2)) = true /\ b_C b (loc cs (n2, k2)) (loc cs (n1, k1)) = true.
Proof.
  intros H. assert (Hw : In (loc cs (n1, k1), loc cs (n2, k2)) (ws_of ts)) by (apply ws_In; eauto 8).
  split; apply (C_wires Hnd Hb ts_wl); auto.
Qed.

Definition wire_ends : list (string * nat) := flat_map tends (filter is_wire ts).

Lemma wire_ends_In e : In e wire_ends <-> exists n1 k1 n2 k2, In (TW n1 k1 n2 k2) ts /\ (e = (n1, k1) \/ e = (n2, k2)).
Proof.
  unfold wire_ends. rewrite in_flat_map. split.
  - intros (t & Ht & He). apply filter_In in Ht. destruct Ht as [Ht Hw]. destruct t as [n1 k1 n2 k2|]; [|discriminate].
    exists n1, k1, n2, k2. split; [exact Ht|]. destruct He as [<-|[<-|[]]]; auto.
  - intros (n1 & k1 & n2 & k2 & H & He). exists (TW n1 k1 n2 k2). split; [apply filter_In; auto|].
    cbn. destruct He as [->| ->]; auto.
Qed.

Lemma net_free n c k : In (n, c) cs -> k < fd c -> (unconnected b (loc cs (n, k)) <-> ~ In (n, k) wire_ends).
Proof.
  intros Hin Hk. rewrite (net_unconnected Hnd Hb ts_wl cs_orders_ok (loc_located Hin Hk)).
  assert (Hu : unconnected c (nth k (free_ports c) 0)) by (apply fd_lt; [apply (po_order (Hok Hin))|exact Hk]).
  assert (Ha : In (n, k) (all_ends cs)) by (apply in_all_ends; eauto).
  assert (HH : In (loc cs (n, k)) (endpoints (ws_of ts)) <-> In (n, k) wire_ends).
  { rewrite endpoint_In, wire_ends_In. split.
    - intros (j & [H|H]); apply ws_In in H; destruct H as (n1 & k1 & n2 & k2 & H & E1 & E2); exists n1, k1, n2, k2; split; auto.
      + left. apply loc_inj; auto. apply Hends, in_flat_map. exists (TW n1 k1 n2 k2). split; [exact H|now left].
      + right. apply loc_inj; auto. apply Hends, in_flat_map. exists (TW n1 k1 n2 k2). split; [exact H|right; now left].
    - intros (n1 & k1 & n2 & k2 & H & [E|E]); rewrite E.
      + exists (loc cs (n2, k2)). left. apply ws_In. eauto 8.
      + exists (loc cs (n1, k1)). right. apply ws_In. eauto 8. }
  rewrite HH. tauto.
Qed.

(** Networks that number all their free ports, with parts in standard order. *)
Lemma net_ports_named : (forall n c, In (n, c) cs -> b_order c = seq 0 (b_np c)) ->
  (forall e, In e (all_ends cs) -> In e (flat_map tends ts)) ->
  length (free_ports b) = m /\ forall n k j, In (TE n k j) ts -> nth_error (free_ports b) j = Some (loc cs (n, k)).
Proof.
  intros Hid Hcov.
  assert (Hsep : forall n k j, In (TE n k j) ts -> ~ In (n, k) wire_ends).
  { intros n k j H1 H2. apply wire_ends_In in H2. destruct H2 as (n1 & k1 & n2 & k2 & H2 & H3).
    revert H1 H2 H3. revert Hend1. clear. intros Hnd1 H1 H2 H3.
    induction ts as [|t l IH]; [destruct H1|]. cbn [flat_map] in Hnd1.
    destruct H1 as [->|H1], H2 as [E|H2]; try discriminate.
    - cbn in Hnd1. inversion Hnd1 as [|? ? Hni _]; subst. apply Hni, in_flat_map.
      exists (TW n1 k1 n2 k2). split; [exact H2|]. cbn. destruct H3 as [E|E]; rewrite E; auto.
    - subst t. cbn in Hnd1. inversion Hnd1 as [|? ? Ha Hr]; subst. inversion Hr as [|? ? Hb' _]; subst.
      assert (HI : In (n, k) (flat_map tends l)) by (apply in_flat_map; exists (TE n k j); split; [exact H1|now left]).
      destruct H3 as [E|E]; rewrite E in HI; [apply Ha; now right|contradiction].
    - apply NoDup_right in Hnd1. auto. }
  assert (Hu : forall z p, In (z, p) (es_of ts) -> unconnected b p).
  { intros z p H. apply es_In in H. destruct H as (n & k & j & Hin & _ & ->).
    assert (Ha : In (n, k) (all_ends cs)) by (apply Hends, in_flat_map; exists (TE n k j); split; [exact Hin|now left]).
    apply in_all_ends in Ha. destruct Ha as (c & Hc & Hk). apply (net_free Hc Hk). eauto. }
  destruct (net_external_ports Hnd Hid Hb ts_el ts_numbered Hu) as (ext & rest & Hfl & Hext & _ & Hrest).
  apply free_list_ports in Hfl.
  assert (Er : rest = []).
  { destruct rest as [|p rest]; [reflexivity|]. exfalso. destruct (proj1 (Hrest p) (or_introl eq_refl)) as (Hp & Hpu & Hpe).
    rewrite (proj1 (proj2 (proj2 (net_buf_inv Hb)))) in Hp. destruct (located_exists Hp) as (n & c & q & Hl).
    assert (Hin : In (n, c) cs) by (destruct Hl as (pre & post & -> & _); apply in_elt).
    pose proof (proj1 (net_unconnected Hnd Hb ts_wl cs_orders_ok Hl) Hpu) as [Hq Hnw].
    assert (Hqf : In q (free_ports c)).
    { apply filter_In. split; [|now apply free_at_spec]. destruct Hl as (_ & _ & _ & _ & Lq).
      apply (Permutation_in q (Permutation_sym (po_order (Hok Hin)))), in_seq. lia. }
    apply In_nth with (d := 0) in Hqf. destruct Hqf as (k & Hk & Ek).
    assert (El : loc cs (n, k) = p).
    { destruct (loc_located Hin Hk) as (pre & post & E1 & P1 & L1). destruct Hl as (pre' & post' & E2 & P2 & L2).
      destruct (decomp_unique Hnd E1 E2) as (-> & _ & _). rewrite P1, P2, Ek. reflexivity. }
    assert (Ha : In (n, k) (flat_map tends ts)) by (apply Hcov, in_all_ends; eauto).
    apply in_flat_map in Ha. destruct Ha as ([n1 k1 n2 k2|n1 k1 j] & Ht & He).
    - rewrite <- El in Hpu. apply (net_free Hin Hk) in Hpu. apply Hpu, wire_ends_In. exists n1, k1, n2, k2. split; [exact Ht|].
      destruct He as [<-|[<-|[]]]; auto.
    - destruct He as [[= -> ->]|[]]. apply Hpe.
      assert (Hx : In (Z.of_nat j, p) (es_of ts)) by (apply es_In; rewrite <- El; eauto 8).
      apply Hext in Hx. eapply nth_error_In; exact Hx. }
  subst rest. rewrite app_nil_r in Hfl. rewrite <- Hfl. split.
  - transitivity (length (es_of ts)); [|rewrite es_length, (Permutation_length Hnum), seq_length; reflexivity].
    assert (HP : forall j, j < length ext <-> j < m).
    { intros j. rewrite <- nth_error_Some. split.
      - intros H. destruct (nth_error ext j) as [p|] eqn:E; [|congruence]. apply Hext in E. apply es_In in E.
        destruct E as (n & k & j' & Ht & Ej & _). apply Nat2Z.inj in Ej. subst j'.
        assert (Hj : In j (seq 0 m)) by (apply (Permutation_in j Hnum), in_flat_map; exists (TE n k j); split; [exact Ht|now left]).
        apply in_seq in Hj. lia.
      - intros H. assert (Hj : In j (flat_map tnum ts)) by (apply (Permutation_in j (Permutation_sym Hnum)), in_seq; lia).
        apply in_flat_map in Hj. destruct Hj as ([|n k j'] & Ht & He); [contradiction|]. destruct He as [->|[]].
        assert (Hx : In (Z.of_nat j, loc cs (n, k)) (es_of ts)) by (apply es_In; eauto 8).
        apply Hext in Hx. congruence. }
    rewrite es_length, (Permutation_length Hnum), seq_length.
    destruct (lt_eq_lt_dec (length ext) m) as [[L|L]|L]; [apply HP in L; lia|exact L|apply HP in L; lia].
  - intros n k j H. apply Hext, es_In. eauto 8.
Qed.

(** Networks without external numbers. *)
Lemma net_ports_rest (keep : string -> list nat) : m = 0 ->
  (forall n c, In (n, c) cs -> exists f, keep n = filter f (seq 0 (fd c))) ->
  (forall n c k, In (n, c) cs -> k < fd c -> (In k (keep n) <-> ~ In (n, k) wire_ends)) ->
  free_ports b = flat_map (fun nc => map (fun k => loc cs (fst nc, k)) (keep (fst nc))) cs.
Proof.
  intros Hm Hkf Hk.
  assert (Hes : es_of ts = []).
  { apply length_zero_iff_nil. rewrite es_length, (Permutation_length Hnum), seq_length. exact Hm. }
  assert (Eo : b_order b = child_orders 0 cs).
  { destruct (net_buf_inv Hb) as (Hord & _). rewrite (net_order_ok Hnd cs_orders_ok ts_el ts_numbered) in Hord.
    apply Ok_inj in Hord. rewrite <- Hord, Hes. unfold order_list. cbn [length seq flat_map app existsb negb].
    rewrite filter_all by auto. pose proof (Permutation_length (child_orders_perm 0 cs_orders_ok)) as HL. rewrite seq_length in HL.
    rewrite <- HL. generalize (child_orders 0 cs). intros l.
    induction l as [|a l IH]; [reflexivity|]. cbn [length seq map nth]. f_equal. rewrite <- seq_shift, map_map. exact IH. }
  unfold free_ports at 1. rewrite Eo.
  assert (Hgen : forall pre l, cs = pre ++ l -> filter (free_at b) (child_orders (ports_before pre) l)
     = flat_map (fun nc => map (fun k => loc cs (fst nc, k)) (keep (fst nc))) l).
  { intros pre l. revert pre. induction l as [|[n c] l IH]; intros pre E; [reflexivity|].
    cbn [child_orders flat_map fst]. rewrite filter_app.
    assert (Hin : In (n, c) cs) by (rewrite E; apply in_elt).
    f_equal.
    - rewrite filter_map_comm.
      assert (E1 : filter (fun q => free_at b (ports_before pre + q)) (b_order c)
        = filter (fun q => negb (existsb (Nat.eqb (ports_before pre + q)) (endpoints (ws_of ts)))) (free_ports c)).
      { assert (Hlt : forall q, In q (b_order c) -> q < b_np c) by (intros q; apply order_ok_lt, (po_order (Hok Hin))).
        unfold free_ports. revert Hlt. generalize (b_order c). induction l0 as [|q l0 IH0]; intros Hlt; [reflexivity|].
        cbn [filter]. assert (Hl : located cs (ports_before pre + q) n c q).
        { exists pre, l. split; [exact E|]. split; [reflexivity|]. apply Hlt. now left. }
        pose proof (net_unconnected Hnd Hb ts_wl cs_orders_ok Hl) as HU. rewrite <- !free_at_spec in HU.
        assert (EB : free_at b (ports_before pre + q) = free_at c q && negb (existsb (Nat.eqb (ports_before pre + q)) (endpoints (ws_of ts)))).
        { apply eq_true_iff_eq. rewrite andb_true_iff, negb_true_iff, <- not_true_iff_false, existsb_exists, HU.
          split; intros [H1 H2]; (split; [exact H1|]); intros H3; apply H2.
          - destruct H3 as (x & Hx & Ex). apply Nat.eqb_eq in Ex. now subst x.
          - exists (ports_before pre + q). split; [exact H3|apply Nat.eqb_refl]. }
        rewrite EB, IH0 by (intros; apply Hlt; now right). destruct (free_at c q); cbn [andb filter]; reflexivity. }
      rewrite E1. destruct (Hkf n c Hin) as (f & Ef). rewrite Ef.
      assert (E2 : free_ports c = map (fun k => nth k (free_ports c) 0) (seq 0 (fd c))).
      { unfold fd. generalize (free_ports c). intros l0. induction l0 as [|a l0 IH0]; [reflexivity|].
        cbn [length seq map nth]. f_equal. rewrite <- seq_shift, map_map. exact IH0. }
      rewrite E2 at 1. rewrite filter_map_comm, map_map.
      assert (HL : forall k, k < fd c -> loc cs (n, k) = ports_before pre + nth k (free_ports c) 0).
      { intros k Lk. destruct (loc_located Hin Lk) as (pre' & post & E' & P' & _).
        destruct (decomp_unique Hnd E E') as (-> & _ & _). exact P'. }
      transitivity (map (fun k => loc cs (n, k)) (filter (fun a => negb (existsb (Nat.eqb (ports_before pre + nth a (free_ports c) 0)) (endpoints (ws_of ts)))) (seq 0 (fd c)))).
      + apply map_ext_in. intros k Hkk. apply filter_In in Hkk. destruct Hkk as [Hkk _]. apply in_seq in Hkk. symmetry. apply HL. lia.
      + f_equal. apply filter_ext_In. intros k Hkk. apply in_seq in Hkk.
        assert (Lk : k < fd c) by lia. specialize (Hk n c k Hin Lk). rewrite Ef, filter_In, in_seq in Hk.
        pose proof (net_free Hin Lk) as HF. rewrite (net_unconnected Hnd Hb ts_wl cs_orders_ok (loc_located Hin Lk)) in HF.
        assert (Hu : unconnected c (nth k (free_ports c) 0)) by (apply fd_lt; [apply (po_order (Hok Hin))|exact Lk]).
        rewrite (HL k Lk) in HF. apply eq_true_iff_eq. rewrite negb_true_iff, <- not_true_iff_false, existsb_exists.
        assert (HX : (exists x, In x (endpoints (ws_of ts)) /\ (ports_before pre + nth k (free_ports c) 0 =? x) = true) <->
                     In (ports_before pre + nth k (free_ports c) 0) (endpoints (ws_of ts))).
        { split; [intros (x & Hx & Ex); apply Nat.eqb_eq in Ex; now subst x|intros Hx; eexists; split; [exact Hx|apply Nat.eqb_refl]]. }
        rewrite HX. split.
        * intros H. apply Hk, HF. auto.
        * intros H. apply HF, Hk. split; [lia|exact H].
    - replace (ports_before pre + b_np c) with (ports_before (pre ++ [(n, c)]))
        by (rewrite ports_before_app, ports_before_cons; change (@ports_before X D []) with 0; lia).
      apply IH. rewrite <- app_assoc. exact E. }
  exact (Hgen [] cs eq_refl).
Qed.

End Parts.

Lemma tnames_tends ts : flat_map tnames ts = map fst (flat_map tends ts).
Proof. induction ts as [|[n1 k1 n2 k2|n k j] ts IH]; cbn; [reflexivity| |]; repeat f_equal; exact IH. Qed.

Lemma select_names (mods : comps) names : (forall n, In n names -> exists c, assoc String.eqb n mods = Some c) ->
  exists cs, select_comps mods names = Ok cs.
Proof.
  intros H. unfold select_comps. induction names as [|n names IH]; [eexists; reflexivity|].
  destruct (H n (or_introl eq_refl)) as (c & Hc). cbn [mapM]. rewrite Hc. cbn [of_option bind].
  destruct IH as (cs & ->); [intros; apply H; now right|]. cbn [bind]. eexists. reflexivity.
Qed.

(** A network whose connections, with the ports [un] that stay free, list every free port of every
    part; counting shows that none is listed twice. *)
Theorem tnet (mods : comps) ts un m : ts <> [] -> NoDup (map fst mods) ->
  (forall n c, In (n, c) mods -> good_name n /\ part_ok c /\ 0 < b_np c) ->
  (forall n c, In (n, c) mods -> In n (flat_map tnames ts)) ->
  incl (all_ends mods) (flat_map tends ts ++ un) ->
  length (flat_map tends ts ++ un) <= length (all_ends mods) ->
  Permutation (flat_map tnum ts) (seq 0 m) ->
  exists b cs, build x0 d0 mods (map tstr ts) = Ok b
    /\ NoDup (map fst cs) /\ map fst cs = dedup (flat_map tnames ts) []
    /\ (forall n c, In (n, c) cs <-> In (n, c) mods)
    /\ net_buf x0 d0 cs (map tstr ts) = Ok b
    /\ NoDup (flat_map tends ts ++ un)
    /\ (forall e, In e (flat_map tends ts ++ un) <-> In e (all_ends cs)).
Proof.
  intros Hne Hnd Hg Hu Hc Hl Hnum.
  pose proof (NoDup_Permutation_bis (all_ends_NoDup Hnd) Hl Hc) as HP.
  assert (HN : NoDup (flat_map tends ts ++ un)) by (eapply Permutation_NoDup; [exact HP|now apply all_ends_NoDup]).
  assert (HI : forall e, In e (flat_map tends ts ++ un) <-> In e (all_ends mods)).
  { intros e. split; [apply (Permutation_in e (Permutation_sym HP))|apply (Permutation_in e HP)]. }
  assert (HM : forall n, In n (flat_map tnames ts) -> exists c, In (n, c) mods).
  { intros n H. rewrite tnames_tends in H. apply in_map_iff in H. destruct H as ([n' k] & E & H). cbn in E. subst n'.
    assert (Ha : In (n, k) (all_ends mods)) by (apply HI, in_or_app; auto). apply in_all_ends in Ha. destruct Ha as (c & Ha & _). eauto. }
  destruct (@select_names mods (dedup (flat_map tnames ts) [])) as (cs & Hsel).
  { intros n H. apply dedup_spec in H. destruct H as [H _]. destruct (HM n H) as (c & Hin). exists c. now apply assoc_nodup. }
  destruct (select_comps_Ok Hsel) as [Hfst Hfrom].
  assert (HE : forall n c, In (n, c) cs <-> In (n, c) mods).
  { intros n c. split; intros H.
    - apply assoc_In_s. now apply Hfrom.
    - assert (Hn : In n (map fst cs)) by (rewrite Hfst; apply dedup_spec; split; [eapply Hu; exact H|intros []]).
      apply in_map_iff in Hn. destruct Hn as ([n' c'] & E & Hin). cbn in E. subst n'.
      pose proof (Hfrom n c' Hin) as E. rewrite (assoc_nodup Hnd H) in E. injection E as ->. exact Hin. }
  assert (Hndc : NoDup (map fst cs)) by (rewrite Hfst; apply dedup_spec).
  assert (HA : forall e, In e (all_ends mods) <-> In e (all_ends cs)).
  { intros [n k]. rewrite !in_all_ends. split; intros (c & H1 & H2); exists c; (split; [now apply HE|exact H2]). }
  assert (Hends : forall e, In e (flat_map tends ts) -> In e (all_ends cs)) by (intros e He; apply HA, HI, in_or_app; auto).
  assert (Hnames : forall n, In n (flat_map tnames ts) -> good_name n).
  { intros n H. destruct (HM n H) as (c & Hin). apply (Hg n c Hin). }
  assert (Hok : forall n c, In (n, c) cs -> part_ok c) by (intros n c H; apply HE in H; apply (Hg n c H)).
  pose proof (NoDup_left HN) as HNl.
  assert (Hm0 : mods <> []).
  { intros ->. destruct ts as [|t l]; [congruence|]. destruct (HM (match t with TW n _ _ _ => n | TE n _ _ => n end)) as (c & []).
    destruct t; now left. }
  assert (Hfl : forall n c, In (n, c) cs -> flags_ok c) by (intros n c H; apply (po_flags (Hok n c H))).
  assert (Hpos : 0 < total_ports cs).
  { destruct cs as [|[n c] cs'].
    - destruct mods as [|[n c] mods']; [congruence|]. destruct (proj2 (HE n c) (or_introl eq_refl)).
    - change (total_ports ((n, c) :: cs')) with (b_np c + total_ports cs').
      destruct (Hg n c) as (_ & _ & H); [apply HE; now left|lia]. }
  destruct (@tbuild _ _ x0 d0 mods cs ts _ _ Hne Hm0 Hsel (ts_means Hndc Hends HNl Hnames) (cs_orders_ok Hok) Hfl Hpos
    (ts_numbered Hndc Hok Hends HNl Hnum)) as (b & Hb & Hnb & _).
  exists b, cs. do 5 (split; [assumption|]). split; [exact HN|]. intros e. rewrite HI. apply HA.
Qed.

End G.
