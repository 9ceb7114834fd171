(** Consequences of the wiring theorem: isolation of children (C03), partners (C04),
    self-connections (C08). *)
From Verif Require Import Base PyStr PyStrProofs NetModel NetSpec NetProofs.
From Coq Require Import Permutation.
Set Implicit Arguments.
Unset Strict Implicit.
Local Open Scope list_scope.

Section W.
Variables (X D : Type) (x0 : X) (d0 : D).
Notation buf := (buf X D).
Notation comps := (list (string * buf)).

Lemma ports_before_app (l1 l2 : comps) : ports_before (l1 ++ l2) = ports_before l1 + ports_before l2.
Proof. unfold ports_before. rewrite map_app. apply list_sum_app. Qed.

Ltac tb := match goal with
  | |- context [total_ports ?c] => change (total_ports c) with (ports_before c) end.

Lemma located_lt (cs : comps) p n c q : located cs p n c q -> p < total_ports cs.
Proof.
  intros (pre & post & -> & -> & Hq). tb. rewrite ports_before_app, ports_before_cons. lia.
Qed.

Lemma located_exists (cs : comps) p : p < total_ports cs -> exists n c q, located cs p n c q.
Proof.
  tb. revert p. induction cs as [|[n c] cs IH]; intros p Hp.
  - cbn in Hp. lia.
  - rewrite ports_before_cons in Hp. destruct (Nat.lt_ge_cases p (b_np c)) as [H|H].
    + exists n, c, p, [], cs. auto.
    + destruct (IH (p - b_np c)) as (m & c' & q & pre & post & -> & E & Hq); [lia|].
      exists m, c', q, ((n, c) :: pre), post. rewrite ports_before_cons. repeat split; auto. lia.
Qed.

Lemma app_split_cases {A} (pre pre' post post' : list A) x y :
  pre ++ x :: post = pre' ++ y :: post' ->
  (pre = pre' /\ x = y /\ post = post')
  \/ (exists mid, pre' = pre ++ x :: mid /\ post = mid ++ y :: post')
  \/ (exists mid, pre = pre' ++ y :: mid /\ post' = mid ++ x :: post).
Proof.
  revert pre'. induction pre as [|a pre IH]; intros [|a' pre'] H; cbn in *.
  - injection H as -> ->. auto.
  - injection H as -> ->. right; left. exists pre'. auto.
  - injection H as -> <-. right; right. exists pre. auto.
  - injection H as -> H. destruct (IH _ H) as [(-> & -> & ->)|[(mid & -> & ->)|(mid & -> & ->)]].
    + auto.
    + right; left. exists mid. auto.
    + right; right. exists mid. auto.
Qed.

Lemma located_unique (cs : comps) pre n c post q pre' n' c' post' q' :
  cs = pre ++ (n, c) :: post -> cs = pre' ++ (n', c') :: post' ->
  q < b_np c -> q' < b_np c' -> ports_before pre + q = ports_before pre' + q' ->
  pre = pre' /\ n = n' /\ c = c' /\ post = post' /\ q = q'.
Proof.
  intros H1 H2 Hq Hq' E. rewrite H1 in H2.
  destruct (app_split_cases H2) as [(-> & [= -> ->] & ->)|[(mid & -> & ->)|(mid & -> & ->)]].
  - repeat split; auto. lia.
  - exfalso. rewrite ports_before_app, ports_before_cons in E. lia.
  - exfalso. rewrite ports_before_app, ports_before_cons in E. lia.
Qed.


Lemma order_ok_lt (c : buf) q : order_ok c -> In q (b_order c) -> q < b_np c.
Proof. intros H Hq. apply (Permutation_in _ H) in Hq. apply in_seq in Hq. lia. Qed.

Lemma order_ok_NoDup (c : buf) : order_ok c -> NoDup (b_order c).
Proof. intros H. apply (Permutation_NoDup (Permutation_sym H)), seq_NoDup. Qed.

(** A declared port lies in the named component and has no partner there. *)
Lemma names_port_located (cs : comps) n k p : orders_ok cs -> names_port cs n k p ->
  exists c q, located cs p n c q /\ resolves c k q /\ unconnected c q.
Proof.
  intros Ho (pre & c & post & q & Hcs & Hr & ->). exists c, q.
  assert (Hc : order_ok c) by (apply (Ho n); rewrite Hcs; apply in_or_app; right; left; reflexivity).
  assert (Hq : q < b_np c) by (eapply resolves_lt; [|exact Hr]; intros x Hx; now apply order_ok_lt).
  split; [exists pre, post; auto|]. split; [exact Hr|]. exact (resolves_free Hr).
Qed.

Lemma inner_located (cs : comps) i j pre n c post i' :
  cs = pre ++ (n, c) :: post -> i = ports_before pre + i' -> i' < b_np c ->
  (inner cs i j <-> exists j', j' < b_np c /\ j = ports_before pre + j' /\ b_C c i' j' = true).
Proof.
  intros Hcs -> Hi'. split.
  - intros (pre2 & n2 & c2 & post2 & i2 & j2 & Hcs2 & Hi2 & Hj2 & HC & E & ->).
    destruct (located_unique Hcs Hcs2 Hi' Hi2 E) as (-> & -> & -> & -> & ->). eauto.
  - intros (j' & Hj' & -> & HC). exists pre, n, c, post, i', j'. auto 10.
Qed.

Section Net.
Variables (cs : comps) (conns : list string) (b : buf).
Hypothesis Hnd : NoDup (map fst cs).
Hypothesis Hb : net_buf x0 d0 cs conns = Ok b.

Lemma net_np : b_np b = total_ports cs.
Proof. destruct (net_buf_inv Hb) as (_ & _ & H & _). exact H. Qed.

Lemma all_parse conn : In conn conns -> exists o, parse_connection cs conn = Ok o.
Proof.
  destruct (net_buf_inv Hb) as (_ & HC & _). unfold net_C in HC.
  clear Hb. revert HC. generalize (block_mat (@b_C X D) false cs). induction conns as [|c l IH]; intros C0 H Hin; [destruct Hin|].
  cbn in H. apply bind_Ok in H. destruct H as (C1 & H1 & H). apply bind_Ok in H1. destruct H1 as (o & Ho & _).
  destruct Hin as [->|Hin]; [eauto|]. eapply IH; eassumption.
Qed.

(** Symmetry. *)
Lemma net_sym : all_sym cs -> sym_C b.
Proof.
  intros Hs i j _ _. apply eq_true_iff_eq. rewrite !(net_buf_C Hnd Hb).
  assert (Hi : forall i j, inner cs i j -> inner cs j i).
  { intros a a' (pre & n & c & post & i' & j' & Hcs & Hi & Hj & HC & E1 & E2).
    exists pre, n, c, post, j', i'. repeat split; auto. rewrite <- HC.
    apply (Hs n); auto. rewrite Hcs. apply in_or_app. right. left. reflexivity. }
  assert (Hsw : forall a a', (exists conn, In conn conns /\ (wires cs conn a a' \/ wires cs conn a' a)) ->
                             exists conn, In conn conns /\ (wires cs conn a' a \/ wires cs conn a a')).
  { intros a a' (c & Hc & H). exists c. tauto. }
  split; (intros [H|H]; [left; now apply Hi|right; now apply Hsw]).
Qed.

(** Entries outside the port range are never set. *)
Lemma net_C_range : orders_ok cs -> forall i j, b_C b i j = true -> i < b_np b /\ j < b_np b.
Proof.
  intros Ho i j H. apply (net_buf_C Hnd Hb) in H. rewrite net_np.
  assert (Hn : forall n k p, names_port cs n k p -> p < total_ports cs).
  { intros n k p Hp. destruct (names_port_located Ho Hp) as (c & q & Hl & _). eapply located_lt; exact Hl. }
  destruct H as [(pre & n & c & post & i' & j' & Hcs & Hi & Hj & _ & -> & ->)|(conn & _ & Hw)].
  - split; eapply located_lt; exists pre, post; eauto.
  - destruct Hw as [(n1 & s1 & k1 & n2 & s2 & k2 & _ & _ & _ & H1 & H2)|(n1 & s1 & k1 & n2 & s2 & k2 & _ & _ & _ & H1 & H2)];
      split; eapply Hn; eassumption.
Qed.

Lemma wires_located conn i j : orders_ok cs -> wires cs conn i j \/ wires cs conn j i ->
  exists n c q, located cs i n c q /\ unconnected c q.
Proof.
  intros Ho [H|H]; destruct H as (n1 & s1 & k1 & n2 & s2 & k2 & _ & _ & _ & H1 & H2).
  - destruct (names_port_located Ho H1) as (c & q & Hl & _ & Hu). eauto.
  - destruct (names_port_located Ho H2) as (c & q & Hl & _ & Hu). eauto.
Qed.

(** C03: a port with a partner inside its component keeps exactly that wiring. *)
Lemma child_isolated pre n c post i' : orders_ok cs ->
  cs = pre ++ (n, c) :: post -> i' < b_np c -> ~ unconnected c i' ->
  forall j, b_C b (ports_before pre + i') j = true <->
            exists j', j' < b_np c /\ j = ports_before pre + j' /\ b_C c i' j' = true.
Proof.
  intros Ho Hcs Hi' Hnu j. rewrite (net_buf_C Hnd Hb).
  rewrite (inner_located j Hcs eq_refl Hi'). split; [|tauto].
  intros [H|(conn & _ & Hw)]; [exact H|exfalso].
  destruct (wires_located Ho Hw) as (n2 & c2 & q & (pre2 & post2 & Hcs2 & E & Hq) & Hu).
  destruct (located_unique Hcs Hcs2 Hi' Hq E) as (_ & _ & -> & _ & ->). contradiction.
Qed.

(** ... and between two ports of one component the wiring is the component's own plus the
    connections declared between them. *)
Lemma child_block pre n c post i' j' : cs = pre ++ (n, c) :: post -> i' < b_np c -> j' < b_np c ->
  let i := ports_before pre + i' in let j := ports_before pre + j' in
  b_C b i j = true <-> b_C c i' j' = true \/
    exists conn, In conn conns /\ (wires cs conn i j \/ wires cs conn j i).
Proof.
  intros Hcs Hi' Hj' i j. subst i j.
  rewrite (net_buf_C Hnd Hb), (inner_located (ports_before pre + j') Hcs eq_refl Hi').
  split; (intros [H|H]; [left|right; exact H]).
  - destruct H as (j2 & Hj2 & E & HC). assert (j2 = j') by lia. subst. exact HC.
  - exists j'. auto.
Qed.

(** * Partners *)

Lemma wire_list_In ws : wire_list cs conns ws ->
  forall i j, In (i, j) ws <-> exists conn, In conn conns /\ wires cs conn i j.
Proof.
  pose proof all_parse as Hp. intros Hw. revert Hp. clear Hb. induction Hw as [|c l i j ws Hc Hl IH|c l ws Hc Hl IH]; intros Hp a a'.
  - split; [intros []|intros (? & [] & _)].
  - specialize (IH (fun x Hx => Hp x (or_intror Hx))). cbn. rewrite IH. split.
    + intros [[= <- <-]|(x & Hx & Hx')]; eauto.
    + intros (x & [->|Hx] & Hx'); [left|right; eauto].
      destruct (Hp x (or_introl eq_refl)) as [o Ho].
      pose proof (wires_parse Hnd Hc Ho). pose proof (wires_parse Hnd Hx' Ho). congruence.
  - specialize (IH (fun x Hx => Hp x (or_intror Hx))). rewrite IH. split.
    + intros (x & Hx & Hx'). exists x. cbn. auto.
    + intros (x & [->|Hx] & Hx'); [|eauto]. exfalso.
      destruct Hx' as (n1 & s1 & k1 & n2 & s2 & k2 & Hs & _). rewrite Hs in Hc. now apply Hc.
Qed.

Lemma wire_list_exists : exists ws, wire_list cs conns ws.
Proof.
  pose proof all_parse as Hp. revert Hp. clear Hb. induction conns as [|c l IH]; intros Hp; [exists []; constructor|].
  destruct (IH (fun x Hx => Hp x (or_intror Hx))) as [ws Hws].
  destruct (Hp c (or_introl eq_refl)) as [[[i j]|] Ho].
  - exists ((i, j) :: ws). constructor; [now apply parse_Some|assumption].
  - exists ws. apply wl_ext; [|assumption]. unfold parse_connection in Ho.
    destruct (split_colon c) as [|n1 [|s1 [|n2 [|s2 [|? ?]]]]]; try discriminate; cbn; try lia.
    inv_res. discriminate.
Qed.

Variable ws : list (nat * nat).
Hypothesis Hws : wire_list cs conns ws.

Lemma C_wires i j : b_C b i j = true <-> inner cs i j \/ In (i, j) ws \/ In (j, i) ws.
Proof.
  rewrite (net_buf_C Hnd Hb), !(wire_list_In Hws). split.
  - intros [H|(c & Hc & [H|H])]; [auto|right; left; eauto|right; right; eauto].
  - intros [H|[(c & Hc & H)|(c & Hc & H)]]; [auto|right; exists c; auto|right; exists c; auto].
Qed.

Lemma endpoint_In i : In i (endpoints ws) <-> exists j, In (i, j) ws \/ In (j, i) ws.
Proof.
  unfold endpoints. rewrite in_flat_map. split.
  - intros ([a a'] & Hin & [<-|[<-|[]]]); eauto.
  - intros (j & [H|H]); eexists; (split; [exact H|]); cbn; auto.
Qed.

Lemma endpoint_unique : NoDup (endpoints ws) -> forall i j k,
  In (i, j) ws \/ In (j, i) ws -> In (i, k) ws \/ In (k, i) ws -> j = k.
Proof.
  clear. unfold endpoints. induction ws as [|[a a'] l IH]; intros Hn i j k Hj Hk.
  - destruct Hj as [[]|[]].
  - cbn in Hn. inversion Hn as [|? ? Ha Hn']; subst. inversion Hn' as [|? ? Ha' Hn'']; subst.
    specialize (IH Hn'').
    assert (Hl : forall x y, In (x, y) l -> In x (flat_map (fun w => [fst w; snd w]) l)
                                            /\ In y (flat_map (fun w => [fst w; snd w]) l)).
    { intros x y Hxy. rewrite !in_flat_map. split; exists (x, y); cbn; auto. }
    cbn in Hj, Hk, Ha.
    destruct Hj as [[Ej|Hj]|[Ej|Hj]]; destruct Hk as [[Ek|Hk]|[Ek|Hk]];
      repeat match goal with H : (_, _) = (_, _) |- _ => inversion H; clear H; subst end;
      try reflexivity; try (exfalso; tauto);
      try (destruct (Hl _ _ Hj); exfalso; tauto);
      try (destruct (Hl _ _ Hk); exfalso; tauto);
      eapply IH; eauto.
Qed.

Lemma net_partner : orders_ok cs -> (forall n c, In (n, c) cs -> at_most_one_partner c) ->
  NoDup (endpoints ws) -> at_most_one_partner b.
Proof.
  intros Ho Hpart Hn i j k _ _ _ Hj Hk. apply C_wires in Hj. apply C_wires in Hk.
  assert (Hex : forall i j, In (i, j) ws \/ In (j, i) ws -> forall k, inner cs i k -> False).
  { intros a a' Ha k' (pre & n & c & post & i1 & k1 & Hcs & Hi1 & Hk1 & HC & E & _).
    assert (Hw : exists conn, wires cs conn a a' \/ wires cs conn a' a).
    { destruct Ha as [Ha|Ha]; apply (wire_list_In Hws) in Ha; destruct Ha as (conn & _ & Hc); eauto. }
    destruct Hw as [conn Hw].
    destruct (wires_located Ho Hw) as (n2 & c2 & q & (pre2 & post2 & Hcs2 & E2 & Hq) & Hu).
    rewrite E in E2. destruct (located_unique Hcs Hcs2 Hi1 Hq E2) as (_ & _ & -> & _ & ->).
    destruct (Hu k1 Hk1). congruence. }
  destruct Hj as [Hj|Hj], Hk as [Hk|Hk].
  - destruct Hj as (pre & n & c & post & i1 & j1 & Hcs & Hi1 & Hj1 & HC & E & ->).
    destruct Hk as (pre2 & n2 & c2 & post2 & i2 & j2 & Hcs2 & Hi2 & Hj2 & HC2 & E2 & ->).
    rewrite E in E2. destruct (located_unique Hcs Hcs2 Hi1 Hi2 E2) as (-> & -> & -> & -> & ->).
    f_equal. apply (Hpart n2 c2) with (i := i2); auto.
    rewrite Hcs. apply in_or_app. right. left. reflexivity.
  - exfalso. eapply Hex; eassumption.
  - exfalso. eapply Hex; eassumption.
  - eapply endpoint_unique; eassumption.
Qed.

Lemma net_unconnected p n c q : orders_ok cs -> located cs p n c q ->
  (unconnected b p <-> unconnected c q /\ ~ In p (endpoints ws)).
Proof.
  intros Ho (pre & post & Hcs & -> & Hq). split.
  - intros Hu. split.
    + intros j' Hj'. assert (Hlt : ports_before pre + j' < b_np b).
      { rewrite net_np. tb. rewrite Hcs, ports_before_app, ports_before_cons. lia. }
      destruct (Hu _ Hlt) as [H1 H2]. split; apply not_true_iff_false; intros HC.
      * rewrite <- not_true_iff_false in H1. apply H1, C_wires. left.
        exists pre, n, c, post, q, j'. auto 10.
      * rewrite <- not_true_iff_false in H2. apply H2, C_wires. left.
        exists pre, n, c, post, j', q. auto 10.
    + intros Hin. apply endpoint_In in Hin. destruct Hin as [j Hj].
      assert (HC : b_C b (ports_before pre + q) j = true) by (apply C_wires; auto).
      destruct (net_C_range Ho HC) as [_ Hlt]. destruct (Hu j Hlt). congruence.
  - intros [Hu Hne] j Hj.
    assert (Hkey : b_C b (ports_before pre + q) j <> true /\ b_C b j (ports_before pre + q) <> true).
    { split; intros HC; apply C_wires in HC; destruct HC as [Hi|Hw].
      - apply (inner_located j Hcs eq_refl Hq) in Hi. destruct Hi as (j' & Hj' & _ & HC).
        destruct (Hu j' Hj'). congruence.
      - apply Hne, endpoint_In. eauto.
      - destruct Hi as (pre2 & n2 & c2 & post2 & i2 & j2 & Hcs2 & Hi2 & Hj2 & HC2 & _ & E).
        destruct (located_unique Hcs Hcs2 Hq Hj2 E) as (_ & _ & -> & _ & ->).
        destruct (Hu i2 Hi2). congruence.
      - apply Hne, endpoint_In. exists j. tauto. }
    destruct Hkey as [H1 H2]. apply not_true_iff_false in H1, H2. auto.
Qed.

(** Endpoints are ports that were free in their component. *)
Lemma endpoints_located p : orders_ok cs -> In p (endpoints ws) ->
  exists n c q, located cs p n c q /\ unconnected c q.
Proof.
  intros Ho Hin. apply endpoint_In in Hin. destruct Hin as [j Hj].
  assert (Hw : exists conn, wires cs conn p j \/ wires cs conn j p).
  { destruct Hj as [Ha|Ha]; apply (wire_list_In Hws) in Ha; destruct Ha as (conn & _ & Hc); eauto. }
  destruct Hw as [conn Hw]. eapply wires_located; eassumption.
Qed.

End Net.

(** * Counting free ports *)

Definition child_free (cs : comps) (p : nat) : bool := block_vec (@free_at X D) false cs p.

Lemma block_vec_located {A} (sel : buf -> nat -> A) d (cs : comps) p n c q :
  located cs p n c q -> block_vec sel d cs p = sel c q.
Proof.
  intros (pre & post & -> & -> & Hq). induction pre as [|[m c'] pre IH].
  - change (ports_before []) with 0. cbn [app block_vec Nat.add].
    destruct (Nat.ltb_spec q (b_np c)); [reflexivity|lia].
  - cbn [app block_vec]. rewrite ports_before_cons.
    destruct (Nat.ltb_spec (b_np c' + ports_before pre + q) (b_np c')) as [H|H]; [lia|].
    replace (b_np c' + ports_before pre + q - b_np c') with (ports_before pre + q) by lia. exact IH.
Qed.

Lemma seq_shift_map s n : seq s n = map (fun i => s + i) (seq 0 n).
Proof.
  revert s. induction n as [|n IH]; intros s; [reflexivity|]. cbn [seq map].
  rewrite Nat.add_0_r. f_equal. rewrite (IH (S s)), (IH 1), map_map. apply map_ext. intros. lia.
Qed.

Lemma filter_map_comm {A B} (f : B -> bool) (g : A -> B) l :
  filter f (map g l) = map g (filter (fun a => f (g a)) l).
Proof. induction l as [|a l IH]; [reflexivity|]. cbn. destruct (f (g a)); cbn; now rewrite IH. Qed.

Lemma filter_ext_In {A} (f g : A -> bool) l : (forall a, In a l -> f a = g a) -> filter f l = filter g l.
Proof.
  induction l as [|a l IH]; intros H; [reflexivity|]. cbn. rewrite (H a (or_introl eq_refl)), IH; auto.
  intros x Hx. apply H. right. exact Hx.
Qed.

(** A per-port property of the network, counted component by component. *)
Lemma count_blocks (sel : buf -> nat -> bool) (cs : comps) :
  length (filter (block_vec sel false cs) (seq 0 (total_ports cs)))
  = list_sum (map (fun c => length (filter (sel (snd c)) (seq 0 (b_np (snd c))))) cs).
Proof.
  induction cs as [|[n c] cs IH]; [reflexivity|].
  change (total_ports ((n, c) :: cs)) with (b_np c + total_ports cs).
  rewrite seq_app, filter_app, app_length. cbn [map snd list_sum fold_right]. f_equal.
  - f_equal. apply filter_ext_In. intros a Ha. apply in_seq in Ha. cbn [block_vec].
    destruct (Nat.ltb_spec a (b_np c)); [reflexivity|lia].
  - rewrite seq_shift_map, filter_map_comm, map_length. cbn [Nat.add]. fold (list_sum (map (fun c0 => length (filter (sel (snd c0)) (seq 0 (b_np (snd c0))))) cs)).
    rewrite <- IH. f_equal. apply filter_ext_In. intros a _. cbn [block_vec].
    destruct (Nat.ltb_spec (b_np c + a) (b_np c)); [lia|]. f_equal. lia.
Qed.

Lemma filter_remove_count (E F : list nat) : NoDup F -> NoDup E -> incl E F ->
  length (filter (fun p => negb (existsb (Nat.eqb p) E)) F) + length E = length F.
Proof.
  intros HF HE Hi.
  assert (HP : Permutation F (filter (fun p => negb (existsb (Nat.eqb p) E)) F ++ filter (fun p => existsb (Nat.eqb p) E) F)).
  { clear. induction F as [|a F IH]; [constructor|]. cbn. destruct (existsb (Nat.eqb a) E); cbn.
    - now apply Permutation_cons_app.
    - now constructor. }
  rewrite (Permutation_length HP), app_length. f_equal.
  apply Permutation_length. apply NoDup_Permutation; [assumption|now apply NoDup_filter|].
  intros x. rewrite filter_In, existsb_exists. split.
  - intros H. split; [auto|]. exists x. split; [assumption|apply Nat.eqb_refl].
  - intros [_ (y & Hy & E')]. apply Nat.eqb_eq in E'. now subst.
Qed.

Lemma num_free_count (b : buf) n : free_count b n <-> n = num_free b.
Proof.
  unfold free_count, num_free. split.
  - intros (fl & Hf & <-). apply free_list_iff in Hf. now subst.
  - intros ->. eexists. split; [now apply free_list_iff|reflexivity].
Qed.

Theorem net_num_free (cs : comps) conns b ws : NoDup (map fst cs) -> orders_ok cs ->
  net_buf x0 d0 cs conns = Ok b -> wire_list cs conns ws -> NoDup (endpoints ws) ->
  num_free b + 2 * length ws = list_sum (map (fun c => num_free (snd c)) cs).
Proof.
  intros Hnd Ho Hb Hws HE.
  assert (Hsum : list_sum (map (fun c => num_free (snd c)) cs)
                 = length (filter (child_free cs) (seq 0 (total_ports cs)))).
  { unfold child_free. rewrite count_blocks. reflexivity. }
  rewrite Hsum. unfold num_free. rewrite (net_np Hb).
  assert (Hlen : length (endpoints ws) = 2 * length ws).
  { unfold endpoints. clear. induction ws as [|w l IH]; [reflexivity|]. cbn [flat_map app length]. rewrite IH. lia. }
  rewrite <- Hlen.
  rewrite <- (@filter_remove_count (endpoints ws) (filter (child_free cs) (seq 0 (total_ports cs)))); auto.
  - f_equal. f_equal.
    assert (Hff : forall (f g : nat -> bool) l, filter f (filter g l) = filter (fun x => g x && f x) l).
    { clear. intros f g l. induction l as [|a l IH]; [reflexivity|]. cbn. destruct (g a); cbn; rewrite IH; reflexivity. }
    rewrite Hff. apply filter_ext_In. intros p Hp. apply in_seq in Hp.
    destruct (located_exists (cs := cs) (p := p)) as (n & c & q & Hl); [lia|].
    unfold child_free. rewrite (block_vec_located _ _ Hl).
    apply eq_true_iff_eq. rewrite andb_true_iff, negb_true_iff, !free_at_spec.
    rewrite (net_unconnected Hnd Hb Hws Ho Hl).
    assert (Hex : existsb (Nat.eqb p) (endpoints ws) = false <-> ~ In p (endpoints ws)).
    { rewrite <- not_true_iff_false, existsb_exists. split.
      - intros H Hin. apply H. exists p. split; [exact Hin|apply Nat.eqb_refl].
      - intros H (x & Hx & E). apply Nat.eqb_eq in E. subst. contradiction. }
    rewrite Hex. tauto.
  - apply NoDup_filter, seq_NoDup.
  - intros p Hp. destruct (endpoints_located Hnd Hb Hws Ho Hp) as (n & c & q & Hl & Hu).
    apply filter_In. split.
    + apply in_seq. pose proof (located_lt Hl). lia.
    + unfold child_free. rewrite (block_vec_located _ _ Hl). now apply free_at_spec.
Qed.

(** * Self connections (C08) *)

Lemma NoDup_nth_error_eq {A} (l : list A) i j a :
  NoDup l -> nth_error l i = Some a -> nth_error l j = Some a -> i = j.
Proof.
  intros H Hi Hj. apply (proj1 (NoDup_nth_error l) H); [|congruence].
  apply nth_error_Some. congruence.
Qed.

Theorem no_self_wire (cs : comps) conn n1 s1 k1 n2 s2 k2 i j : NoDup (map fst cs) -> orders_ok cs ->
  split_colon conn = [n1; s1; n2; s2] -> py_int s1 = Some k1 -> py_int s2 = Some k2 ->
  (0 <= k1)%Z -> (0 <= k2)%Z ->
  parse_connection cs conn = Ok (Some (i, j)) -> i <> j.
Proof.
  intros Hnd Ho Hs H1 H2 Hk1 Hk2 Hp E. subst j.
  pose proof (parse_Some Hp) as (m1 & t1 & l1 & m2 & t2 & l2 & Ht & G1 & G2 & Gp1 & Gp2).
  rewrite Hs in Ht. injection Ht as <- <- <- <-.
  assert (l1 = k1) by congruence. assert (l2 = k2) by congruence. subst l1 l2.
  destruct (names_port_located Ho Gp1) as (c1 & q1 & (pre1 & post1 & Hc1 & E1 & Hq1) & Hr1 & _).
  destruct (names_port_located Ho Gp2) as (c2 & q2 & (pre2 & post2 & Hc2 & E2 & Hq2) & Hr2 & _).
  rewrite E1 in E2. destruct (located_unique Hc1 Hc2 Hq1 Hq2 E2) as (-> & -> & -> & -> & ->).
  apply resolves_index in Hr1, Hr2. apply py_index_Ok in Hr1, Hr2.
  destruct Hr1 as [[_ Hr1]|[? _]]; [|lia]. destruct Hr2 as [[_ Hr2]|[? _]]; [|lia].
  assert (Hc : order_ok c2) by (apply (Ho n2); rewrite Hc2; apply in_or_app; right; left; reflexivity).
  assert (Hnf : NoDup (free_ports c2)) by (apply NoDup_filter, order_ok_NoDup, Hc).
  pose proof (NoDup_nth_error_eq Hnf Hr1 Hr2) as Hk. assert (k1 = k2) by lia. subst k2.
  unfold parse_connection in Hp. rewrite Hs, H1, H2 in Hp. cbn [bind of_option] in Hp.
  rewrite String.eqb_refl, Z.eqb_refl in Hp. discriminate Hp.
Qed.

End W.
