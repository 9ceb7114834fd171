(** The connection matrix is exactly the declared wiring (C02, C03, C04, C08). *)
From Verif Require Import Base PyStr PyStrProofs NetModel NetSpec.
From Coq Require Import Permutation.
Set Implicit Arguments.
Unset Strict Implicit.
Local Open Scope list_scope.

(** * Generic helpers *)

Lemma bind_Ok {A B} (r : res A) (f : A -> res B) b :
  bind r f = Ok b <-> exists a, r = Ok a /\ f a = Ok b.
Proof.
  destruct r; simpl; split; intros H; eauto.
  - now destruct H as (a' & [= <-] & H).
  - discriminate.
  - now destruct H as (a' & [=] & H).
Qed.

Lemma of_option_Ok {A} e (o : option A) a : of_option e o = Ok a <-> o = Some a.
Proof. destruct o; simpl; split; congruence. Qed.

Lemma foldM_app {A B} (f : A -> B -> res A) a l1 l2 :
  foldM f a (l1 ++ l2) = do a' <- foldM f a l1; foldM f a' l2.
Proof.
  revert a. induction l1 as [|b l IH]; intros a; [reflexivity|]. simpl.
  destruct (f a b); simpl; [apply IH|reflexivity].
Qed.

Lemma mapM_Ok {A B} (f : A -> res B) l r :
  mapM f l = Ok r <-> Forall2 (fun a b => f a = Ok b) l r.
Proof.
  revert r. induction l as [|a l IH]; intros r; simpl.
  - split; intros H; [injection H as <-; constructor|inversion H; reflexivity].
  - rewrite bind_Ok. split.
    + intros (b & Hb & H). apply bind_Ok in H. destruct H as (bs & Hbs & [= <-]).
      constructor; [assumption|]. now apply IH.
    + intros H. inversion H as [|? b ? bs Hb Hbs]; subst. exists b. split; [assumption|].
      apply bind_Ok. exists bs. split; [now apply IH|reflexivity].
Qed.

Lemma Ok_inj {A} (a b : A) : Ok a = Ok b -> a = b.
Proof. congruence. Qed.

Ltac inv_res :=
  repeat match goal with
  | H : bind _ _ = Ok _ |- _ => apply bind_Ok in H; destruct H as (? & ? & H)
  | H : of_option _ _ = Ok _ |- _ => apply of_option_Ok in H
  | H : (if ?c then Err _ else _) = Ok _ |- _ => let E := fresh "E" in destruct c eqn:E; [discriminate H|]
  | H : Ok _ = Ok _ |- _ => apply Ok_inj in H
  | H : Err _ = Ok _ |- _ => discriminate H
  end.

Lemma py_index_Ok {A} (l : list A) k a :
  py_index l k = Ok a <->
  (0 <= k /\ nth_error l (Z.to_nat k) = Some a
   \/ k < 0 /\ 0 <= Z.of_nat (length l) + k
      /\ nth_error l (Z.to_nat (Z.of_nat (length l) + k)) = Some a)%Z.
Proof.
  unfold py_index. destruct (Z.leb_spec 0 k) as [H|H].
  - rewrite of_option_Ok. intuition lia.
  - destruct (Z.leb_spec (- Z.of_nat (length l)) k) as [H'|H'].
    + rewrite of_option_Ok. intuition lia.
    + split; [discriminate|]. intuition lia.
Qed.

Section P.
Variables (X D : Type) (x0 : X) (d0 : D).
Notation buf := (buf X D).
Notation comps := (list (string * buf)).

(** * Free ports *)

Lemma free_at_spec (b : buf) i : free_at b i = true <-> unconnected b i.
Proof.
  unfold free_at, unconnected. rewrite negb_true_iff. split.
  - intros H j Hj. destruct (b_C b i j) eqn:E1; destruct (b_C b j i) eqn:E2; auto;
    exfalso; rewrite <- not_true_iff_false in H; apply H, existsb_exists;
    exists j; rewrite in_seq, E1, E2; simpl; split; auto; lia.
  - intros H. apply not_true_iff_false. intros He. apply existsb_exists in He.
    destruct He as (j & Hj & He). apply in_seq in Hj. destruct (H j ltac:(lia)) as [H1 H2].
    rewrite H1, H2 in He. discriminate.
Qed.

Lemma free_list_iff (b : buf) l fl : free_list b l fl <-> fl = filter (free_at b) l.
Proof.
  split.
  - induction 1 as [|q l fl Hq H IH|q l fl Hq H IH]; [reflexivity| |].
    + simpl. rewrite (proj2 (free_at_spec b q) Hq). congruence.
    + simpl. destruct (free_at b q) eqn:E; [|assumption]. exfalso. apply Hq, free_at_spec, E.
  - intros ->. induction l as [|q l IH]; simpl; [constructor|].
    destruct (free_at b q) eqn:E.
    + apply fl_keep; [now apply free_at_spec|assumption].
    + apply fl_skip; [|assumption]. intros Hf. apply free_at_spec in Hf. congruence.
Qed.

Lemma resolves_index (b : buf) k q : resolves b k q <-> py_index (free_ports b) k = Ok q.
Proof.
  unfold resolves. rewrite py_index_Ok. split.
  - intros (fl & Hf & H). apply free_list_iff in Hf. subst fl. exact H.
  - intros H. exists (free_ports b). split; [now apply free_list_iff|exact H].
Qed.

Lemma py_index_In {A} (l : list A) k a : py_index l k = Ok a -> In a l.
Proof.
  rewrite py_index_Ok. intros [[_ H]|[_ [_ H]]]; eapply nth_error_In; exact H.
Qed.

Lemma resolves_free (b : buf) k q : resolves b k q -> unconnected b q.
Proof.
  rewrite resolves_index. intros H. apply py_index_In in H. apply filter_In in H.
  now apply free_at_spec.
Qed.

Lemma resolves_fun (b : buf) k q q' : resolves b k q -> resolves b k q' -> q = q'.
Proof. rewrite !resolves_index. congruence. Qed.

Definition in_range (cs : comps) : Prop :=
  forall n b, In (n, b) cs -> forall q, In q (b_order b) -> q < b_np b.

Lemma resolves_lt (b : buf) k q : (forall q, In q (b_order b) -> q < b_np b) -> resolves b k q -> q < b_np b.
Proof.
  rewrite resolves_index. intros Ho H. apply py_index_In in H. apply filter_In in H. now apply Ho.
Qed.

(** * Lookup *)

Lemma lookup_decomp n (cs : comps) b : assoc String.eqb n cs = Some b ->
  exists pre post, cs = pre ++ (n, b) :: post /\ ~ In n (map fst pre)
                   /\ start_of n cs = Some (ports_before pre).
Proof.
  induction cs as [|[m c] cs IH]; simpl; [discriminate|].
  destruct (String.eqb_spec n m) as [->|Hn].
  - intros [= ->]. exists [], cs. repeat split; auto.
  - intros H. destruct (IH H) as (pre & post & -> & Hni & Hs).
    exists ((m, c) :: pre), post. repeat split.
    + simpl. intros [E|E]; [congruence|contradiction].
    + rewrite Hs. reflexivity.
Qed.

Lemma lookup_comp pre n (b : buf) post : ~ In n (map fst pre) ->
  assoc String.eqb n (pre ++ (n, b) :: post) = Some b
  /\ start_of n (pre ++ (n, b) :: post) = Some (ports_before pre).
Proof.
  induction pre as [|[m c] pre IH]; simpl; intros H.
  - rewrite String.eqb_refl. auto.
  - destruct (String.eqb_spec n m) as [->|Hn]; [exfalso; auto|].
    destruct IH as [H1 H2]; [tauto|]. rewrite H2. auto.
Qed.

Lemma decomp_unique (cs : comps) pre n b post pre' b' post' :
  NoDup (map fst cs) -> cs = pre ++ (n, b) :: post -> cs = pre' ++ (n, b') :: post' ->
  pre = pre' /\ b = b' /\ post = post'.
Proof.
  intros Hnd H1 H2. subst cs. revert pre' H2. induction pre as [|[m c] pre IH]; intros pre' H2.
  - destruct pre' as [|[m' c'] pre'].
    + simpl in H2. injection H2 as -> ->. auto.
    + simpl in H2. injection H2 as -> -> ->. simpl in Hnd. inversion Hnd as [|? ? Hni _]. exfalso. apply Hni.
      rewrite map_app. apply in_or_app. right. left. reflexivity.
  - destruct pre' as [|[m' c'] pre'].
    + simpl in H2. injection H2 as -> -> <-. simpl in Hnd. inversion Hnd as [|? ? Hni _]. exfalso. apply Hni.
      rewrite map_app. apply in_or_app. right. left. reflexivity.
    + simpl in H2. injection H2 as -> -> H2. simpl in Hnd. inversion Hnd as [|? ? _ Hnd']; subst.
      destruct (IH Hnd' pre' H2) as (-> & -> & ->). auto.
Qed.

Lemma nodup_pre (cs : comps) pre n b post :
  NoDup (map fst cs) -> cs = pre ++ (n, b) :: post -> ~ In n (map fst pre).
Proof.
  intros Hnd -> Hin. rewrite map_app in Hnd. simpl in Hnd.
  apply NoDup_remove_2 in Hnd. apply Hnd, in_or_app. left. exact Hin.
Qed.

Lemma names_port_fun (cs : comps) n k p p' : NoDup (map fst cs) ->
  names_port cs n k p -> names_port cs n k p' -> p = p'.
Proof.
  intros Hnd (pre & b & post & q & Hcs & Hr & ->) (pre' & b' & post' & q' & Hcs' & Hr' & ->).
  destruct (decomp_unique Hnd Hcs Hcs') as (-> & -> & ->). f_equal. eapply resolves_fun; eassumption.
Qed.

Lemma names_port_lookup (cs : comps) n k p :
  names_port cs n k p -> NoDup (map fst cs) ->
  exists b st q, assoc String.eqb n cs = Some b /\ start_of n cs = Some st
                 /\ py_index (free_ports b) k = Ok q /\ p = st + q.
Proof.
  intros (pre & b & post & q & Hcs & Hr & ->) Hnd.
  pose proof (nodup_pre Hnd Hcs) as Hni. subst cs.
  destruct (lookup_comp b post Hni) as [H1 H2].
  exists b, (ports_before pre), q. rewrite resolves_index in Hr. auto.
Qed.

Lemma lookup_names_port (cs : comps) n k b st q :
  assoc String.eqb n cs = Some b -> start_of n cs = Some st ->
  py_index (free_ports b) k = Ok q -> names_port cs n k (st + q).
Proof.
  intros Ha Hs Hi. destruct (lookup_decomp Ha) as (pre & post & Hcs & _ & Hs').
  exists pre, b, post, q. rewrite resolves_index. repeat split; auto. congruence.
Qed.

(** * parse_connection *)

Lemma parse_Some (cs : comps) conn i j :
  parse_connection cs conn = Ok (Some (i, j)) -> wires cs conn i j.
Proof.
  unfold parse_connection, free_of.
  destruct (split_colon conn) as [|n1 [|s1 [|n2 [|s2 [|? ?]]]]] eqn:Hs; try discriminate.
  intros H. inv_res.
  match goal with H : Some _ = Some _ |- _ => injection H as <- <- end.
  destruct (assoc String.eqb n1 cs) as [b1|] eqn:A1; [|discriminate].
  destruct (assoc String.eqb n2 cs) as [b2|] eqn:A2; [|discriminate].
  simpl in *.
  repeat match goal with H : Some _ = Some _ |- _ => injection H as <- end.
  do 6 eexists. repeat split; try eassumption; eapply lookup_names_port; eassumption.
Qed.


Lemma wires_parse (cs : comps) conn i j o : NoDup (map fst cs) ->
  wires cs conn i j -> parse_connection cs conn = Ok o -> o = Some (i, j).
Proof.
  intros Hnd (n1 & s1 & k1 & n2 & s2 & k2 & Hs & H1 & H2 & Hp1 & Hp2) H.
  destruct o as [[i' j']|].
  - apply parse_Some in H. destruct H as (m1 & t1 & l1 & m2 & t2 & l2 & Ht & G1 & G2 & Gp1 & Gp2).
    rewrite Hs in Ht. injection Ht as <- <- <- <-.
    assert (l1 = k1) by congruence. assert (l2 = k2) by congruence. subst.
    now rewrite (names_port_fun Hnd Hp1 Gp1), (names_port_fun Hnd Hp2 Gp2).
  - exfalso. unfold parse_connection in H. rewrite Hs in H. inv_res. discriminate.
Qed.

(** * The connection matrix *)

Lemma connect_true C i j a b :
  connect C i j a b = true <-> (a = i /\ b = j) \/ (a = j /\ b = i) \/ C a b = true.
Proof.
  unfold connect. rewrite !orb_true_iff, !andb_true_iff, !Nat.eqb_eq. tauto.
Qed.

Lemma net_C_step (cs : comps) conns C0 C : NoDup (map fst cs) ->
  foldM (fun C conn => do o <- parse_connection cs conn;
                       match o with None => Ok C | Some (i, j) => Ok (connect C i j) end) C0 conns = Ok C ->
  forall a b, C a b = true <->
    C0 a b = true \/ exists conn, In conn conns /\ (wires cs conn a b \/ wires cs conn b a).
Proof.
  intros Hnd. revert C0. induction conns as [|conn conns IH]; intros C0 H a b.
  - simpl in H. inv_res. subst. split; [auto|]. intros [H|(? & [] & _)]. exact H.
  - simpl in H. apply bind_Ok in H. destruct H as (C1 & HC1 & H).
    rewrite (IH _ H a b).
    apply bind_Ok in HC1. destruct HC1 as (o & Ho & HC1). destruct o as [[i j]|].
    + inv_res. subst C1. rewrite connect_true.
      assert (Hw : forall x y, wires cs conn x y <-> x = i /\ y = j).
      { intros x y. split.
        - intros Hw. pose proof (wires_parse Hnd Hw Ho) as E. injection E as -> ->. auto.
        - intros [-> ->]. now apply parse_Some. }
      split.
      * intros [[[-> ->]|[[-> ->]|Hc]]|(c & Hc & Hc')]; auto.
        -- right. exists conn. split; [left; reflexivity|]. left. now apply Hw.
        -- right. exists conn. split; [left; reflexivity|]. right. now apply Hw.
        -- right. exists c. split; [right; exact Hc|exact Hc'].
      * intros [Hc|(c & [->|Hc] & Hc')]; auto.
        -- left. rewrite !Hw in Hc'. tauto.
        -- right. exists c. auto.
    + inv_res. subst C1.
      assert (Hw : forall x y, ~ wires cs conn x y).
      { intros x y Hw. pose proof (wires_parse Hnd Hw Ho). discriminate. }
      split.
      * intros [Hc|(c & Hc & Hc')]; auto. right. exists c. split; [right; exact Hc|exact Hc'].
      * intros [Hc|(c & [->|Hc] & Hc')]; auto.
        -- exfalso. destruct Hc' as [Hc'|Hc']; eapply Hw; eassumption.
        -- right. exists c. auto.
Qed.

Lemma ports_before_cons n (c : buf) pre : ports_before ((n, c) :: pre) = b_np c + ports_before pre.
Proof. reflexivity. Qed.

Lemma block_inner (cs : comps) a b : block_mat (@b_C X D) false cs a b = true <-> inner cs a b.
Proof.
  revert a b. induction cs as [|[n c] cs IH]; intros a b.
  - split; [discriminate|]. intros (pre & n & c & post & i & j & H & _). destruct pre; discriminate.
  - cbn [block_mat].
    destruct (Nat.ltb_spec a (b_np c)) as [Ha|Ha]; destruct (Nat.ltb_spec b (b_np c)) as [Hb|Hb]; cbn [andb orb].
    + split.
      * intros H. exists [], n, c, cs, a, b. repeat split; auto.
      * intros (pre & m & c' & post & i & j & Hcs & Hi & Hj & HC & -> & ->).
        destruct pre as [|[m' c''] pre].
        -- cbn in Hcs. injection Hcs as _ -> _. exact HC.
        -- cbn in Hcs. injection Hcs as _ -> _. exfalso. cbn in Ha. lia.
    + split; [discriminate|].
      intros (pre & m & c' & post & i & j & Hcs & Hi & Hj & HC & -> & ->). exfalso.
      destruct pre as [|[m' c''] pre]; cbn in *; injection Hcs as _ -> _; lia.
    + split; [discriminate|].
      intros (pre & m & c' & post & i & j & Hcs & Hi & Hj & HC & -> & ->). exfalso.
      destruct pre as [|[m' c''] pre]; cbn in *; injection Hcs as _ -> _; lia.
    + rewrite IH. split.
      * intros (pre & m & c' & post & i & j & -> & Hi & Hj & HC & E1 & E2).
        exists ((n, c) :: pre), m, c', post, i, j. rewrite ports_before_cons. repeat split; auto; lia.
      * intros (pre & m & c' & post & i & j & Hcs & Hi & Hj & HC & -> & ->).
        destruct pre as [|[m' c''] pre].
        -- cbn in *. injection Hcs as _ -> _. lia.
        -- cbn in Hcs. injection Hcs as _ -> ->. exists pre, m, c', post, i, j.
           rewrite ports_before_cons. repeat split; auto; lia.
Qed.

Lemma net_C_spec (cs : comps) conns C : NoDup (map fst cs) -> net_C cs conns = Ok C ->
  forall a b, C a b = true <->
    inner cs a b \/ exists conn, In conn conns /\ (wires cs conn a b \/ wires cs conn b a).
Proof.
  intros Hnd H a b. unfold net_C in H. rewrite (net_C_step Hnd H a b), block_inner. tauto.
Qed.

Lemma check_buf_Ok nw (b b' : buf) : check_buf nw b = Ok b' -> b' = b.
Proof. unfold check_buf. intros H. inv_res. now symmetry. Qed.

Lemma net_buf_inv (cs : comps) conns b : net_buf x0 d0 cs conns = Ok b ->
  net_order cs conns = Ok (b_order b) /\ net_C cs conns = Ok (b_C b)
  /\ b_np b = total_ports cs
  /\ b_src b = block_vec (@b_src X D) false cs
  /\ b_det b = block_vec (@b_det X D) false cs
  /\ b_act b = block_vec (@b_act X D) false cs
  /\ b_S b = block_mat (@b_S X D) x0 cs
  /\ b_del b = block_vec (@b_del X D) d0 cs.
Proof.
  unfold net_buf. intros H. inv_res. apply check_buf_Ok in H. subst b. cbn. repeat split; assumption.
Qed.

Theorem net_buf_C (cs : comps) conns b : NoDup (map fst cs) -> net_buf x0 d0 cs conns = Ok b ->
  forall i j, b_C b i j = true <->
    inner cs i j \/ exists conn, In conn conns /\ (wires cs conn i j \/ wires cs conn j i).
Proof.
  intros Hnd H. destruct (net_buf_inv H) as (_ & HC & _). apply net_C_spec; assumption.
Qed.

(** * Names used *)

Lemma dedup_spec l seen : NoDup (dedup l seen) /\ (forall s, In s (dedup l seen) <-> In s l /\ ~ In s seen).
Proof.
  revert seen. induction l as [|a l IH]; intros seen; cbn [dedup].
  - split; [constructor|]. intros s. simpl. tauto.
  - destruct (existsb (String.eqb a) seen) eqn:E.
    + apply existsb_exists in E. destruct E as (a' & Ha & Ea). apply String.eqb_eq in Ea. subst a'.
      destruct (IH seen) as [H1 H2]. split; [exact H1|]. intros s. rewrite H2. simpl.
      split; [tauto|]. intros [[->|H] Hn]; [contradiction|auto].
    + assert (Hni : ~ In a seen).
      { intros Ha. rewrite <- not_true_iff_false in E. apply E, existsb_exists. exists a.
        split; [exact Ha|apply String.eqb_refl]. }
      destruct (IH (a :: seen)) as [H1 H2]. split.
      * constructor; [|exact H1]. rewrite H2. simpl. tauto.
      * intros s. simpl. rewrite H2. simpl.
        destruct (String.eqb_spec a s) as [->|Hne]; [tauto|]. split.
        -- intros [->|[Hl Hn]]; [congruence|]. split; [auto|]. intros Hs. apply Hn. auto.
        -- intros [[->|Hl] Hn]; [congruence|]. right. split; [exact Hl|]. intros [->|Hs]; congruence.
Qed.

Lemma used_names_NoDup conns : NoDup (used_names conns).
Proof. apply dedup_spec. Qed.

Lemma In_used_names conns s :
  In s (used_names conns) <-> py_int s = None /\ exists c, In c conns /\ In s (split_colon c).
Proof.
  unfold used_names. rewrite (proj2 (dedup_spec _ _)). rewrite filter_In, in_flat_map.
  unfold is_int. destruct (py_int s); simpl; intuition discriminate.
Qed.

Lemma select_comps_Ok (mods : comps) names cs : select_comps mods names = Ok cs ->
  map fst cs = names /\ forall n b, In (n, b) cs -> assoc String.eqb n mods = Some b.
Proof.
  intros H0. apply mapM_Ok in H0. induction H0 as [|n [m b] names cs H HF [IH1 IH2]].
  - split; [reflexivity|]. intros ? ? [].
  - inv_res. injection H as <- <-. simpl. rewrite IH1. split; [reflexivity|].
    intros n' b' [[= <- <-]|Hin]; [assumption|auto].
Qed.

Lemma set_buffers_inv (mods : comps) conns cs b :
  set_buffers x0 d0 mods conns = Ok (Some (cs, b)) ->
  map fst cs = used_names (map clean_conn conns)
  /\ (forall n c, In (n, c) cs -> assoc String.eqb n mods = Some c)
  /\ net_buf x0 d0 cs (map clean_conn conns) = Ok b.
Proof.
  unfold set_buffers. destruct conns as [|c conns]; [discriminate|]. destruct mods as [|m mods]; [discriminate|].
  intros H. inv_res. injection H as <- <-.
  match goal with H : select_comps _ _ = Ok _ |- _ => destruct (select_comps_Ok H) as [? ?] end.
  repeat split; assumption.
Qed.

Lemma set_buffers_NoDup (mods : comps) conns cs b :
  set_buffers x0 d0 mods conns = Ok (Some (cs, b)) -> NoDup (map fst cs).
Proof. intros H. destruct (set_buffers_inv H) as (-> & _). apply used_names_NoDup. Qed.

End P.
