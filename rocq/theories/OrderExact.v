(** Exactly when the port numbering keeps all ports (C06). *)
From Coq Require Import Permutation Sorted.
From Verif Require Import Base PyStr PyStrProofs NetModel NetSpec NetProofs WireProofs OrderProofs.
Set Implicit Arguments.
Unset Strict Implicit.
Local Open Scope list_scope.

(** External numbers that are not among 0..k-1, where k is how many there are. *)
Definition in_range (k : nat) (z : Z) : bool := ((0 <=? z) && (z <? Z.of_nat k))%Z.
Definition strays (es : list (Z * nat)) : list nat :=
  map snd (filter (fun e => negb (in_range (length es) (fst e))) es).

Lemma in_range_spec k z : in_range k z = true <-> exists j, j < k /\ z = Z.of_nat j.
Proof.
  unfold in_range. rewrite andb_true_iff, Z.leb_le, Z.ltb_lt. split.
  - intros H. exists (Z.to_nat z). lia.
  - intros (j & H & ->). lia.
Qed.

Lemma strays_In es p : In p (strays es) <-> exists z, In (z, p) es /\ in_range (length es) z = false.
Proof.
  unfold strays. rewrite in_map_iff. split.
  - intros ([z q] & <- & H). apply filter_In in H. destruct H as [H R]. exists z.
    split; [exact H|]. apply negb_true_iff. exact R.
  - intros (z & H & R). exists (z, p). split; [reflexivity|]. apply filter_In. split; [exact H|].
    cbn. rewrite R. reflexivity.
Qed.

Section E.
Variables (es : list (Z * nat)) (np : nat).
Hypothesis keys : NoDup (map fst es).
Hypothesis ports : NoDup (map snd es).
Hypothesis bound : forall z p, In (z, p) es -> p < np.

Lemma port_unique z z' p : In (z, p) es -> In (z', p) es -> z = z'.
Proof.
  clear keys bound. revert ports. induction es as [|[y q] l IH]; intros N H H'; [destruct H|].
  inversion N as [|? ? N1 N2]; subst. destruct H as [H|H], H' as [H'|H'].
  - congruence.
  - injection H as <- <-. exfalso. apply N1. apply (in_map snd) in H'. exact H'.
  - injection H' as <- <-. exfalso. apply N1. apply (in_map snd) in H. exact H.
  - exact (IH N2 H H').
Qed.

Lemma ext_ports_used p : In p (ext_ports es) <-> exists z, In (z, p) es /\ in_range (length es) z = true.
Proof.
  unfold ext_ports. rewrite in_flat_map. split.
  - intros (j & Hj & H). apply in_seq in Hj.
    destruct (assoc Z.eqb (Z.of_nat j) es) as [q|] eqn:A; [|destruct H]. destruct H as [<-|[]].
    exists (Z.of_nat j). split; [apply assoc_In in A; assumption|]. apply in_range_spec. exists j. split; [lia|reflexivity].
  - intros (z & H & R). apply in_range_spec in R. destruct R as (j & Hj & ->). exists j.
    split; [apply in_seq; lia|]. apply (assoc_In _ _ keys) in H. rewrite H. left. reflexivity.
Qed.

Lemma ext_ports_once : NoDup (ext_ports es).
Proof.
  unfold ext_ports.
  assert (G : forall l, NoDup l -> NoDup (flat_map (fun j => match assoc Z.eqb (Z.of_nat j) es with
                                            Some i => [i] | None => [] end) l)).
  { induction l as [|j l IH]; intros N; [constructor|]. inversion N; subst. cbn.
    destruct (assoc Z.eqb (Z.of_nat j) es) as [q|] eqn:A; [|apply IH; assumption].
    constructor; [|apply IH; assumption]. intros H. apply in_flat_map in H. destruct H as (i & Hi & H).
    destruct (assoc Z.eqb (Z.of_nat i) es) as [q'|] eqn:A'; [|destruct H]. destruct H as [->|[]].
    apply (assoc_In _ _ keys) in A, A'. pose proof (port_unique A A') as U. apply Nat2Z.inj in U. congruence. }
  apply G, seq_NoDup.
Qed.

Lemma used_or_stray p : In p (order_list es np) <-> p < np /\ ~ In p (strays es).
Proof.
  rewrite order_list_eq, in_app_iff, ext_ports_used, rest_ports_In, strays_In. split.
  - intros [(z & H & R)|[H R]].
    + split; [exact (bound H)|]. intros (z' & H' & R'). rewrite (port_unique H H') in R. congruence.
    + split; [exact H|]. intros (z & H' & _). apply R. apply (in_map snd) in H'. exact H'.
  - intros [H R]. destruct (in_dec Nat.eq_dec p (map snd es)) as [I|I]; [|right; split; assumption].
    left. apply in_map_iff in I. destruct I as ([z q] & E & I). cbn in E. subst q.
    exists z. split; [exact I|]. destruct (in_range (length es) z) eqn:A; [reflexivity|].
    exfalso. apply R. exists z. auto.
Qed.

Lemma order_list_once : NoDup (order_list es np).
Proof.
  rewrite order_list_eq.
  assert (H3 : forall p, In p (ext_ports es) -> ~ In p (rest_ports es np)).
  { intros p Hp Hr. apply rest_ports_In in Hr. apply ext_ports_used in Hp. destruct Hp as (z & H & _).
    apply (proj2 Hr). apply (in_map snd) in H. exact H. }
  pose proof ext_ports_once as H1. assert (H2 : NoDup (rest_ports es np)) by apply NoDup_filter, seq_NoDup.
  revert H1 H3. generalize (ext_ports es). induction l as [|a l IH]; intros H1 H3; [exact H2|].
  inversion H1; subst. cbn. constructor.
  - intros Hin. apply in_app_or in Hin. destruct Hin as [Hin|Hin]; [contradiction|].
    apply (H3 a); [left; reflexivity|exact Hin].
  - apply IH; auto. intros p Hp. apply H3. right. exact Hp.
Qed.

Lemma strays_once : NoDup (strays es).
Proof.
  unfold strays. clear keys bound. generalize (fun e : Z * nat => negb (in_range (length es) (fst e))).
  intros f. revert ports. induction es as [|e l IH]; intros N; [constructor|]. inversion N as [|? ? N1 N2]; subst.
  cbn. destruct (f e); [|exact (IH N2)]. cbn. constructor; [|exact (IH N2)].
  intros H. apply in_map_iff in H. destruct H as (e' & E & H). apply filter_In in H. apply N1.
  rewrite <- E. apply in_map. exact (proj1 H).
Qed.

Lemma order_list_count : length (order_list es np) + length (strays es) = np.
Proof.
  rewrite <- app_length. rewrite <- (seq_length np 0) at 2. apply Permutation_length.
  apply NoDup_Permutation; [|apply seq_NoDup|].
  - assert (D : forall p, In p (order_list es np) -> ~ In p (strays es)) by (intros p H; apply used_or_stray in H; tauto).
    pose proof order_list_once as H1. pose proof strays_once as H2. revert H1 D. generalize (order_list es np).
    induction l as [|a l IH]; intros H1 D; [exact H2|]. inversion H1; subst. cbn. constructor.
    + intros Hin. apply in_app_or in Hin. destruct Hin as [Hin|Hin]; [contradiction|].
      apply (D a); [left; reflexivity|exact Hin].
    + apply IH; auto. intros p Hp. apply D. right. exact Hp.
  - intros p. rewrite in_app_iff, used_or_stray, in_seq. split.
    + intros [[H _]|H]; [lia|]. apply strays_In in H. destruct H as (z & H & _). pose proof (bound H). lia.
    + intros H. destruct (in_dec Nat.eq_dec p (strays es)); [right; assumption|left; split; [lia|assumption]].
Qed.

(** The positions that are not overwritten must belong to the stray ports. *)
Lemma completed_once :
  NoDup (order_list es np ++ seq (length (order_list es np)) (length (strays es))) <->
  forall p, In p (strays es) -> np - length (strays es) <= p.
Proof.
  pose proof order_list_count as CNT. set (L := order_list es np) in *. set (m := length (strays es)) in *.
  assert (IV : forall p, In p (seq (length L) m) <-> np - m <= p < np) by (intros p; rewrite in_seq; lia).
  split.
  - intros N p Hp.
    assert (I : incl (seq (length L) m) (strays es)).
    { intros q Hq. destruct (in_dec Nat.eq_dec q (strays es)) as [I|I]; [exact I|]. exfalso.
      assert (HL : In q L) by (apply used_or_stray; split; [apply IV in Hq; lia|exact I]).
      revert N HL Hq. generalize (seq (length L) m). clearbody L. clear. intros r. induction L as [|a l IH]; intros N HL Hq; [destruct HL|]. cbn in N.
      inversion N as [|? ? N1 N2]; subst. destruct HL as [->|HL]; [|exact (IH N2 HL Hq)].
      apply N1. apply in_or_app. right. exact Hq. }
    assert (J : incl (strays es) (seq (length L) m)).
    { apply NoDup_length_incl; [apply seq_NoDup|rewrite seq_length; apply Nat.le_refl|exact I]. }
    apply J, IV in Hp. lia.
  - intros H. assert (D : forall p, In p L -> ~ In p (seq (length L) m)).
    { assert (I : incl (strays es) (seq (length L) m)).
      { intros p Hp. apply IV. split; [apply H; exact Hp|]. apply strays_In in Hp.
        destruct Hp as (z & Hz & _). exact (bound Hz). }
      assert (J : incl (seq (length L) m) (strays es)).
      { apply NoDup_length_incl; [exact strays_once|rewrite seq_length; apply Nat.le_refl|exact I]. }
      intros p Hp Hq. apply J in Hq. apply used_or_stray in Hp. tauto. }
    assert (H1 : NoDup L) by exact order_list_once. assert (H2 : NoDup (seq (length L) m)) by apply seq_NoDup.
    revert H1 D H2. generalize (seq (length L) m). clearbody L. clear. induction L as [|a l IH]; intros r H1 D H2; [exact H2|].
    inversion H1; subst. cbn. constructor.
    + intros Hin. apply in_app_or in Hin. destruct Hin as [Hin|Hin]; [contradiction|].
      apply (D a); [left; reflexivity|exact Hin].
    + apply IH; auto. intros p Hp. apply D. right. exact Hp.
Qed.

End E.

Lemma skipn_nth (l : list nat) k : map (fun i => nth i l 0) (seq k (length l - k)) = skipn k l.
Proof.
  revert k. induction l as [|a l IH]; intros k; [now destruct k|]. destruct k as [|k].
  - cbn [length Nat.sub seq map nth skipn]. f_equal. rewrite <- seq_shift, map_map. cbn.
    pose proof (IH 0) as H. rewrite Nat.sub_0_r in H. rewrite H. reflexivity.
  - cbn [length Nat.sub skipn]. rewrite <- seq_shift, map_map. cbn. apply IH.
Qed.

Lemma map_once (f : nat -> nat) l : (forall i j, In i l -> In j l -> f i = f j -> i = j) ->
  (NoDup (map f l) <-> NoDup l).
Proof.
  intros J. split; [apply NoDup_map_inv|]. induction l as [|a l IH]; intros N; [constructor|].
  inversion N; subst. cbn. constructor.
  - intros H. apply in_map_iff in H. destruct H as (b & E & H). apply J in E; [subst; contradiction|right; exact H|left; reflexivity].
  - apply IH; [|assumption]. intros i j Hi Hj. apply J; right; assumption.
Qed.

Section N.
Variables (X D : Type) (x0 : X) (d0 : D).
Notation buf := (buf X D).
Notation comps := (list (string * buf)).

Lemma ext_list_lt (cs : comps) conns es : orders_ok cs -> ext_list cs conns es ->
  forall z p, In (z, p) es -> p < total_ports cs.
Proof.
  intros Ho He. induction He as [|c l p z es (n & s & k & t & _ & _ & _ & Hp) He IH|c l es Hl He IH];
    intros y q Hin; [destruct Hin| |exact (IH _ _ Hin)].
  destruct Hin as [E|Hin]; [|exact (IH _ _ Hin)]. injection E as <- <-.
  destruct (names_port_located Ho Hp) as (c' & r & Hl & _). exact (located_lt Hl).
Qed.

Theorem net_order_exact (cs : comps) conns es b : NoDup (map fst cs) -> orders_ok cs ->
  net_buf x0 d0 cs conns = Ok b -> ext_list cs conns es ->
  NoDup (map fst es) -> NoDup (map snd es) ->
  (order_ok b <-> forall p, In p (strays es) -> b_np b - length (strays es) <= p).
Proof.
  intros Hnd Ho Hb He Hk Hv. pose proof (ext_list_lt Ho He) as Hlt. destruct (net_buf_inv Hb) as (Hord & _ & Hnp & _).
  unfold net_order in Hord. rewrite (order_dict_ok Hnd He), (dict_of_nodup Hk) in Hord. cbn [bind] in Hord.
  rewrite Hnp. unfold order_ok. rewrite Hnp.
  rewrite <- (completed_once Hk Hv Hlt).
  pose proof (order_list_count Hk Hv Hlt) as CNT. set (L := order_list es (total_ports cs)) in *.
  set (n := total_ports cs) in *. pose proof (child_orders_perm 0 Ho) as Hc. fold n in Hc.
  set (clone := child_orders 0 cs) in *.
  assert (LC : length clone = n) by (rewrite (Permutation_length Hc), seq_length; reflexivity).
  assert (NC : NoDup clone) by (apply (Permutation_NoDup (Permutation_sym Hc)), seq_NoDup).
  assert (LT : forall i, In i (L ++ seq (length L) (length (strays es))) -> i < n).
  { intros i Hi. apply in_app_or in Hi. destruct Hi as [Hi|Hi].
    - apply (used_or_stray Hk Hv Hlt) in Hi. apply Hi.
    - apply in_seq in Hi. lia. }
  assert (EQ : b_order b = map (fun i => nth i clone 0) (L ++ seq (length L) (length (strays es)))).
  { unfold apply_order in Hord. 
    assert (Hm : mapM (fun idx => of_option IndexError (nth_error clone idx)) L
               = Ok (map (fun i => nth i clone 0) L)).
    { apply mapM_Ok. assert (Hb' : forall i, In i L -> i < length clone).
      { intros i Hi. rewrite LC. apply LT. apply in_or_app. left. exact Hi. }
      clear - Hb'. induction L as [|i l IH]; [constructor|]. cbn. constructor.
      - rewrite (nth_error_nth' clone 0); [reflexivity|]. apply Hb'. left. reflexivity.
      - apply IH. intros j Hj. apply Hb'. right. exact Hj. }
    rewrite Hm in Hord. cbn [bind] in Hord. destruct (length clone <? length L) eqn:E; [discriminate|].
    apply Ok_inj in Hord. rewrite <- Hord, map_app. f_equal.
    replace (length (strays es)) with (length clone - length L) by lia. symmetry. apply skipn_nth. }
  rewrite EQ. clear EQ Hord.
  assert (J : forall i j, In i (L ++ seq (length L) (length (strays es))) ->
              In j (L ++ seq (length L) (length (strays es))) -> nth i clone 0 = nth j clone 0 -> i = j).
  { intros i j Hi Hj E. apply (proj1 (NoDup_nth clone 0) NC); [rewrite LC; auto|rewrite LC; auto|exact E]. }
  rewrite <- (map_once J).
  set (W := map (fun i => nth i clone 0) (L ++ seq (length L) (length (strays es)))) in *.
  assert (LW : length W = n) by (unfold W; rewrite map_length, app_length, seq_length; exact CNT).
  assert (IW : incl W (seq 0 n)).
  { intros v Hv'. apply in_map_iff in Hv'. destruct Hv' as (i & <- & Hi). apply (Permutation_in _ Hc).
    apply nth_In. rewrite LC. auto. }
  split.
  - intros P. apply (Permutation_NoDup (Permutation_sym P)), seq_NoDup.
  - intros N. apply NoDup_Permutation; [exact N|apply seq_NoDup|]. intros v. split; [apply IW|].
    revert v. apply NoDup_length_incl; [exact N|rewrite LW, seq_length; apply Nat.le_refl|exact IW].
Qed.

End N.
