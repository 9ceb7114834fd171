(** Port numbering (C05, C06, C07) and when building succeeds. *)
From Coq Require Import Permutation Sorted.
From Verif Require Import Base PyStr PyStrProofs NetModel NetSpec NetProofs WireProofs.
Set Implicit Arguments.
Unset Strict Implicit.
Local Open Scope list_scope.

Section O.
Variables (X D : Type) (x0 : X) (d0 : D).
Notation buf := (buf X D).
Notation comps := (list (string * buf)).

(** * The check of the port order *)

Lemma insert_head0 x r : exists r', insert x (0 :: r) = 0 :: r'.
Proof. cbn. destruct x; cbn; eauto. Qed.

Lemma sort_head0 l : In 0 l -> exists r, sort l = 0 :: r.
Proof.
  induction l as [|x l IH]; intros H; [destruct H|].
  cbn [sort fold_right]. fold (sort l). destruct (Nat.eq_dec x 0) as [->|Hx].
  - destruct (sort l); cbn; eauto.
  - destruct H as [H|H]; [congruence|]. destruct (IH H) as [r ->]. apply insert_head0.
Qed.

Lemma order_good (b : buf) : In 0 (b_order b) -> 0 < b_np b -> order_bad b = false.
Proof.
  intros H Hn. unfold order_bad. destruct (sort_head0 H) as [r ->].
  destruct (b_np b); [lia|]. reflexivity.
Qed.

Lemma order_ok_good (b : buf) : order_ok b -> 0 < b_np b -> order_bad b = false.
Proof.
  intros H Hn. apply order_good; [|exact Hn].
  apply (Permutation_in 0 (Permutation_sym H)), in_seq. lia.
Qed.

Lemma no_ports_bad (b : buf) : b_np b = 0 -> order_bad b = true.
Proof. intros H. unfold order_bad. rewrite H. cbn [seq]. destruct (sort (b_order b)); reflexivity. Qed.

(** [order_bad] says: the sorted port order differs from 0,1,2,... at every position. *)
Lemma order_bad_iff (b : buf) : length (b_order b) = b_np b ->
  (order_bad b = true <-> forall i v, nth_error (sort (b_order b)) i = Some v -> v <> i).
Proof.
  intros Hlen.
  assert (Hsl : length (sort (b_order b)) = b_np b).
  { rewrite <- Hlen. clear. unfold sort. induction (b_order b) as [|x l IH]; [reflexivity|].
    cbn [fold_right length]. rewrite <- IH. clear IH. generalize (fold_right insert [] l).
    induction l0 as [|y r IH]; [reflexivity|]. cbn [insert length]. destruct (x <=? y); cbn [length]; lia. }
  unfold order_bad. rewrite <- Hsl. generalize (sort (b_order b)). clear. intros l.
  enough (H : forall s, forallb (fun p => negb (fst p =? snd p)) (combine l (seq s (length l))) = true
                        <-> forall i v, nth_error l i = Some v -> v <> s + i) by apply (H 0).
  induction l as [|x l IH]; intros s.
  - split; [|reflexivity]. intros _ [|i] v; discriminate.
  - cbn [length seq combine forallb fst snd]. rewrite andb_true_iff, negb_true_iff, Nat.eqb_neq, IH. split.
    + intros [H1 H2] [|i] v Hv; cbn in Hv.
      * injection Hv as <-. lia.
      * specialize (H2 _ _ Hv). lia.
    + intros H. split; [specialize (H 0 x eq_refl); lia|]. intros i v Hv. specialize (H (S i) v Hv). lia.
Qed.

Lemma any_port_false (b : buf) f : (forall i, i < b_np b -> f i = false) -> any_port b f = false.
Proof.
  intros H. unfold any_port. apply not_true_iff_false. intros He. apply existsb_exists in He.
  destruct He as (i & Hi & Hf). apply in_seq in Hi. rewrite H in Hf; [discriminate|lia].
Qed.

Lemma any_port_true (b : buf) f i : i < b_np b -> f i = true -> any_port b f = true.
Proof. intros Hi Hf. apply existsb_exists. exists i. split; [apply in_seq; lia|exact Hf]. Qed.

Lemma check_ok nw (b : buf) : flags_ok b -> order_ok b -> 0 < b_np b ->
  nw = true \/ (forall i, i < b_np b -> b_act b i = false) \/ (forall i, i < b_np b -> b_act b i = true) ->
  check_buf nw b = Ok b.
Proof.
  intros Hf Ho Hn Ha. unfold check_buf.
  rewrite (@any_port_false b (fun i => b_src b i && b_det b i)).
  2:{ intros i Hi. destruct (Hf i Hi) as [H1 H2]. destruct (b_src b i); [|reflexivity].
      destruct (H1 eq_refl) as [-> _]. reflexivity. }
  rewrite (@any_port_false b (fun i => b_src b i && b_act b i)).
  2:{ intros i Hi. destruct (Hf i Hi) as [H1 H2]. destruct (b_src b i); [|reflexivity].
      destruct (H1 eq_refl) as [_ ->]. reflexivity. }
  rewrite (@any_port_false b (fun i => b_det b i && b_act b i)).
  2:{ intros i Hi. destruct (Hf i Hi) as [H1 H2]. destruct (b_det b i); [|reflexivity].
      rewrite (H2 eq_refl). reflexivity. }
  rewrite order_ok_good by assumption.
  destruct Ha as [->|[Ha|Ha]].
  - rewrite orb_true_r, andb_false_r. reflexivity.
  - rewrite (@any_port_false b (b_act b) Ha). reflexivity.
  - assert (Hall : all_ports b (b_act b) = true).
    { apply forallb_forall. intros i Hi. apply in_seq in Hi. apply Ha. lia. }
    rewrite Hall, andb_false_r. reflexivity.
Qed.

(** What an accepted component guarantees. *)
Lemma check_flags nw (b b' : buf) : check_buf nw b = Ok b' -> flags_ok b'.
Proof.
  intros H. pose proof (check_buf_Ok H) as ->. unfold check_buf in H. inv_res.
  assert (Hk : forall f, any_port b f = false -> forall i, i < b_np b -> f i = false).
  { intros f Hf i Hi. apply not_true_iff_false. intros Ht.
    pose proof (any_port_true Hi Ht). congruence. }
  intros i Hi. specialize (Hk _ E i Hi) as K1. specialize (Hk _ E0 i Hi) as K2. specialize (Hk _ E1 i Hi) as K3.
  cbv beta in *. destruct (b_src b i), (b_det b i), (b_act b i); cbn in *; try discriminate; split; intros; try split; congruence.
Qed.

(** * The dictionary of external numbers *)

Lemma parse_output_Some (cs : comps) conn p z : NoDup (map fst cs) ->
  (parse_output cs conn = Ok (Some (p, z)) <-> numbers cs conn p z).
Proof.
  intros Hnd. unfold parse_output, free_of. split.
  - destruct (split_colon conn) as [|n [|s [|t [|? [|? ?]]]]] eqn:Hs; try discriminate.
    intros H. inv_res. destruct (assoc String.eqb n cs) as [c|] eqn:A; [|discriminate]. cbn in *.
    injection H as <- <-.
    repeat match goal with H : Some _ = Some _ |- _ => injection H as <- end.
    exists n, s, x, t. repeat split; auto. eapply lookup_names_port; eassumption.
  - intros (n & s & k & t & -> & Hk & Hz & Hp). rewrite Hk, Hz.
    destruct (names_port_lookup Hp Hnd) as (c & st & q & -> & -> & Hi & ->). cbn. rewrite Hi. reflexivity.
Qed.

Lemma parse_output_None (cs : comps) conn :
  parse_output cs conn = Ok None -> length (split_colon conn) = 4.
Proof.
  unfold parse_output. destruct (split_colon conn) as [|n [|s [|t [|? [|? ?]]]]] eqn:Hs; try discriminate.
  - intros H. inv_res. discriminate.
  - reflexivity.
Qed.

Definition dict_of (es : list (Z * nat)) : list (Z * nat) :=
  fold_left (fun d e => dict_set Z.eqb (fst e) (snd e) d) es [].

Lemma order_dict_ok (cs : comps) conns es : NoDup (map fst cs) -> ext_list cs conns es ->
  order_dict cs conns = Ok (dict_of es).
Proof.
  intros Hnd He. unfold order_dict, dict_of. generalize (@nil (Z * nat)).
  induction He as [|c l p z es Hn He IH|c l es Hl He IH]; intros d; [reflexivity| |].
  - cbn [foldM]. apply (parse_output_Some _ _ _ Hnd) in Hn. rewrite Hn. cbn [bind fst snd fold_left]. apply IH.
  - cbn [foldM]. assert (Hp : parse_output cs c = Ok None).
    { unfold parse_output. destruct (split_colon c) as [|? [|? [|? [|? [|? ?]]]]]; cbn in Hl; try lia. reflexivity. }
    rewrite Hp. apply IH.
Qed.

Lemma ext_list_exists (cs : comps) conns d : NoDup (map fst cs) ->
  order_dict cs conns = Ok d -> exists es, ext_list cs conns es /\ d = dict_of es.
Proof.
  intros Hnd Hd. assert (He : exists es, ext_list cs conns es).
  { unfold order_dict in Hd. revert Hd. generalize (@nil (Z * nat)).
    induction conns as [|c l IH]; intros d' Hd; [exists []; constructor|].
    cbn in Hd. apply bind_Ok in Hd. destruct Hd as (d1 & H1 & Hd).
    apply bind_Ok in H1. destruct H1 as (o & Ho & H1).
    destruct (IH _ Hd) as [es Hes]. destruct o as [[p z]|].
    - exists ((z, p) :: es). constructor; [|assumption]. now apply parse_output_Some.
    - exists es. apply el_wire; [|assumption]. eapply parse_output_None; eassumption. }
  destruct He as [es He]. exists es. split; [exact He|]. rewrite (order_dict_ok Hnd He) in Hd. congruence.
Qed.

Lemma dict_set_new (k : Z) (v : nat) d : ~ In k (map fst d) -> dict_set Z.eqb k v d = d ++ [(k, v)].
Proof.
  induction d as [|[k' v'] d IH]; cbn; intros H; [reflexivity|].
  destruct (Z.eqb_spec k k') as [->|Hk]; [tauto|]. rewrite IH by tauto. reflexivity.
Qed.

Lemma dict_of_nodup es : NoDup (map fst es) -> dict_of es = es.
Proof.
  intros H. unfold dict_of.
  enough (Hg : forall d, NoDup (map fst d ++ map fst es) ->
     fold_left (fun d e => dict_set Z.eqb (fst e) (snd e) d) es d = d ++ es) by (apply (Hg []); exact H).
  clear H. induction es as [|[k v] es IH]; intros d Hd; [symmetry; apply app_nil_r|].
  cbn [fold_left fst snd]. rewrite dict_set_new.
  - rewrite IH; [rewrite <- app_assoc; reflexivity|]. rewrite map_app, <- app_assoc. exact Hd.
  - cbn in Hd. apply NoDup_remove_2 in Hd. intros Hin. apply Hd, in_or_app. auto.
Qed.

Lemma assoc_In (k : Z) (v : nat) d : NoDup (map fst d) -> (assoc Z.eqb k d = Some v <-> In (k, v) d).
Proof.
  induction d as [|[k' v'] d IH]; intros Hn; cbn; [split; [discriminate|tauto]|].
  inversion Hn as [|? ? Hk Hn']; subst. destruct (Z.eqb_spec k k') as [->|Hne].
  - split; [intros [= ->]; auto|]. intros [[= ->]|Hin]; [reflexivity|].
    exfalso. apply Hk. change k' with (fst (k', v)). now apply in_map.
  - rewrite (IH Hn'). split; [auto|]. intros [[= -> ->]|Hin]; [congruence|exact Hin].
Qed.

Lemma seqZ_NoDup n : NoDup (map Z.of_nat (seq 0 n)).
Proof. apply FinFun.Injective_map_NoDup; [intros a b; lia|apply seq_NoDup]. Qed.

Lemma nb_keys_NoDup es np : numbered es np -> NoDup (map fst es).
Proof. intros H. apply (Permutation_NoDup (Permutation_sym (nb_keys H))), seqZ_NoDup. Qed.

Definition ext_ports (es : list (Z * nat)) : list nat :=
  flat_map (fun j => match assoc Z.eqb (Z.of_nat j) es with Some i => [i] | None => [] end)
           (seq 0 (length es)).

Definition rest_ports (es : list (Z * nat)) (np : nat) : list nat :=
  filter (fun i => negb (existsb (fun e => snd e =? i) es)) (seq 0 np).

Lemma order_list_eq es np : order_list es np = ext_ports es ++ rest_ports es np.
Proof. reflexivity. Qed.

Lemma ext_ports_assoc es np : numbered es np -> forall j, j < length es ->
  exists p, assoc Z.eqb (Z.of_nat j) es = Some p.
Proof.
  intros H j Hj. assert (Hin : In (Z.of_nat j) (map fst es)).
  { apply (Permutation_in _ (Permutation_sym (nb_keys H))), in_map, in_seq. lia. }
  apply in_map_iff in Hin. destruct Hin as ([z p] & Hz & Hin). cbn in Hz. subst z.
  exists p. apply assoc_In; [now apply (nb_keys_NoDup H)|exact Hin].
Qed.

Lemma ext_ports_map es np : numbered es np ->
  exists f, ext_ports es = map f (seq 0 (length es))
            /\ forall j, j < length es -> In (Z.of_nat j, f j) es.
Proof.
  intros H. exists (fun j => match assoc Z.eqb (Z.of_nat j) es with Some i => i | None => 0 end).
  assert (Hj : forall j, j < length es -> In (Z.of_nat j, match assoc Z.eqb (Z.of_nat j) es with Some i => i | None => 0 end) es).
  { intros j Hj. destruct (ext_ports_assoc H Hj) as [p Hp]. rewrite Hp.
    apply assoc_In in Hp; [exact Hp|now apply (nb_keys_NoDup H)]. }
  split; [|exact Hj]. unfold ext_ports.
  assert (Hg : forall l, (forall j, In j l -> j < length es) ->
    flat_map (fun j => match assoc Z.eqb (Z.of_nat j) es with Some i => [i] | None => [] end) l
    = map (fun j => match assoc Z.eqb (Z.of_nat j) es with Some i => i | None => 0 end) l).
  { induction l as [|j l IH]; intros Hl; [reflexivity|]. cbn.
    destruct (ext_ports_assoc H (Hl j (or_introl eq_refl))) as [p ->]. cbn. f_equal. apply IH.
    intros i Hi. apply Hl. right. exact Hi. }
  apply Hg. intros j Hj'. apply in_seq in Hj'. lia.
Qed.

Lemma ext_ports_length es np : numbered es np -> length (ext_ports es) = length es.
Proof. intros H. destruct (ext_ports_map H) as (f & -> & _). now rewrite map_length, seq_length. Qed.

Lemma ext_ports_nth es np j p : numbered es np ->
  (nth_error (ext_ports es) j = Some p <-> In (Z.of_nat j, p) es).
Proof.
  intros H. destruct (ext_ports_map H) as (f & Hf & Hin). rewrite Hf.
  assert (Huniq : forall z p p', In (z, p) es -> In (z, p') es -> p = p').
  { intros z a a' Ha Ha'. apply (assoc_In _ _ (nb_keys_NoDup H)) in Ha, Ha'. congruence. }
  split.
  - intros Hn. assert (Hj : j < length es).
    { rewrite <- (seq_length (length es) 0), <- (map_length f). apply nth_error_Some. congruence. }
    rewrite nth_error_map in Hn. rewrite (nth_error_nth' _ 0) in Hn by now rewrite seq_length.
    rewrite seq_nth in Hn by assumption. injection Hn as <-. now apply Hin.
  - intros Hp. assert (Hj : j < length es).
    { assert (Hk : In (Z.of_nat j) (map fst es)) by (change (Z.of_nat j) with (fst (Z.of_nat j, p)); now apply in_map).
      apply (Permutation_in _ (nb_keys H)) in Hk. apply in_map_iff in Hk.
      destruct Hk as (i & Hi & Hs). apply in_seq in Hs. lia. }
    rewrite nth_error_map. rewrite (nth_error_nth' _ 0) by now rewrite seq_length.
    rewrite seq_nth by assumption. cbn. f_equal. eapply Huniq; [|exact Hp]. now apply Hin.
Qed.

Lemma ext_ports_In es np p : numbered es np -> (In p (ext_ports es) <-> In p (map snd es)).
Proof.
  intros H. split.
  - intros Hp. apply In_nth_error in Hp. destruct Hp as [j Hj]. apply (ext_ports_nth _ _ H) in Hj.
    change p with (snd (Z.of_nat j, p)). now apply in_map.
  - intros Hp. apply in_map_iff in Hp. destruct Hp as ([z p'] & E & Hin). cbn in E. subst p'.
    assert (Hk : In z (map fst es)) by (change z with (fst (z, p)); now apply in_map).
    apply (Permutation_in _ (nb_keys H)) in Hk. apply in_map_iff in Hk. destruct Hk as (j & <- & _).
    eapply nth_error_In. apply (ext_ports_nth _ _ H). exact Hin.
Qed.

Lemma ext_ports_NoDup es np : numbered es np -> NoDup (ext_ports es).
Proof.
  intros H. destruct (ext_ports_map H) as (f & Hf & Hin). rewrite Hf.
  assert (Hinj : forall i j, i < length es -> j < length es -> f i = f j -> i = j).
  { intros i j Hi Hj E. pose proof (Hin i Hi) as H1. pose proof (Hin j Hj) as H2. rewrite E in H1.
    pose proof (nb_vals H) as Hv. clear - H1 H2 Hv.
    induction es as [|[z p] es IH]; [destruct H1|]. cbn in Hv. inversion Hv as [|? ? Hni Hv']; subst.
    destruct H1 as [H1|H1], H2 as [H2|H2].
    - assert (Z.of_nat i = Z.of_nat j) by congruence. lia.
    - injection H1 as _ ->. exfalso. apply Hni. change (f j) with (snd (Z.of_nat j, f j)). now apply in_map.
    - injection H2 as _ ->. exfalso. apply Hni. change (f j) with (snd (Z.of_nat i, f j)). now apply in_map.
    - auto. }
  assert (Hg : forall l, NoDup l -> (forall i, In i l -> i < length es) -> NoDup (map f l)).
  { induction l as [|a l IH]; intros Hn Hl; [constructor|]. inversion Hn; subst. cbn. constructor.
    - intros Hc. apply in_map_iff in Hc. destruct Hc as (a' & E & Ha'). apply Hinj in E; [subst; auto| |].
      + apply Hl. right. exact Ha'.
      + apply Hl. left. reflexivity.
    - apply IH; auto. intros i Hi. apply Hl. right. exact Hi. }
  apply Hg; [apply seq_NoDup|]. intros i Hi. apply in_seq in Hi. lia.
Qed.

Lemma rest_ports_In es np p : In p (rest_ports es np) <-> p < np /\ ~ In p (map snd es).
Proof.
  unfold rest_ports. rewrite filter_In, in_seq, negb_true_iff, <- not_true_iff_false, existsb_exists.
  split; intros [H1 H2]; (split; [lia|]); intros H; apply H2.
  - apply in_map_iff in H. destruct H as (e & <- & He). exists e. split; [exact He|apply Nat.eqb_refl].
  - destruct H as (e & He & E). apply Nat.eqb_eq in E. subst. now apply in_map.
Qed.

Lemma order_list_perm es np : numbered es np -> Permutation (order_list es np) (seq 0 np).
Proof.
  intros H. rewrite order_list_eq. apply NoDup_Permutation; [|apply seq_NoDup|].
  - pose proof (ext_ports_NoDup H) as H1.
    assert (H2 : NoDup (rest_ports es np)) by apply NoDup_filter, seq_NoDup.
    assert (H3 : forall p, In p (ext_ports es) -> ~ In p (rest_ports es np)).
    { intros p Hp Hr. apply rest_ports_In in Hr. apply (ext_ports_In _ H) in Hp. tauto. }
    revert H1 H3. generalize (ext_ports es). induction l as [|a l IH]; intros H1 H3; [exact H2|].
    inversion H1; subst. cbn. constructor.
    + intros Hin. apply in_app_or in Hin. destruct Hin as [Hin|Hin]; [contradiction|].
      apply (H3 a); [left; reflexivity|exact Hin].
    + apply IH; auto. intros p Hp. apply H3. right. exact Hp.
  - intros p. rewrite in_app_iff, (ext_ports_In _ H), rest_ports_In, in_seq. split.
    + intros [Hp|[Hp _]]; [|lia]. apply in_map_iff in Hp. destruct Hp as ([z p'] & E & Hin). cbn in E. subst.
      pose proof (nb_lt H Hin). lia.
    + intros Hp. destruct (in_dec Nat.eq_dec p (map snd es)); [auto|right; split; [lia|assumption]].
Qed.

(** * Children's orders *)

Lemma child_orders_perm (cs : comps) off : (forall n c, In (n, c) cs -> order_ok c) ->
  Permutation (child_orders off cs) (seq off (total_ports cs)).
Proof.
  revert off. induction cs as [|[n c] cs IH]; intros off H; [constructor|].
  cbn [child_orders]. change (total_ports ((n, c) :: cs)) with (b_np c + total_ports cs).
  rewrite seq_app. apply Permutation_app.
  - rewrite (seq_shift_map off). apply Permutation_map. apply (H n). left. reflexivity.
  - apply IH. intros m c' Hin. apply (H m). right. exact Hin.
Qed.

Lemma child_orders_id (cs : comps) off : (forall n c, In (n, c) cs -> b_order c = seq 0 (b_np c)) ->
  child_orders off cs = seq off (total_ports cs).
Proof.
  revert off. induction cs as [|[n c] cs IH]; intros off H; [reflexivity|].
  cbn [child_orders]. change (total_ports ((n, c) :: cs)) with (b_np c + total_ports cs).
  rewrite seq_app. f_equal.
  - rewrite (seq_shift_map off). f_equal. apply (H n). left. reflexivity.
  - apply IH. intros m c' Hin. apply (H m). right. exact Hin.
Qed.

Lemma apply_order_ok (clone order : list nat) : Permutation order (seq 0 (length clone)) ->
  apply_order clone order = Ok (map (fun i => nth i clone 0) order).
Proof.
  intros H. unfold apply_order.
  assert (Hl : length order = length clone) by (rewrite (Permutation_length H), seq_length; reflexivity).
  assert (Hm : mapM (fun idx => of_option IndexError (nth_error clone idx)) order
               = Ok (map (fun i => nth i clone 0) order)).
  { apply mapM_Ok. assert (Hb : forall i, In i order -> i < length clone).
    { intros i Hi. apply (Permutation_in _ H) in Hi. apply in_seq in Hi. lia. }
    clear H Hl. induction order as [|i l IH]; [constructor|]. cbn. constructor.
    - rewrite (nth_error_nth' clone 0); [reflexivity|]. apply Hb. left. reflexivity.
    - apply IH. intros j Hj. apply Hb. right. exact Hj. }
  rewrite Hm. cbn [bind]. rewrite Hl, Nat.ltb_irrefl, skipn_all, app_nil_r. reflexivity.
Qed.

Lemma map_nth_perm (clone order : list nat) : Permutation order (seq 0 (length clone)) ->
  Permutation (map (fun i => nth i clone 0) order) clone.
Proof.
  intros H. apply (Permutation_map (fun i => nth i clone 0)) in H.
  eapply Permutation_trans; [exact H|]. clear H.
  replace (map (fun i => nth i clone 0) (seq 0 (length clone))) with clone; [apply Permutation_refl|].
  induction clone as [|a l IH]; [reflexivity|]. cbn [length seq map nth]. f_equal.
  rewrite (seq_shift_map 1), map_map. exact IH.
Qed.

Lemma net_order_ok (cs : comps) conns es : NoDup (map fst cs) -> orders_ok cs ->
  ext_list cs conns es -> numbered es (total_ports cs) ->
  net_order cs conns = Ok (map (fun i => nth i (child_orders 0 cs) 0) (order_list es (total_ports cs))).
Proof.
  intros Hnd Ho He Hn. unfold net_order. rewrite (order_dict_ok Hnd He). cbn [bind].
  rewrite (dict_of_nodup (nb_keys_NoDup Hn)). apply apply_order_ok.
  rewrite (Permutation_length (child_orders_perm 0 Ho)), seq_length. now apply order_list_perm.
Qed.

(** C06 *)
Theorem net_order_perm (cs : comps) conns es b : NoDup (map fst cs) -> orders_ok cs ->
  net_buf x0 d0 cs conns = Ok b ->
  ext_list cs conns es -> numbered es (total_ports cs) -> order_ok b.
Proof.
  intros Hnd Ho Hb He Hn. destruct (net_buf_inv Hb) as (Hord & _ & Hnp & _).
  rewrite (net_order_ok Hnd Ho He Hn) in Hord. apply Ok_inj in Hord.
  unfold order_ok. rewrite <- Hord, Hnp.
  pose proof (child_orders_perm 0 Ho) as Hc.
  eapply Permutation_trans; [apply map_nth_perm|exact Hc].
  rewrite (Permutation_length Hc), seq_length. now apply order_list_perm.
Qed.

(** The double lookup of set_port_order: port number [j] becomes [clone[p]]. *)
Theorem net_order_general (cs : comps) conns es b j p : NoDup (map fst cs) -> orders_ok cs ->
  net_buf x0 d0 cs conns = Ok b ->
  ext_list cs conns es -> numbered es (total_ports cs) -> In (Z.of_nat j, p) es ->
  nth_error (b_order b) j = nth_error (child_orders 0 cs) p.
Proof.
  intros Hnd Ho Hb He Hn Hin. destruct (net_buf_inv Hb) as (Hord & _ & Hnp & _).
  rewrite (net_order_ok Hnd Ho He Hn) in Hord. apply Ok_inj in Hord. rewrite <- Hord.
  assert (Hlt : p < total_ports cs) by (eapply nb_lt; eassumption).
  apply (ext_ports_nth _ _ Hn) in Hin.
  rewrite nth_error_map, order_list_eq.
  rewrite nth_error_app1 by (apply nth_error_Some; congruence).
  rewrite Hin. cbn. symmetry. apply nth_error_nth'.
  rewrite (Permutation_length (child_orders_perm 0 Ho)), seq_length. exact Hlt.
Qed.

(** C05 *)
Theorem net_order_id (cs : comps) conns es b : NoDup (map fst cs) ->
  (forall n c, In (n, c) cs -> b_order c = seq 0 (b_np c)) ->
  net_buf x0 d0 cs conns = Ok b ->
  ext_list cs conns es -> numbered es (total_ports cs) ->
  b_order b = ext_ports es ++ rest_ports es (total_ports cs).
Proof.
  intros Hnd Hid Hb He Hn. destruct (net_buf_inv Hb) as (Hord & _ & Hnp & _).
  assert (Ho : orders_ok cs).
  { intros n c Hin. unfold order_ok. rewrite (Hid n c Hin). apply Permutation_refl. }
  rewrite (net_order_ok Hnd Ho He Hn), (child_orders_id 0 Hid) in Hord. apply Ok_inj in Hord.
  rewrite <- Hord, <- order_list_eq. rewrite <- (map_id (order_list es (total_ports cs))) at 2.
  apply map_ext_in. intros i Hi. apply (Permutation_in _ (order_list_perm Hn)) in Hi.
  apply in_seq in Hi. rewrite seq_nth; lia.
Qed.

Lemma filter_all {A} (f : A -> bool) l : (forall a, In a l -> f a = true) -> filter f l = l.
Proof.
  induction l as [|a l IH]; intros H; [reflexivity|]. cbn. rewrite (H a (or_introl eq_refl)), IH; auto.
  intros x Hx. apply H. right. exact Hx.
Qed.

Lemma seq_sorted s n : StronglySorted lt (seq s n).
Proof.
  revert s. induction n as [|n IH]; intros s; cbn; constructor; [apply IH|].
  apply Forall_forall. intros x Hx. apply in_seq in Hx. lia.
Qed.

Lemma filter_sorted (f : nat -> bool) l : StronglySorted lt l -> StronglySorted lt (filter f l).
Proof.
  induction 1 as [|a l H IH HF]; cbn; [constructor|]. destruct (f a); [|exact IH].
  constructor; [exact IH|]. rewrite Forall_forall in *. intros x Hx. apply filter_In in Hx. now apply HF.
Qed.

Theorem net_external_ports (cs : comps) conns es b : NoDup (map fst cs) ->
  (forall n c, In (n, c) cs -> b_order c = seq 0 (b_np c)) ->
  net_buf x0 d0 cs conns = Ok b ->
  ext_list cs conns es -> numbered es (total_ports cs) ->
  (forall z p, In (z, p) es -> unconnected b p) ->
  exists ext rest, free_list b (b_order b) (ext ++ rest)
    /\ (forall j p, nth_error ext j = Some p <-> In (Z.of_nat j, p) es)
    /\ StronglySorted lt rest
    /\ (forall p, In p rest <-> p < b_np b /\ unconnected b p /\ ~ In p ext).
Proof.
  intros Hnd Hid Hb He Hn Hu. destruct (net_buf_inv Hb) as (_ & _ & Hnp & _).
  exists (ext_ports es), (filter (free_at b) (rest_ports es (total_ports cs))).
  split; [|split; [|split]].
  - apply free_list_iff. rewrite (net_order_id Hnd Hid Hb He Hn), filter_app. f_equal.
    symmetry. apply filter_all. intros p Hp. apply free_at_spec.
    apply (ext_ports_In _ Hn) in Hp. apply in_map_iff in Hp. destruct Hp as ([z p'] & E & Hin).
    cbn in E. subst. eapply Hu; eassumption.
  - intros j p. now apply (ext_ports_nth _ _ Hn).
  - apply filter_sorted. unfold rest_ports. apply filter_sorted, seq_sorted.
  - intros p. rewrite filter_In, rest_ports_In, free_at_spec, (ext_ports_In _ Hn), Hnp. tauto.
Qed.

(** * Success of building *)

Theorem net_buf_ok (cs : comps) conns es ws : NoDup (map fst cs) -> orders_ok cs ->
  (forall n c, In (n, c) cs -> flags_ok c) -> 0 < total_ports cs ->
  ext_list cs conns es -> numbered es (total_ports cs) ->
  (forall conn, In conn conns -> exists o, parse_connection cs conn = Ok o) ->
  wire_list cs conns ws ->
  exists b, net_buf x0 d0 cs conns = Ok b.
Proof.
  intros Hnd Ho Hf Hpos He Hn Hp Hw. unfold net_buf.
  rewrite (net_order_ok Hnd Ho He Hn). cbn [bind].
  assert (HC : exists C, net_C cs conns = Ok C).
  { unfold net_C. generalize (block_mat (@b_C X D) false cs). clear He Hn Hw.
    induction conns as [|c l IH]; intros C0; [eexists; reflexivity|]. cbn [foldM].
    destruct (Hp c (or_introl eq_refl)) as [o Ho']. rewrite Ho'. cbn [bind].
    destruct o as [[i j]|]; apply IH; intros x Hx; apply Hp; right; exact Hx. }
  destruct HC as [C HC]. rewrite HC. cbn [bind]. eexists. apply check_ok; cbn; auto.
  - intros p Hpp. cbn in Hpp. destruct (located_exists Hpp) as (n & c & q & Hl).
    cbn. rewrite !(block_vec_located _ _ Hl).
    destruct Hl as (pre & post & Hcs & _ & Hq). apply (Hf n c); [|exact Hq].
    rewrite Hcs. apply in_or_app. right. left. reflexivity.
  - unfold order_ok. cbn. pose proof (child_orders_perm 0 Ho) as Hc.
    eapply Permutation_trans; [apply map_nth_perm|exact Hc].
    rewrite (Permutation_length Hc), seq_length. now apply order_list_perm.
Qed.

End O.
