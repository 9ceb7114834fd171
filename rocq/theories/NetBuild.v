(** The building theorems restated for [build], the function a user calls. *)
From Coq Require Import Permutation Sorted.
From Verif Require Import Base PyStr PyStrProofs NetModel NetSpec LinkProofs NetProofs WireProofs OrderProofs StateProofs TypedNet TermProofs.
Set Implicit Arguments.
Unset Strict Implicit.
Local Open Scope list_scope.

Section B.
Variables (X D : Type) (x0 : X) (d0 : D).
Notation buf := (buf X D).
Notation comps := (list (string * buf)).

Lemma build_inv (mods : comps) conns b : build x0 d0 mods conns = Ok b ->
  exists cs, sub_components mods conns cs /\ net_buf x0 d0 cs (map clean_conn conns) = Ok b.
Proof.
  unfold build. intros H. apply bind_Ok in H. destruct H as ([[cs b']|] & H & E); [|discriminate].
  apply Ok_inj in E. subst b'. exists cs. destruct (set_buffers_inv H) as (Hn & Hf & Hb).
  split; [|exact Hb]. constructor.
  - exact (set_buffers_NoDup H).
  - exact Hf.
  - intros n. rewrite Hn, In_used_names. split; (intros [Hi Hc]; split; [exact Hi|]).
    + destruct Hc as (c & Hc & Hin). apply in_map_iff in Hc. destruct Hc as (c' & <- & Hc').
      exists c'. split; [exact Hc'|]. now rewrite split_clean in Hin.
    + destruct Hc as (c & Hc & Hin). exists (clean_conn c). split; [now apply in_map|]. now rewrite split_clean.
Qed.

Lemma build_wiring (mods : comps) conns b : build x0 d0 mods conns = Ok b ->
  exists cs, sub_components mods conns cs
    /\ b_np b = ports_before cs
    /\ (forall i j, b_C b i j = true <->
          inner cs i j \/ exists conn, In conn (map clean_conn conns) /\ (wires cs conn i j \/ wires cs conn j i))
    /\ (all_sym cs -> sym_C b).
Proof.
  intros H. destruct (build_inv H) as (cs & Hs & Hb). exists cs. split; [exact Hs|].
  destruct (net_buf_inv Hb) as (_ & _ & Hnp & _). split; [exact Hnp|].
  split; [exact (net_buf_C (sc_once Hs) Hb)|exact (net_sym (sc_once Hs) Hb)].
Qed.

Lemma build_child (mods : comps) conns b : build x0 d0 mods conns = Ok b -> (forall n c, In (n, c) mods -> order_ok c) ->
  exists cs, sub_components mods conns cs
    /\ (forall pre n c post i', cs = pre ++ (n, c) :: post -> i' < b_np c -> ~ unconnected c i' ->
          forall j, b_C b (ports_before pre + i') j = true <->
                    exists j', j' < b_np c /\ j = ports_before pre + j' /\ b_C c i' j' = true)
    /\ (forall pre n c post i' j', cs = pre ++ (n, c) :: post -> i' < b_np c -> j' < b_np c ->
          let i := ports_before pre + i' in let j := ports_before pre + j' in
          b_C b i j = true <-> b_C c i' j' = true \/
            exists conn, In conn (map clean_conn conns) /\ (wires cs conn i j \/ wires cs conn j i)).
Proof.
  intros H Ho. destruct (build_inv H) as (cs & Hs & Hb). exists cs. split; [exact Hs|].
  assert (Ho' : orders_ok cs).
  { intros n c Hin. apply (sc_from Hs) in Hin. apply (Ho n). clear - Hin. induction mods as [|[m d] l IH]; [discriminate|].
    cbn in Hin. destruct (String.eqb_spec n m) as [->|E]; [injection Hin as ->; left; reflexivity|right; auto]. }
  split.
  - intros. eapply (child_isolated (sc_once Hs) Hb Ho'); eassumption.
  - intros. eapply (child_block (sc_once Hs) Hb); eassumption.
Qed.

(** Building and the connections of a built network. *)
Lemma build_partner (mods : comps) conns b : build x0 d0 mods conns = Ok b ->
  exists cs ws, sub_components mods conns cs /\ wire_list cs (map clean_conn conns) ws
    /\ (orders_ok cs -> (forall n c, In (n, c) cs -> at_most_one_partner c) -> NoDup (endpoints ws) ->
        at_most_one_partner b
        /\ num_free b + 2 * length ws = list_sum (map (fun c => num_free (snd c)) cs)).
Proof.
  intros H. destruct (build_inv H) as (cs & Hs & Hb).
  destruct (wire_list_exists Hb) as [ws Hw]. exists cs, ws. split; [exact Hs|]. split; [exact Hw|].
  intros Ho Hp He. split; [exact (net_partner (sc_once Hs) Hb Hw Ho Hp He)|exact (net_num_free (sc_once Hs) Ho Hb Hw He)].
Qed.

Lemma ext_list_of_build (cs : comps) conns b : NoDup (map fst cs) -> net_buf x0 d0 cs conns = Ok b -> exists es, ext_list cs conns es.
Proof.
  intros Hnd Hb. destruct (net_buf_inv Hb) as (Ho & _). unfold net_order in Ho. apply bind_Ok in Ho.
  destruct Ho as (d & Hd & _). destruct (ext_list_exists Hnd Hd) as (es & He & _). eauto.
Qed.

(** Induction over nested circuits. *)
Fixpoint comp_ind' (P : comp X D -> Prop) (Hl : forall b, P (Leaf b))
  (Hn : forall cs conns, (forall n c, In (n, c) cs -> P c) -> P (Net cs conns)) (c : comp X D) : P c.
Proof.
  destruct c as [b|cs conns]; [apply Hl|]. apply Hn.
  revert cs. fix go 1. intros [|[n c] cs] m d Hin; [destruct Hin|].
  destruct Hin as [E|Hin]; [|exact (go cs m d Hin)].
  assert (Ed : d = c) by congruence. rewrite Ed. apply comp_ind'; assumption.
Qed.

(** Every leaf of the circuit satisfies [P]. *)
Inductive every_leaf (P : buf -> Prop) : comp X D -> Prop :=
| el_leaf b : P b -> every_leaf P (Leaf b)
| el_net cs conns : (forall n c, In (n, c) cs -> every_leaf P c) -> every_leaf P (Net cs conns).

Lemma compile_net cs conns b : compile x0 d0 (Net cs conns) = Ok b ->
  exists mods, build x0 d0 mods conns = Ok b
    /\ Forall2 (fun c m => fst m = fst c /\ compile x0 d0 (snd c) = Ok (snd m)) cs mods.
Proof.
  cbn [compile]. intros H. apply bind_Ok in H. destruct H as (mods & Hm & Hb). exists mods. split; [exact Hb|].
  clear Hb. revert mods Hm. induction cs as [|[n c] cs IH]; intros mods Hm.
  - injection Hm as <-. constructor.
  - apply bind_Ok in Hm. destruct Hm as (b1 & H1 & Hm). apply bind_Ok in Hm. destruct Hm as (bs & H2 & Hm).
    apply Ok_inj in Hm. subst mods. constructor; [split; [reflexivity|exact H1]|now apply IH].
Qed.

Lemma assoc_In_s n (mods : comps) c : assoc String.eqb n mods = Some c -> In (n, c) mods.
Proof.
  induction mods as [|[m d] l IH]; [discriminate|]. cbn. destruct (String.eqb_spec n m) as [->|E]; [intros [= ->]; auto|auto].
Qed.

Lemma Forall2_In_r {A B} (R : A -> B -> Prop) l l' b : Forall2 R l l' -> In b l' -> exists a, In a l /\ R a b.
Proof.
  induction 1 as [|x y l l' HR _ IH]; intros Hin; [destruct Hin|]. destruct Hin as [<-|Hin].
  - exists x. split; [left; reflexivity|exact HR].
  - destruct (IH Hin) as (a & Ha & Hb). exists a. split; [right; exact Ha|exact Hb].
Qed.

(** C02: circuits made of components with symmetric wiring are symmetric, at any nesting depth. *)
Theorem compile_sym c b : every_leaf (@sym_C X D) c -> compile x0 d0 c = Ok b -> sym_C b.
Proof.
  revert b. induction c as [b0|cs conns IH] using comp_ind'; intros b He Hc.
  - cbn in Hc. apply check_buf_Ok in Hc. subst. inversion He; assumption.
  - destruct (compile_net Hc) as (mods & Hb & Hm). destruct (build_inv Hb) as (cs' & Hs & Hn).
    apply (net_sym (sc_once Hs) Hn). intros n d Hin. apply (sc_from Hs) in Hin. apply assoc_In_s in Hin.
    destruct (Forall2_In_r Hm Hin) as ([n' c'] & Hc' & E & Hd). inversion He; subst. eapply IH; eauto.
Qed.

(** C07: flags of any built circuit. *)
Theorem compile_flags c b : compile x0 d0 c = Ok b -> flags_ok b.
Proof.
  destruct c as [b0|cs conns]; intros Hc.
  - cbn in Hc. eapply check_flags; exact Hc.
  - destruct (compile_net Hc) as (mods & Hb & _). destruct (build_inv Hb) as (cs' & Hs & Hn).
    unfold net_buf in Hn. inv_res. eapply check_flags; eassumption.
Qed.

(** Terminating every port. *)
Theorem terminate_partner name (b : buf) (terms : comps) b' :
  good_name name -> (forall t c, In (t, c) terms -> good_name t /\ one_port c) ->
  NoDup (name :: map fst terms) -> order_ok b -> flags_ok b -> terms <> [] ->
  length terms <= num_free b -> at_most_one_partner b ->
  terminate_net x0 d0 name b terms = Ok b' -> at_most_one_partner b'.
Proof.
  intros Hn Hg Hnd Ho Hf Hne Hl Hp Ht. destruct terms as [|[t0 bt0] rest]; [congruence|].
  destruct (terminate_build x0 d0 Hn Hg Hnd Ho Hf Hl) as (b2 & H2 & Hb & Hw).
  assert (b2 = b') by congruence. subst b2.
  apply (net_partner (cs_nodup b Hnd) Hb Hw).
  - eapply cs_orders; eassumption.
  - assert (H1 : forall n c, In (n, c) ((t0, bt0) :: rest) -> at_most_one_partner c).
    { intros n c Hin i j k _ Hj Hk _ _. destruct (Hg n c Hin) as [_ Hop]. pose proof (op_np Hop). lia. }
    intros n c [E|[E|Hin]].
    + apply (H1 n). left. exact E.
    + injection E as _ <-. exact Hp.
    + apply (H1 n). right. exact Hin.
  - apply wires_nodup; assumption.
Qed.

Lemma num_free_zero (b : buf) : num_free b = 0 -> forall p, p < b_np b -> ~ unconnected b p.
Proof.
  intros H p Hp Hu. apply free_at_spec in Hu.
  assert (Hin : In p (filter (free_at b) (seq 0 (b_np b)))) by (apply filter_In; split; [apply in_seq; lia|exact Hu]).
  unfold num_free in H. destruct (filter _ _); [destruct Hin|discriminate].
Qed.

Lemma closed_one_partner (b : buf) : num_free b = 0 -> sym_C b -> at_most_one_partner b -> one_partner b.
Proof.
  intros H Hs Hp i Hi.
  assert (Hex : exists j, j < b_np b /\ b_C b i j = true).
  { destruct (existsb (b_C b i) (seq 0 (b_np b))) eqn:E.
    - apply existsb_exists in E. destruct E as (j & Hj & Hc). apply in_seq in Hj. exists j. split; [lia|exact Hc].
    - exfalso. apply (num_free_zero H Hi). intros j Hj.
      assert (Hc : b_C b i j = false).
      { apply not_true_iff_false. intros Hc. apply not_true_iff_false in E. apply E. apply existsb_exists.
        exists j. split; [apply in_seq; lia|exact Hc]. }
      split; [exact Hc|]. rewrite (Hs j i Hj Hi). exact Hc. }
  destruct Hex as (j & Hj & Hc). exists j. split; [exact Hj|]. split; [exact Hc|].
  intros k Hk Hck. now apply (Hp i k j).
Qed.
End B.

Section B2.
Variables (X D : Type) (x0 : X) (d0 : D).
Notation buf := (buf X D).
Notation comps := (list (string * buf)).

Lemma check_ok_all nw (b : buf) : flags_ok b -> order_ok b -> 0 < b_np b ->
  (nw = true \/ (forall i, i < b_np b -> b_act b i = false) \/ (forall i, i < b_np b -> b_act b i = true)) ->
  check_buf nw b = Ok b.
Proof.
  intros Hf Ho Hn H.
  assert (E : any_port b (fun i => b_src b i && b_det b i) = false
    /\ any_port b (fun i => b_src b i && b_act b i) = false /\ any_port b (fun i => b_det b i && b_act b i) = false).
  { repeat split; apply any_port_false; intros i Hi; destruct (Hf i Hi) as [H1 H2].
    - destruct (b_src b i); [|reflexivity]. destruct (H1 eq_refl) as [-> _]. reflexivity.
    - destruct (b_src b i); [|reflexivity]. destruct (H1 eq_refl) as [_ ->]. reflexivity.
    - destruct (b_det b i); [|reflexivity]. rewrite (H2 eq_refl). reflexivity. }
  destruct E as (E1 & E2 & E3). unfold check_buf. rewrite E1, E2, E3, (order_ok_good Ho Hn).
  destruct H as [->|[H|H]].
  - rewrite orb_true_r, andb_false_r. reflexivity.
  - rewrite (any_port_false H). reflexivity.
  - assert (Ea : all_ports b (b_act b) = true).
    { apply forallb_forall. intros i Hi. apply in_seq in Hi. apply H. lia. }
    rewrite Ea. cbn. rewrite andb_false_r. reflexivity.
Qed.

Lemma names_protected (os1 os2 : list (nop X D)) n c :
  let s := nrun x0 d0 (ns_empty X D) os1 in
  let s' := nrun x0 d0 s os2 in
  In n (ns_names s) ->
  (In n (ns_names s') /\ stored s' n = stored s n) /\ add_component s' n c = (s', Some AttributeError).
Proof.
  cbn. intros H. pose proof (@names_permanent X D x0 d0 os1 os2 n H) as Hp. split; [exact Hp|].
  apply add_refused. apply Hp.
Qed.

Lemma free_list_ports (b : buf) fl : free_list b (b_order b) fl -> fl = free_ports b.
Proof. intros H. now apply free_list_iff. Qed.

Lemma terminate_all name (b : buf) (terms : comps) fl :
  good_name name -> (forall t c, In (t, c) terms -> good_name t /\ one_port c) ->
  NoDup (name :: map fst terms) -> order_ok b -> flags_ok b ->
  free_list b (b_order b) fl -> terms <> [] -> length terms = length fl ->
  exists b', terminate_net x0 d0 name b terms = Ok b'
    /\ b_np b' = b_np b + length terms
    /\ (forall q q', q < b_np b -> q' < b_np b -> b_C b' (nport q) (nport q') = b_C b q q')
    /\ (forall i q, i < length terms -> q < b_np b ->
          (b_C b' (tport b i) (nport q) = true <-> nth_error fl i = Some q)
          /\ (b_C b' (nport q) (tport b i) = true <-> nth_error fl i = Some q))
    /\ (forall i j, i < length terms -> j < length terms -> b_C b' (tport b i) (tport b j) = false)
    /\ (forall p, p < b_np b' -> ~ unconnected b' p)
    /\ num_src b' = num_src b + list_sum (map (fun t => num_src (snd t)) terms)
    /\ num_det b' = num_det b + list_sum (map (fun t => num_det (snd t)) terms)
    /\ order_ok b' /\ (at_most_one_partner b -> at_most_one_partner b').
Proof.
  intros Hn Hg Hnd Ho Hf Hfl Hne Hl. apply free_list_ports in Hfl. subst fl.
  assert (Hl' : length terms = num_free b) by (rewrite Hl; now apply free_ports_length).
  destruct terms as [|[t0 bt0] rest]; [congruence|].
  destruct (terminate_spec x0 d0 Hn Hg Hnd Ho Hf (Nat.eq_le_incl _ _ Hl')) as (b' & H1 & H2 & H3 & H4 & H5 & H6 & H7 & H8 & H9).
  exists b'. split; [exact H1|]. split; [exact H2|]. split; [exact H3|]. split; [exact H4|]. split; [exact H5|].
  split; [apply num_free_zero; lia|]. split; [exact H7|]. split; [exact H8|]. split; [exact H9|].
  intros Hp. eapply (@terminate_partner X D x0 d0 name b ((t0, bt0) :: rest) b'); auto. lia.
Qed.

(** Without a name the assignment to [base] succeeds, with one it never does. *)
Lemma terminate_list_unnamed cls (b : buf) (terms : comps) : ~ In "base"%string (cls :: map fst terms) ->
  terminate_list x0 d0 None cls b terms = terminate_net x0 d0 cls b terms.
Proof.
  intros H. unfold terminate_list, set_base, copied_name. destruct (terminate_net _ _ _ _ _) as [b'|e]; [|reflexivity]. cbn [bind].
  replace (existsb (String.eqb "base") (cls :: map fst terms)) with false; [reflexivity|]. symmetry. apply not_true_is_false. intros E.
  apply existsb_exists in E as (n & Hn & E). apply String.eqb_eq in E. subst n. exact (H Hn).
Qed.
Lemma terminate_list_named n cls (b : buf) (terms : comps) b' : terminate_list x0 d0 (Some n) cls b terms <> Ok b'.
Proof.
  unfold terminate_list, set_base, copied_name. destruct (terminate_net _ _ _ _ _) as [b2|e]; [|discriminate]. cbn [bind existsb].
  destruct (String.eqb_spec n "base") as [->|]; [discriminate|]. destruct (_ || _); discriminate.
Qed.

Lemma terminate_closed name (b : buf) terms :
  (forall q, q < b_np b -> ~ unconnected b q) -> terminate_net x0 d0 name b terms = Err IndexError.
Proof.
  intros H. apply terminate_none. unfold num_free.
  assert (E : filter (free_at b) (seq 0 (b_np b)) = []).
  { assert (Hall : forall q, In q (seq 0 (b_np b)) -> free_at b q = false).
    { intros q Hq. apply in_seq in Hq. apply not_true_iff_false. intros Hf. apply (H q); [lia|]. now apply free_at_spec. }
    revert Hall. generalize (seq 0 (b_np b)). induction l as [|q l IH]; intros Hall; [reflexivity|]. cbn.
    rewrite (Hall q (or_introl eq_refl)). apply IH. intros x Hx. apply Hall. right. exact Hx. }
  rewrite E. reflexivity.
Qed.

Lemma terminate_many name (b : buf) (terms : comps) fl :
  good_name name -> (forall t c, In (t, c) terms -> good_name t /\ one_port c) ->
  NoDup (name :: map fst terms) -> order_ok b -> flags_ok b ->
  free_list b (b_order b) fl -> fl <> [] -> length fl < length terms ->
  terminate_net x0 d0 name b terms = Err ValueError.
Proof.
  intros Hn Hg Hnd Ho Hf Hfl Hne Hl. apply free_list_ports in Hfl. subst fl.
  pose proof (free_ports_length Ho) as Hfp.
  destruct terms as [|[t0 bt0] rest]; [cbn in Hl; lia|].
  apply terminate_too_many; auto; [|lia]. rewrite <- Hfp. destruct (free_ports b); [congruence|discriminate].
Qed.

Lemma NoDup_app_l {A} (l r : list A) x : NoDup (l ++ r) -> In x r -> ~ In x l.
Proof.
  induction l as [|a l IH]; cbn; intros H Hr; [tauto|]. inversion H; subst.
  intros [->|Hl]; [|eapply IH; eassumption]. apply H2, in_or_app. auto.
Qed.

Lemma terminate_fewer name (b : buf) (terms : comps) fl :
  good_name name -> (forall t c, In (t, c) terms -> good_name t /\ one_port c) ->
  NoDup (name :: map fst terms) -> order_ok b -> flags_ok b ->
  free_list b (b_order b) fl -> terms <> [] -> length terms <= length fl ->
  exists b', terminate_net x0 d0 name b terms = Ok b'
    /\ (forall q, q < b_np b -> (unconnected b' (nport q) <-> In q (skipn (length terms) fl)))
    /\ (forall i, i < length terms -> ~ unconnected b' (tport b i)).
Proof.
  intros Hn Hg Hnd Ho Hf Hfl Hne Hl. apply free_list_ports in Hfl. subst fl.
  pose proof (free_ports_length Ho) as Hfp.
  assert (Hl' : length terms <= num_free b) by lia.
  destruct terms as [|[t0 bt0] rest]; [congruence|]. set (terms := (t0, bt0) :: rest) in *.
  destruct (terminate_spec x0 d0 Hn Hg Hnd Ho Hf Hl') as (b' & H1 & H2 & H3 & H4 & H5 & H6 & _).
  exists b'. split; [exact H1|].
  assert (Hnd' : NoDup (free_ports b)) by (apply NoDup_filter, order_ok_NoDup, Ho).
  assert (Hdec : forall p, p < b_np b' -> (exists q, q < b_np b /\ p = nport q) \/ (exists i, i < length terms /\ p = tport b i)).
  { intros p Hp. rewrite H2 in Hp. destruct p as [|p].
    - right. exists 0. split; [cbn; lia|reflexivity].
    - destruct (Nat.lt_ge_cases p (b_np b)) as [Hq|Hq].
      + left. exists p. auto.
      + right. exists (S (p - b_np b)). split; [cbn [terms length] in *; lia|]. cbn. lia. }
  assert (Hin : forall i q, nth_error (free_ports b) i = Some q -> q < b_np b).
  { intros i q Hi. apply nth_error_In in Hi. apply filter_In in Hi. apply order_ok_lt; tauto. }
  assert (Hnl : forall q, q < b_np b -> nport q < b_np b') by (intros q Hq; rewrite H2; unfold nport; cbn [terms length]; lia).
  assert (Htl : forall i, i < length terms -> tport b i < b_np b').
  { intros i Hi. rewrite H2. destruct i; unfold tport; cbn [terms length] in *; lia. }
  split.
  - intros q Hq. split.
    + intros Hu.
      assert (Hfree : unconnected b q).
      { intros j Hj. destruct (Hu (nport j) (Hnl j Hj)) as [Ha Hb]. rewrite !H3 in * by assumption. auto. }
      assert (Hmem : In q (free_ports b)).
      { apply filter_In. split; [|now apply free_at_spec]. apply (Permutation_in q (Permutation_sym Ho)), in_seq. lia. }
      rewrite <- (firstn_skipn (length terms) (free_ports b)) in Hmem. apply in_app_or in Hmem.
      destruct Hmem as [Hmem|Hmem]; [exfalso|exact Hmem].
      apply In_nth_error in Hmem. destruct Hmem as [i Hi].
      assert (Hil : i < length terms).
      { assert (i < length (firstn (length terms) (free_ports b))) by (apply nth_error_Some; congruence).
        rewrite firstn_length in H. lia. }
      assert (Hi' : nth_error (free_ports b) i = Some q).
      { rewrite <- (firstn_skipn (length terms) (free_ports b)). rewrite nth_error_app1; [exact Hi|].
        apply nth_error_Some. congruence. }
      destruct (Hu _ (Htl i Hil)) as [Ha _].
      assert (Hc : b_C b' (nport q) (tport b i) = true) by (apply (H4 i q Hil Hq), Hi'). congruence.
    + intros Hs j Hj.
      assert (Hmem : In q (free_ports b)) by (rewrite <- (firstn_skipn (length terms) (free_ports b)); apply in_or_app; auto).
      assert (Hfree : unconnected b q) by (apply filter_In in Hmem; now apply free_at_spec).
      destruct (Hdec j Hj) as [(q' & Hq' & ->)|(i & Hi & ->)].
      * rewrite !H3 by assumption. now apply Hfree.
      * assert (Hno : nth_error (free_ports b) i <> Some q).
        { intros E. assert (Hf1 : In q (firstn (length terms) (free_ports b))).
          { apply nth_error_In with (n := i). rewrite <- (firstn_skipn (length terms) (free_ports b)) in E.
            rewrite nth_error_app1 in E; [exact E|]. rewrite firstn_length. lia. }
          rewrite <- (firstn_skipn (length terms) (free_ports b)) in Hnd'.
          exact (NoDup_app_l Hnd' Hs Hf1). }
        destruct (H4 i q Hi Hq) as [Ha Hb]. split; apply not_true_iff_false; intros E.
        -- apply Hno, Hb, E.
        -- apply Hno, Ha, E.
  - intros i Hi Hu. destruct (nth_error (free_ports b) i) as [q|] eqn:E; [|apply nth_error_None in E; lia].
    assert (Hq : q < b_np b) by eauto. destruct (Hu _ (Hnl q Hq)) as [Ha _].
    assert (Hc : b_C b' (tport b i) (nport q) = true) by (apply (H4 i q Hi Hq), E). congruence.
Qed.

Lemma links_once (s s' : nstate X D) (links : list (list parg)) :
  ns_mods s <> [] -> accepted (nstep x0 d0) s (map (@OLink X D) links) s' ->
  flat_map (fun p => fst (link_strings p)) links <> [] ->
  exists b, ns_buf s' = Built b
    /\ build x0 d0 (plain (ns_mods s)) (ns_conns s ++ flat_map (fun p => fst (link_strings p)) links) = Ok b.
Proof.
  assert (E : flat_map (fun p => fst (link_strings p)) links = declared (map (@OLink X D) links)).
  { unfold declared. induction links as [|p l IH]; [reflexivity|]. cbn. now rewrite IH. }
  rewrite E. apply links_at_once.
Qed.
End B2.
