(** [terminate] closes exactly the open ports, in order (C11, C12). *)
From Coq Require Import Permutation.
From Verif Require Import Base PyStr PyStrProofs NetModel NetSpec LinkProofs NetProofs WireProofs OrderProofs TypedNet.
Set Implicit Arguments.
Unset Strict Implicit.
Local Open Scope list_scope.

Section T.
Variables (X D : Type) (x0 : X) (d0 : D).
Notation buf := (buf X D).
Notation comps := (list (string * buf)).

Lemma one_port_free (t : buf) : one_port t -> free_ports t = [0].
Proof.
  intros H. unfold free_ports. rewrite (op_order H). cbn [filter].
  assert (E : free_at t 0 = true).
  { apply free_at_spec. intros j Hj. rewrite (op_np H) in Hj. assert (j = 0) by lia. subst. now rewrite (op_C H). }
  rewrite E. reflexivity.
Qed.

Lemma dict_set_fresh (k : string) (v : buf) (d : comps) : ~ In k (map fst d) ->
  dict_set String.eqb k v d = d ++ [(k, v)].
Proof.
  induction d as [|[k' v'] d IH]; cbn; intros H; [reflexivity|].
  destruct (String.eqb_spec k k') as [->|Hk]; [tauto|]. rewrite IH by tauto. reflexivity.
Qed.

Lemma dict_fold (terms d : comps) : NoDup (map fst d ++ map fst terms) ->
  fold_left (fun d t => dict_set String.eqb (fst t) (snd t) d) terms d = d ++ terms.
Proof.
  revert d. induction terms as [|[k v] terms IH]; intros d Hd; [symmetry; apply app_nil_r|].
  cbn [fold_left fst snd]. rewrite dict_set_fresh.
  - rewrite IH; [rewrite <- app_assoc; reflexivity|]. rewrite map_app, <- app_assoc. exact Hd.
  - cbn in Hd. apply NoDup_remove_2 in Hd. intros Hin. apply Hd, in_or_app. auto.
Qed.

Variables (name : string) (b : buf) (t0 : string) (bt0 : buf) (rest : comps).
Let terms : comps := (t0, bt0) :: rest.
Hypothesis Hname : good_name name.
Hypothesis Hgood : forall t c, In (t, c) terms -> good_name t /\ one_port c.
Hypothesis Hnd : NoDup (name :: map fst terms).
Hypothesis Hord : order_ok b.
Hypothesis Hflags : flags_ok b.

Definition tport (i : nat) : nat := match i with 0 => 0 | S k => S (b_np b + k) end.
Definition nport (q : nat) : nat := S q.
Definition cs : comps := (t0, bt0) :: (name, b) :: rest.

(** connections of [terminate_parts] as typed connections *)
Definition tconns_from (i : nat) (l : comps) : list tconn :=
  map (fun it => TW (fst (snd it)) 0 name (fst it)) (combine (seq i (length l)) l).

Lemma parts_eq : terminate_parts name b (term_dict terms) = ((name, b) :: terms, map tstr (tconns_from 0 terms)).
Proof.
  assert (Hn' : NoDup (map fst terms)) by (inversion Hnd; assumption).
  unfold term_dict. rewrite (@dict_fold terms []) by exact Hn'. cbn [app].
  unfold terminate_parts. rewrite dict_fold by exact Hnd. unfold tconns_from. rewrite map_map. f_equal.
Qed.

Lemma dedup_skip l seen s : In s seen -> dedup (s :: l) seen = dedup l seen.
Proof.
  intros H. cbn. assert (E : existsb (String.eqb s) seen = true).
  { apply existsb_exists. exists s. split; [exact H|apply String.eqb_refl]. }
  now rewrite E.
Qed.
Lemma dedup_take l seen s : ~ In s seen -> dedup (s :: l) seen = s :: dedup l (s :: seen).
Proof.
  intros H. cbn. assert (E : existsb (String.eqb s) seen = false).
  { apply not_true_iff_false. intros E. apply existsb_exists in E. destruct E as (x & Hx & E).
    apply String.eqb_eq in E. now subst. }
  now rewrite E.
Qed.

Lemma names_from i (l : comps) seen : In name seen -> NoDup (map fst l) ->
  (forall t, In t (map fst l) -> ~ In t seen) -> ~ In name (map fst l) ->
  dedup (flat_map tnames (tconns_from i l)) seen = map fst l.
Proof.
  revert i seen. induction l as [|[t c] l IH]; intros i seen Hs Hn Hd Hnn; [reflexivity|].
  cbn [tconns_from length seq combine map flat_map tnames fst snd app].
  cbn in Hn, Hnn. inversion Hn; subst.
  rewrite dedup_take by (apply Hd; left; reflexivity).
  rewrite dedup_skip by (right; exact Hs). f_equal.
  apply (IH (S i)); auto.
  - right. exact Hs.
  - intros t' Ht' [<-|Hin]; [contradiction|]. apply (Hd t'); [right; exact Ht'|exact Hin].
Qed.

Lemma names_all : dedup (flat_map tnames (tconns_from 0 terms)) [] = t0 :: name :: map fst rest.
Proof.
  cbn [terms tconns_from length seq combine map flat_map tnames fst snd app].
  cbn in Hnd. inversion Hnd as [|? ? Hn1 Hn2]; subst. cbn in Hn1, Hn2. inversion Hn2; subst.
  rewrite dedup_take by auto. rewrite dedup_take by (cbn; intros [E|[]]; apply Hn1; left; exact E).
  f_equal. f_equal. apply (@names_from 1 rest [name; t0]); auto.
  - left; reflexivity.
  - intros t Ht [<-|[<-|[]]]; tauto.
Qed.

Lemma assoc_nodup (l : comps) n c : NoDup (map fst l) -> In (n, c) l -> assoc String.eqb n l = Some c.
Proof.
  induction l as [|[m c'] l IH]; intros Hn Hin; [destruct Hin|]. cbn in Hn. inversion Hn; subst. cbn.
  destruct (String.eqb_spec n m) as [->|E].
  - destruct Hin as [[= ->]|Hin]; [reflexivity|]. exfalso. apply H1. change m with (fst (m, c)). now apply in_map.
  - destruct Hin as [[= -> ->]|Hin]; [congruence|auto].
Qed.

Lemma mods_nodup : NoDup (map fst ((name, b) :: terms)).
Proof. exact Hnd. Qed.

Lemma select_all : select_comps ((name, b) :: terms) (t0 :: name :: map fst rest) = Ok cs.
Proof.
  apply mapM_Ok. unfold cs.
  assert (Hk : forall n c, In (n, c) ((name, b) :: terms) ->
     (do b1 <- of_option KeyError (assoc String.eqb n ((name, b) :: terms)); Ok (n, b1)) = Ok (n, c)).
  { intros n c Hin. rewrite (assoc_nodup mods_nodup Hin). reflexivity. }
  constructor; [apply Hk; right; left; reflexivity|].
  constructor; [apply Hk; left; reflexivity|].
  assert (Hr : forall l, incl l rest -> Forall2 (fun n c =>
     (do b1 <- of_option KeyError (assoc String.eqb n ((name, b) :: terms)); Ok (n, b1)) = Ok c) (map fst l) l).
  { induction l as [|[n c] l IH]; intros Hi; [constructor|]. cbn. constructor.
    - apply Hk. right. right. apply Hi. left. reflexivity.
    - apply IH. intros x Hx. apply Hi. right. exact Hx. }
  apply Hr. intros x Hx; exact Hx.
Qed.

Lemma cs_nodup : NoDup (map fst cs).
Proof.
  assert (P : Permutation (map fst ((name, b) :: terms)) (map fst cs)) by (cbn; constructor).
  apply (Permutation_NoDup P), mods_nodup.
Qed.

Lemma rest_np n c : In (n, c) rest -> b_np c = 1.
Proof. intros H. apply op_np. apply (@Hgood n _). right. exact H. Qed.

Lemma before_ones (l : comps) : (forall n c, In (n, c) l -> b_np c = 1) -> ports_before l = length l.
Proof.
  induction l as [|[n c] l IH]; intros H; [reflexivity|]. rewrite ports_before_cons, IH.
  - rewrite (H n c (or_introl eq_refl)). reflexivity.
  - intros m c' Hin. apply (H m). right. exact Hin.
Qed.

Lemma bt0_np : b_np bt0 = 1.
Proof. apply op_np. apply (@Hgood t0 _). left. reflexivity. Qed.

Lemma cs_term i t c : nth_error terms i = Some (t, c) ->
  exists pre post, cs = pre ++ (t, c) :: post /\ ports_before pre = tport i.
Proof.
  destruct i as [|i]; cbn [terms nth_error].
  - intros [= <- <-]. exists [], ((name, b) :: rest). auto.
  - intros H. apply nth_error_split in H. destruct H as (l1 & l2 & Hr & Hl).
    exists ((t0, bt0) :: (name, b) :: l1), l2. split; [unfold cs; rewrite Hr; reflexivity|].
    rewrite !ports_before_cons, bt0_np. rewrite before_ones; [cbn [tport]; lia|].
    intros n c' Hin. apply (@rest_np n). rewrite Hr. apply in_or_app. auto.
Qed.

Lemma gport_term i t c : nth_error terms i = Some (t, c) -> gport cs t 0 (tport i).
Proof.
  intros H. destruct (cs_term H) as (pre & post & Hcs & Hp).
  pose proof (nodup_pre cs_nodup Hcs) as Hni. destruct (lookup_comp c post Hni) as [H1 H2].
  exists c, (tport i), 0. rewrite Hcs, H1, H2, Hp. repeat split; [|lia].
  rewrite one_port_free; [reflexivity|]. apply (@Hgood t _). eapply nth_error_In; exact H.
Qed.

Lemma gport_net k q : nth_error (free_ports b) k = Some q -> gport cs name k (nport q).
Proof.
  intros H. exists b, 1, q.
  assert (Hni : ~ In name (map fst [(t0, bt0)])).
  { cbn. intros [E|[]]. cbn in Hnd. inversion Hnd as [|? ? Hx _]. apply Hx. left. exact E. }
  destruct (lookup_comp b rest Hni) as [H1 H2]. change ([(t0, bt0)] ++ (name, b) :: rest) with cs in *.
  rewrite H1, H2, ports_before_cons, bt0_np. repeat split; auto.
Qed.

Definition wires_from (i : nat) (l : comps) : list (nat * nat) :=
  map (fun k => (tport k, nport (nth k (free_ports b) 0))) (seq i (length l)).

Lemma term_ne t c : In (t, c) terms -> t <> name.
Proof.
  intros H E. subst t. apply NoDup_cons_iff in Hnd. apply (proj1 Hnd). apply (in_map fst) in H. exact H.
Qed.

Lemma tmeans_from pre l : terms = pre ++ l -> length terms <= length (free_ports b) ->
  tmeans cs (tconns_from (length pre) l) (wires_from (length pre) l) [].
Proof.
  revert pre. induction l as [|[t c] l IH]; intros pre He Hl; [constructor|].
  cbn [tconns_from wires_from length seq combine map fst snd].
  assert (Hnth : nth_error terms (length pre) = Some (t, c))
    by (rewrite He, nth_error_app2, Nat.sub_diag by lia; reflexivity).
  assert (Hin : In (t, c) terms) by (eapply nth_error_In; exact Hnth).
  assert (Hlt : length pre < length (free_ports b)).
  { assert (length pre < length terms) by (apply nth_error_Some; congruence). lia. }
  constructor; auto.
  - apply (@Hgood t c Hin).
  - eapply gport_term; exact Hnth.
  - apply gport_net. now apply nth_error_nth'.
  - intros [E _]. apply (term_ne Hin E).
  - specialize (IH (pre ++ [(t, c)])). rewrite <- app_assoc, app_length in IH. cbn [length app] in IH.
    rewrite Nat.add_1_r in IH. apply (IH He Hl).
Qed.

Lemma cs_orders : orders_ok cs.
Proof.
  assert (H1 : forall n c, In (n, c) terms -> order_ok c).
  { intros n c Hin. destruct (@Hgood n c Hin) as [_ Ho]. unfold order_ok. rewrite (op_order Ho), (op_np Ho). constructor; constructor. }
  intros n c [E|[E|Hin]].
  - apply (H1 n). left. exact E.
  - injection E as _ <-. exact Hord.
  - apply (H1 n). right. exact Hin.
Qed.

Lemma cs_flags n c : In (n, c) cs -> flags_ok c.
Proof.
  intros [E|[E|Hin]].
  - apply op_flags. apply (@Hgood n _). left. exact E.
  - injection E as _ <-. exact Hflags.
  - apply op_flags. apply (@Hgood n _). right. exact Hin.
Qed.

Lemma cs_total : total_ports cs = b_np b + length terms.
Proof.
  change (total_ports cs) with (ports_before cs). unfold cs. rewrite !ports_before_cons, bt0_np, before_ones; [cbn [terms length]; lia|].
  intros n c Hin. now apply (@rest_np n).
Qed.

Lemma free_ports_length : length (free_ports b) = num_free b.
Proof.
  unfold free_ports, num_free. apply Permutation_length. apply Permutation_filter || idtac.
  assert (Hg : forall l l', Permutation l l' -> Permutation (filter (free_at b) l) (filter (free_at b) l')).
  { clear. induction 1; cbn.
    - constructor.
    - destruct (free_at b x); [now constructor|assumption].
    - destruct (free_at b x), (free_at b y); try constructor; apply Permutation_refl.
    - eapply Permutation_trans; eassumption. }
  now apply Hg.
Qed.

Lemma empty_numbered n : numbered [] n.
Proof. constructor; cbn; [constructor|constructor|intros ? ? []]. Qed.

(** More terms than free ports. *)
Lemma parse_beyond i t c : nth_error terms i = Some (t, c) -> length (free_ports b) <= i ->
  parse_connection cs (tstr (TW t 0 name i)) = Err ValueError.
Proof.
  intros Hn Hi. pose proof (gport_term Hn) as (c1 & st1 & q1 & A1 & S1 & N1 & _).
  assert (Hin : In (t, c) terms) by (eapply nth_error_In; exact Hn).
  unfold parse_connection. rewrite split_tstr by (apply tgood_TW; [apply (@Hgood t c Hin)|assumption]). cbn [tparts].
  rewrite !py_int_dec_nat. cbn [of_option bind].
  destruct (String.eqb_spec t name) as [E|_]; [exfalso; eapply term_ne; eassumption|]. cbn [andb].
  unfold free_of at 1. rewrite A1. cbn [option_map of_option bind].
  destruct (Z.leb_spec (Z.of_nat (length (free_ports c1))) (Z.of_nat 0)) as [Hl|Hl]; [reflexivity|].
  assert (Hb : assoc String.eqb name cs = Some b).
  { apply (assoc_nodup cs_nodup). right. left. reflexivity. }
  unfold free_of. rewrite Hb. cbn [option_map of_option bind].
  assert (E : (Z.of_nat (length (free_ports b)) <=? Z.of_nat i)%Z = true) by (apply Z.leb_le; lia).
  rewrite E. reflexivity.
Qed.

Lemma parse_within i t c : nth_error terms i = Some (t, c) -> i < length (free_ports b) ->
  exists p, parse_connection cs (tstr (TW t 0 name i)) = Ok (Some p).
Proof.
  intros Hn Hi. assert (Hin : In (t, c) terms) by (eapply nth_error_In; exact Hn).
  eexists. apply parse_TW.
  - apply (@Hgood t c Hin).
  - exact Hname.
  - eapply gport_term; exact Hn.
  - apply gport_net. apply (nth_error_nth' _ 0 Hi).
  - intros [E _]. eapply term_ne; eassumption.
Qed.

Lemma fold_beyond pre l C0 : terms = pre ++ l -> length (free_ports b) < length terms ->
  length pre <= length (free_ports b) ->
  foldM (fun C conn => do o <- parse_connection cs conn;
           match o with None => Ok C | Some (i, j) => Ok (connect C i j) end)
        C0 (map tstr (tconns_from (length pre) l)) = Err ValueError.
Proof.
  revert pre C0. induction l as [|[t c] l IH]; intros pre C0 He Hlt Hp.
  - rewrite app_nil_r in He. rewrite He in Hlt. lia.
  - cbn [tconns_from length seq combine map fst snd foldM].
    assert (Hnth : nth_error terms (length pre) = Some (t, c))
      by (rewrite He, nth_error_app2, Nat.sub_diag by lia; reflexivity).
    destruct (Nat.lt_ge_cases (length pre) (length (free_ports b))) as [Hi|Hi].
    + destruct (parse_within Hnth Hi) as [[i j] Hpc]. rewrite Hpc. cbn [bind].
      specialize (IH (pre ++ [(t, c)])). rewrite <- app_assoc, app_length in IH. cbn [length app] in IH.
      rewrite Nat.add_1_r in IH. apply IH; [exact He|exact Hlt|lia].
    + rewrite (parse_beyond Hnth Hi). reflexivity.
Qed.

Lemma tconns_good : Forall tgood (tconns_from 0 terms).
Proof.
  apply Forall_forall. intros t Ht. unfold tconns_from in Ht. apply in_map_iff in Ht.
  destruct Ht as ([i [n c]] & <- & Hin). apply in_combine_r in Hin. apply tgood_TW; [|exact Hname].
  apply (@Hgood n c Hin).
Qed.

Theorem terminate_too_many : num_free b <> 0 -> num_free b < length terms ->
  terminate_net x0 d0 name b terms = Err ValueError.
Proof.
  intros Hnz Hlt. rewrite <- free_ports_length in Hlt.
  unfold terminate_net. apply Nat.eqb_neq in Hnz. rewrite Hnz, parts_eq.
  rewrite build_eq by discriminate.
  rewrite (clean_tstrs tconns_good), (used_names_tstr tconns_good), names_all, select_all. cbn [bind].
  unfold net_buf.
  assert (He : ext_list cs (map tstr (tconns_from 0 terms)) []).
  { assert (Hw : forall t, In t (tconns_from 0 terms) -> exists n k, t = TW n 0 name k).
    { intros t Ht. unfold tconns_from in Ht. apply in_map_iff in Ht. destruct Ht as (x & <- & _). eauto. }
    pose proof tconns_good as Hg. revert Hw Hg. generalize (tconns_from 0 terms).
    induction l as [|t l IH]; intros Hw Hg; [constructor|]. cbn [map]. inversion Hg; subst.
    apply el_wire; [|apply IH; [intros t' Ht'; apply Hw; right; exact Ht'|assumption]].
    rewrite split_tstr by assumption. destruct (Hw t (or_introl eq_refl)) as (n & k & ->). reflexivity. }
  rewrite (net_order_ok cs_nodup cs_orders He (empty_numbered _)). cbn [bind].
  unfold net_C. rewrite (@fold_beyond [] terms _ eq_refl Hlt (Nat.le_0_l _)). reflexivity.
Qed.

Hypothesis Hlen : length terms <= num_free b.

Lemma terminate_build : exists b',
  terminate_net x0 d0 name b terms = Ok b'
  /\ net_buf x0 d0 cs (map tstr (tconns_from 0 terms)) = Ok b'
  /\ wire_list cs (map tstr (tconns_from 0 terms)) (wires_from 0 terms).
Proof.
  assert (Hl' : length terms <= length (free_ports b)) by (rewrite free_ports_length; exact Hlen).
  pose proof (@tmeans_from [] terms eq_refl Hl') as Htm. cbn [length] in Htm.
  assert (Hsel : select_comps ((name, b) :: terms) (dedup (flat_map tnames (tconns_from 0 terms)) []) = Ok cs)
    by (rewrite names_all; apply select_all).
  destruct (tbuild x0 d0 (ts := tconns_from 0 terms) (mods := (name, b) :: terms) ltac:(discriminate) ltac:(discriminate) Hsel Htm cs_orders cs_flags) as (b' & Hb & Hn & _ & Hw & _).
  - rewrite cs_total. cbn [terms length]. lia.
  - apply empty_numbered.
  - exists b'. split; [|auto]. unfold terminate_net.
    assert (E : num_free b =? 0 = false) by (apply Nat.eqb_neq; cbn [terms length] in Hlen; lia).
    rewrite E, parts_eq. exact Hb.
Qed.

Lemma free_nodup : NoDup (free_ports b).
Proof. apply NoDup_filter, order_ok_NoDup, Hord. Qed.

Lemma free_lt q : In q (free_ports b) -> q < b_np b.
Proof. intros H. apply filter_In in H. apply order_ok_lt; tauto. Qed.

Lemma tport_inj i j : tport i = tport j -> i = j.
Proof. destruct i, j; cbn; lia. Qed.

Lemma wire_In i j : In (i, j) (wires_from 0 terms) <->
  exists k q, k < length terms /\ nth_error (free_ports b) k = Some q /\ i = tport k /\ j = nport q.
Proof.
  pose proof free_ports_length as Hfl.
  unfold wires_from. rewrite in_map_iff. split.
  - intros (k & [= <- <-] & Hk). apply in_seq in Hk. exists k, (nth k (free_ports b) 0).
    repeat split; [lia|]. apply nth_error_nth'. lia.
  - intros (k & q & Hk & Hq & -> & ->). exists k. split; [|apply in_seq; lia].
    erewrite nth_error_nth by exact Hq. reflexivity.
Qed.

Lemma wires_nodup : NoDup (endpoints (wires_from 0 terms)).
Proof.
  pose proof free_ports_length as Hfl.
  assert (Hmem : forall i l x, (forall k, i <= k -> k < i + length l -> k < length (free_ports b)) ->
    In x (endpoints (wires_from i l)) -> exists k, i <= k < i + length l /\ (x = tport k \/ x = nport (nth k (free_ports b) 0))).
  { clear. intros i l x Hk Hx. unfold endpoints, wires_from in Hx. apply in_flat_map in Hx.
    destruct Hx as ([a c] & Hin & Hx). apply in_map_iff in Hin. destruct Hin as (k & [= <- <-] & Hk').
    apply in_seq in Hk'. exists k. split; [lia|]. cbn in Hx. destruct Hx as [<-|[<-|[]]]; auto. }
  assert (Hg : forall (l : comps) i, (forall k, i <= k -> k < i + length l -> k < length (free_ports b)) ->
               NoDup (endpoints (wires_from i l))).
  { induction l as [|a l IH]; intros i Hk; [constructor|].
    cbn [wires_from length seq map endpoints flat_map fst snd app].
    fold (wires_from (S i) l). fold (endpoints (wires_from (S i) l)).
    assert (Hk' : forall k, S i <= k -> k < S i + length l -> k < length (free_ports b)) by (intros; apply Hk; cbn; lia).
    assert (Hi : i < length (free_ports b)) by (apply Hk; cbn; lia).
    assert (Hq : forall k, k < length (free_ports b) -> nth k (free_ports b) 0 < b_np b)
      by (intros k Hkk; apply free_lt, nth_In, Hkk).
    constructor; [|constructor].
    - intros [E|Hin].
      + specialize (Hq i Hi). unfold nport in E. destruct i; cbn in E; lia.
      + apply Hmem in Hin; [|exact Hk']. destruct Hin as (k & Hkk & [E|E]).
        * apply tport_inj in E. lia.
        * specialize (Hq k (Hk' k ltac:(lia) ltac:(lia))). unfold nport in E. destruct i; cbn in E; lia.
    - intros Hin. apply Hmem in Hin; [|exact Hk']. destruct Hin as (k & Hkk & [E|E]).
      + specialize (Hq i Hi). unfold nport in E. destruct k; cbn in E; lia.
      + unfold nport in E. injection E as E.
        apply (proj1 (NoDup_nth (free_ports b) 0) free_nodup) in E; [lia|lia|apply Hk'; lia].
    - apply IH. exact Hk'. }
  apply Hg. intros k _ Hk. lia.
Qed.

Lemma located_net q : q < b_np b -> located cs (nport q) name b q.
Proof.
  intros H. exists [(t0, bt0)], rest. repeat split; auto. rewrite ports_before_cons, bt0_np. reflexivity.
Qed.

Lemma located_term i t c : nth_error terms i = Some (t, c) -> located cs (tport i) t c 0.
Proof.
  intros H. destruct (cs_term H) as (pre & post & Hcs & Hp). exists pre, post.
  split; [exact Hcs|]. split; [lia|]. rewrite (@op_np _ _ c); [lia|]. apply (@Hgood t _). eapply nth_error_In; exact H.
Qed.

(** Everything terminate guarantees. *)
Theorem terminate_spec : exists b',
  terminate_net x0 d0 name b terms = Ok b'
  /\ b_np b' = b_np b + length terms
  /\ (forall q q', q < b_np b -> q' < b_np b -> b_C b' (nport q) (nport q') = b_C b q q')
  /\ (forall i q, i < length terms -> q < b_np b ->
        (b_C b' (tport i) (nport q) = true <-> nth_error (free_ports b) i = Some q)
        /\ (b_C b' (nport q) (tport i) = true <-> nth_error (free_ports b) i = Some q))
  /\ (forall i j, i < length terms -> j < length terms -> b_C b' (tport i) (tport j) = false)
  /\ num_free b' + length terms = num_free b
  /\ num_src b' = num_src b + list_sum (map (fun t => num_src (snd t)) terms)
  /\ num_det b' = num_det b + list_sum (map (fun t => num_det (snd t)) terms)
  /\ order_ok b'.
Proof.
  destruct terminate_build as (b' & Hb & Hn & Hw). exists b'. split; [exact Hb|].
  pose proof (C_wires cs_nodup Hn Hw) as HC.
  destruct (net_buf_inv Hn) as (_ & _ & Hnp & Hsrc & Hdet & _).
  assert (Hins : forall pre n c post i j, cs = pre ++ (n, c) :: post -> i < b_np c ->
     inner cs (ports_before pre + i) j <-> exists j', j' < b_np c /\ j = ports_before pre + j' /\ b_C c i j' = true).
  { intros pre n c post i j Hcs Hi. apply (inner_located j Hcs eq_refl Hi). }
  assert (Hnet : forall q j, q < b_np b -> inner cs (nport q) j <-> exists j', j' < b_np b /\ j = nport j' /\ b_C b q j' = true).
  { intros q j Hq.
    assert (Hp : ports_before [(t0, bt0)] = 1) by (rewrite ports_before_cons, bt0_np; reflexivity).
    pose proof (Hins [(t0, bt0)] name b rest q j eq_refl Hq) as H. rewrite Hp in H. exact H. }
  assert (Hterm : forall i j, i < length terms -> ~ inner cs (tport i) j).
  { intros i j Hi Hin. destruct (nth_error terms i) as [[t c]|] eqn:E; [|apply nth_error_None in E; lia].
    destruct (cs_term E) as (pre & post & Hcs & Hp).
    assert (Hop : one_port c) by (apply (@Hgood t _); eapply nth_error_In; exact E).
    apply (@inner_located _ _ cs (tport i) j pre t c post 0) in Hin; [|assumption|lia|rewrite (op_np Hop); lia].
    destruct Hin as (j' & Hj' & _ & HCc). rewrite (op_np Hop) in Hj'. assert (j' = 0) by lia. subst.
    rewrite (op_C Hop) in HCc. discriminate. }
  assert (Hsep : forall i q, q < b_np b -> tport i <> nport q) by (intros [|i] q Hq; cbn; unfold nport; lia).
  split; [rewrite Hnp; apply cs_total|]. split; [|split; [|split; [|split; [|split; [|split]]]]].
  - intros q q' Hq Hq'. apply eq_true_iff_eq. rewrite HC, (Hnet q) by assumption. split.
    + intros [(j' & Hj' & E & Hc)|[H|H]].
      * unfold nport in E. injection E as ->. exact Hc.
      * apply wire_In in H. destruct H as (k & q2 & _ & _ & E & _). exfalso. eapply Hsep; [|symmetry; exact E]. exact Hq.
      * apply wire_In in H. destruct H as (k & q2 & _ & _ & E & _). exfalso. eapply Hsep; [|symmetry; exact E]. exact Hq'.
    + intros H. left. exists q'. auto.
  - intros i q Hi Hq. rewrite !HC.
    assert (Hkey : In (tport i, nport q) (wires_from 0 terms) <-> nth_error (free_ports b) i = Some q).
    { rewrite wire_In. split.
      - intros (k & q2 & _ & Hk & E1 & E2). apply tport_inj in E1. unfold nport in E2. injection E2 as ->. now subst.
      - intros H. exists i, q. auto. }
    assert (Hno : ~ In (nport q, tport i) (wires_from 0 terms)).
    { rewrite wire_In. intros (k & q2 & _ & _ & E & _). eapply Hsep; [|symmetry; exact E]. exact Hq. }
    split.
    + split; [intros [H|[H|H]]; [now apply Hterm in H|now apply Hkey|contradiction]|]. rewrite <- Hkey. auto.
    + split; [|rewrite <- Hkey; auto]. intros [H|[H|H]]; [|contradiction|now apply Hkey].
      apply (Hnet q _ Hq) in H. destruct H as (j' & Hj' & E & _). exfalso. eapply Hsep; [|exact E]. exact Hj'.
  - intros i j Hi Hj. apply not_true_iff_false. rewrite HC. intros [H|[H|H]].
    + now apply Hterm in H.
    + apply wire_In in H. destruct H as (k & q & _ & Hk & _ & E). apply Hsep in E; [exact E|]. apply free_lt. eapply nth_error_In; exact Hk.
    + apply wire_In in H. destruct H as (k & q & _ & Hk & _ & E). apply Hsep in E; [exact E|]. apply free_lt. eapply nth_error_In; exact Hk.
  - pose proof (net_num_free cs_nodup cs_orders Hn Hw wires_nodup) as Hf.
    assert (Hlw : length (wires_from 0 terms) = length terms) by (unfold wires_from; now rewrite map_length, seq_length).
    rewrite Hlw in Hf. unfold cs in Hf. cbn [map snd list_sum fold_right] in Hf.
    assert (Hone : forall t c, In (t, c) terms -> num_free c = 1).
    { intros t c Hin. destruct (@Hgood t c Hin) as [_ Hop]. unfold num_free. rewrite (op_np Hop). cbn [seq filter].
      assert (E : free_at c 0 = true).
      { apply free_at_spec. intros j Hj. rewrite (op_np Hop) in Hj. assert (j = 0) by lia. subst. now rewrite (op_C Hop). }
      rewrite E. reflexivity. }
    assert (Hr : list_sum (map (fun c => num_free (snd c)) rest) = length rest).
    { assert (Hi : incl rest terms) by (intros x Hx; right; exact Hx). revert Hi. generalize rest.
      induction rest0 as [|[n c] l IH]; intros Hi; [reflexivity|]. cbn [map snd list_sum fold_right length].
      rewrite (Hone n c (Hi _ (or_introl eq_refl))). fold (list_sum (map (fun c0 => num_free (snd c0)) l)).
      rewrite IH; [reflexivity|]. intros x Hx. apply Hi. right. exact Hx. }
    fold (list_sum (map (fun c => num_free (snd c)) rest)) in Hf. rewrite Hr in Hf.
    rewrite (Hone t0 bt0 (or_introl eq_refl)) in Hf. cbn [terms length]. cbn [terms length] in Hf. lia.
  - unfold num_src at 1. rewrite Hnp, Hsrc, count_blocks. unfold cs. cbn [map snd list_sum fold_right terms].
    fold (num_src bt0). fold (num_src b). unfold num_src. lia.
  - unfold num_det at 1. rewrite Hnp, Hdet, count_blocks. unfold cs. cbn [map snd list_sum fold_right terms].
    fold (num_det bt0). fold (num_det b). unfold num_det. lia.
  - eapply net_order_perm; [apply cs_nodup|apply cs_orders|exact Hn| |apply empty_numbered].
    apply (tmeans_ext_list (ws := wires_from 0 terms) cs_nodup).
    apply (@tmeans_from [] terms eq_refl). rewrite free_ports_length. exact Hlen.
Qed.

End T.


Lemma terminate_none (X D : Type) (x0 : X) (d0 : D) name (b : buf X D) terms :
  num_free b = 0 -> terminate_net x0 d0 name b terms = Err IndexError.
Proof. intros H. unfold terminate_net. rewrite H. reflexivity. Qed.
