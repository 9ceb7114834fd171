(** Properties C93-C95: attributes of modules. *)
From Verif Require Import Base AttrModel AttrProofs.
Set Implicit Arguments.
Unset Strict Implicit.
Local Open Scope string_scope.
Local Open Scope list_scope.

Section Props.
Variable U : Type.
Variable sig : U -> U.
Variable cls : string -> option (val U).
Notation read := (read sig cls).
Notation set := (set sig cls).
Notation delete := (@delete U).
Notation run := (run sig cls).
Notation step := (step sig cls).
Notation start := (run (empty U)).

(** ** Spec *)
(** What should be seen after an assignment: the value itself; for a BoundedParameter with weight
    [w] the bounded value. *)
Definition seen (v : val U) : val U := match v with VBound w => VTensor (sig w) | v => v end.
(** [n] has been assigned a BoundedParameter. *)
Definition bounded_in (n : string) (os : list (op U)) : Prop := exists w, In (ASet n (VBound w)) os.

(** * C93 *)
(** After any program, an assignment to an attribute that has not been bounded before is either
    refused by an exception or can be read back; so can every BoundedParameter. *)
Theorem C93_readback os n v m' : cls n = None -> ~ bounded_in n os -> set (start os) n v = (m', None) ->
  read m' n = Ok (seen v).
Proof.
  intros Hc Hn E. destruct (is_bound v) eqn:Eb.
  - destruct v; try discriminate. exact (bound_read E).
  - replace (seen v) with v by (destruct v; try reflexivity; discriminate).
    apply (free_read (m := start os)); auto.
    + apply sound_run. apply sound_empty.
    + apply run_no_prop; [reflexivity|]. intros w Hin. apply Hn. now exists w.
Qed.
Theorem C93_bounded m n w m' : set m n (VBound w) = (m', None) -> read m' n = Ok (VTensor (sig w)).
Proof. exact (@bound_read U sig cls m n w m'). Qed.

(** Once an attribute is bounded only a BoundedParameter can be assigned to it: the others are
    refused and change nothing that can be read. *)
Definition only_bounded (n : string) (os : list (op U)) : Prop :=
  (forall v, In (ASet n v) os -> exists w, v = VBound w)
  /\ (forall v, ~ In (ASet (under n) v) os) /\ ~ In (ADel (under n)) os
  /\ (forall w k, In (ASet k (VBound w)) os -> under k <> n).

Lemma only_tables n os : only_bounded n os -> let m := start os in
  get n (m_par m) = None /\ get n (m_buf m) = None /\ get n (m_mod m) = None /\ get n (m_dict m) = None
  /\ (is_prop m n = true -> exists w, get (under n) (m_par m) = Some (VBound w)).
Proof.
  intros H. cbv zeta. unfold AttrModel.run.
  assert (G : forall os m, only_bounded n os ->
    get n (m_par m) = None /\ get n (m_buf m) = None /\ get n (m_mod m) = None /\ get n (m_dict m) = None
      /\ (is_prop m n = true -> exists w, get (under n) (m_par m) = Some (VBound w)) ->
    let m' := fold_left (fun x o => fst (step x o)) os m in
    get n (m_par m') = None /\ get n (m_buf m') = None /\ get n (m_mod m') = None /\ get n (m_dict m') = None
      /\ (is_prop m' n = true -> exists w, get (under n) (m_par m') = Some (VBound w))).
  2: { apply G; [exact H|]. repeat split. discriminate. }
  clear H os. induction os as [|o os IH]; intros m (H1 & H2 & H3 & H4) Hm; [exact Hm|]. cbn [fold_left]. apply IH.
  { repeat split; intros; [apply H1; now right|intros ?; eapply H2; right; eassumption|intros ?; apply H3; now right
      |eapply H4; right; eassumption]. }
  clear IH. destruct Hm as (Hp & Hb & Ho & Hd & Hw). destruct o as [k v|k]; cbn [AttrModel.step].
  - destruct (set m k v) as [m' e] eqn:E. cbn [fst].
    assert (Ht : same_at m m' n).
    { apply (set_frame E). destruct (is_bound v) eqn:Eb.
      - destruct v; try discriminate. intros ->. exact (H4 w k (or_introl eq_refl) eq_refl).
      - intros ->. destruct (H1 v (or_introl eq_refl)) as [w ->]. discriminate. }
    destruct Ht as (T1 & T2 & T3 & T4). rewrite T1, T2, T3, T4. repeat split; auto.
    intros Hpr. destruct (String.eqb_spec k n) as [->|Hk].
    + destruct (H1 v (or_introl eq_refl)) as [w ->]. cbn in E.
      destruct (register_parameter sig cls m (under n) (VBound w)) as [m1 [y|]] eqn:E1; injection E as <- <-.
      * unfold is_prop in Hpr. rewrite (register_parameter_prop E1) in Hpr. destruct (Hw Hpr) as [w' Hw'].
        unfold AttrModel.register_parameter in E1. destruct (hasattr sig cls m (under n)); [|injection E1 as <- _; eauto].
        destruct (_ && _); [injection E1 as <- _; eauto|discriminate].
      * exists w. exact (register_parameter_stored E1).
    + assert (Tu : same_at m m' (under n)).
      { apply (set_frame E). destruct (is_bound v) eqn:Eb.
        - intros X. apply under_inj in X. congruence.
        - intros <-. exact (H2 v (or_introl eq_refl)). }
      destruct Tu as (-> & _). apply Hw. destruct (set_prop E) as [X|(_ & X & _)]; unfold is_prop in *; rewrite X in Hpr; auto.
      cbn in Hpr. apply orb_true_iff in Hpr. destruct Hpr as [X'|]; [|assumption]. apply String.eqb_eq in X'. congruence.
  - destruct (delete m k) as [m' e] eqn:E. cbn [fst].
    assert (Hu : same_at m m' (under n)).
    { apply (delete_frame E). intros <-. apply H3. now left. }
    assert (Hpr : is_prop m' n = is_prop m n) by (unfold is_prop; now rewrite (delete_prop E)).
    rewrite Hpr. destruct Hu as (-> & _). destruct (String.eqb_spec n k) as [->|Hk].
    + revert E. unfold AttrModel.delete, has. rewrite Hp, Hb, Ho, Hd.
      destruct (is_prop m k); intros [= <- _]; auto.
    + destruct (delete_frame E Hk) as (-> & -> & -> & ->). auto.
Qed.

Theorem C93_kind_fixed os n v : only_bounded n os -> let m := start os in
  is_prop m n = true -> (forall w, v <> VBound w) -> (forall x, v <> VModule x) ->
  exists m' e, set m n v = (m', Some e) /\ (e = KeyError \/ e = AttributeError) /\ read m' n = read m n.
Proof.
  intros Ho. cbv zeta. destruct (only_tables Ho) as (Hp & Hb & Hm & Hd & Hw). revert Hp Hb Hm Hd Hw.
  generalize (start os). intros m Hp Hb Hm Hd Hw Hpr Hnb Hnm. destruct (Hw Hpr) as [w Ew].
  assert (Er : forall b o d, read {| m_par := m_par m; m_buf := b; m_mod := o; m_dict := d; m_prop := m_prop m |} n = Ok (VTensor (sig w))).
  { intros b o d. unfold AttrModel.read. change (is_prop _ n) with (is_prop m n). rewrite Hpr. cbn [m_par]. now rewrite Ew. }
  assert (E0 : read m n = Ok (VTensor (sig w))) by (destruct m; apply Er).
  assert (Hh : hasattr sig cls m n = Ok true) by (eapply hasattr_true; eassumption).
  destruct v as [|x|x|x|x|x|x]; try (exfalso; eapply Hnb; reflexivity); try (exfalso; eapply Hnm; reflexivity);
    cbn [AttrModel.set]; unfold AttrModel.register_buffer, AttrModel.torch_set, AttrModel.register_parameter, has.
  1-3: rewrite Hp, Hm, Hb, Hpr; exists m, AttributeError; auto.
  - rewrite Hh, Hb. cbn [negb andb]. exists m, KeyError. auto.
  - assert (Hh' : hasattr sig cls {| m_par := m_par m; m_buf := drop n (m_buf m); m_mod := drop n (m_mod m); m_dict := drop n (m_dict m);
       m_prop := m_prop m |} n = Ok true) by (eapply hasattr_true; apply Er).
    rewrite Hh'. cbn [m_par m_buf m_mod m_dict m_prop]. rewrite Hp. cbn [negb andb]. do 2 eexists. split; [reflexivity|]. split; [auto|].
    rewrite E0. apply Er.
Qed.

Ltac crunch Hc Hu Nun Nnu :=
  unfold AttrModel.set, AttrModel.torch_set, AttrModel.register_buffer, AttrModel.register_parameter, AttrModel.hasattr,
    AttrModel.read, table_read, with_par, with_buf, with_mod, with_dict, with_prop, is_prop, has, get, put, drop; cbn;
  repeat (first [rewrite String.eqb_refl|rewrite Nun|rewrite Nnu|rewrite Hc|rewrite Hu]; cbn); reflexivity.

(** Reading back is false in general: a coupler's coupling that was fixed (a Buffer) and then made
    trainable cannot be fixed again; the assignment is accepted and has no effect. *)
Theorem C93_refuted (x y w : U) (n : string) : cls n = None -> cls (under n) = None ->
  exists os m', os = [ASet n (VBuffer x); ASet n (VBound w)]
  /\ set (start os) n (VBuffer y) = (m', None) /\ read m' n = Ok (VTensor (sig w)) /\ read m' n <> Ok (seen (VBuffer y)).
Proof.
  intros Hc Hu. exists [ASet n (VBuffer x); ASet n (VBound w)].
  assert (Nun : String.eqb (under n) n = false) by (apply String.eqb_neq; apply under_neq).
  assert (Nnu : String.eqb n (under n) = false) by (apply String.eqb_neq; intros E; symmetry in E; exact (under_neq E)).
  assert (Es : start [ASet n (VBuffer x); ASet n (VBound w)] =
    {| m_par := [(under n, VBound w)]; m_buf := [(n, VBuffer x)]; m_mod := []; m_dict := []; m_prop := [n] |}).
  { assert (E1 : set (empty U) n (VBuffer x) = ({| m_par := []; m_buf := [(n, VBuffer x)]; m_mod := []; m_dict := []; m_prop := [] |}, None))
      by crunch Hc Hu Nun Nnu.
    assert (E2 : set {| m_par := []; m_buf := [(n, VBuffer x)]; m_mod := []; m_dict := []; m_prop := [] |} n (VBound w) =
      ({| m_par := [(under n, VBound w)]; m_buf := [(n, VBuffer x)]; m_mod := []; m_dict := []; m_prop := [n] |}, None))
      by crunch Hc Hu Nun Nnu.
    unfold AttrModel.run. cbn [fold_left AttrModel.step]. rewrite E1. cbn [fst]. now rewrite E2. }
  rewrite Es.
  exists {| m_par := [(under n, VBound w)]; m_buf := [(n, VBuffer y)]; m_mod := []; m_dict := []; m_prop := [n] |}.
  assert (Er : read {| m_par := [(under n, VBound w)]; m_buf := [(n, VBuffer y)]; m_mod := []; m_dict := []; m_prop := [n] |} n
    = Ok (VTensor (sig w))) by crunch Hc Hu Nun Nnu.
  split; [reflexivity|]. split; [crunch Hc Hu Nun Nnu|]. split; [exact Er|]. rewrite Er. cbn. congruence.
Qed.

(** * C94 *)
(** Assigning or deleting one attribute does not change what is read for the others, except that a
    bounded attribute [k] and the attribute [_k] are one. *)
Theorem C94_others m n v m' e k : set m n v = (m', e) -> k <> n -> (is_prop m k = true -> under k <> n) ->
  ((exists w, v = VBound w) -> k <> under n) -> read m' k = read m k.
Proof.
  intros E Hk Hu Hb.
  assert (Hp : is_prop m' k = is_prop m k).
  { destruct (set_prop E) as [H|(_ & H & _)]; unfold is_prop; rewrite H; [reflexivity|]. cbn.
    destruct (String.eqb_spec k n); [congruence|reflexivity]. }
  assert (Ht : same_at m m' k).
  { apply (set_frame E). destruct (is_bound v) eqn:Eb; [|exact Hk]. destruct v; try discriminate. apply Hb. eauto. }
  destruct Ht as (T1 & T2 & T3 & T4). apply read_frame; auto. intros Hpr.
  refine (proj1 (set_frame (k := under k) E _)). destruct (is_bound v); [|auto]. intros X. apply Hk. now apply under_inj.
Qed.
Theorem C94_delete m n m' e k : delete m n = (m', e) -> k <> n -> (is_prop m k = true -> under k <> n) ->
  read m' k = read m k.
Proof.
  intros E Hk Hu.
  assert (Hp : is_prop m' k = is_prop m k) by (unfold is_prop; now rewrite (delete_prop E)).
  destruct (delete_frame E Hk) as (T1 & T2 & T3 & T4). apply read_frame; auto. intros Hpr.
  refine (proj1 (delete_frame E _)). auto.
Qed.

(** The exception is real: after [m.n = BoundedParameter(...)], [m._n = Parameter(...)] is accepted
    and makes [m.n] an AttributeError. *)
Theorem C94_refuted (w x : U) n : cls n = None -> cls (under n) = None -> exists m m',
  set (empty U) n (VBound w) = (m, None) /\ read m n = Ok (VTensor (sig w))
  /\ set m (under n) (VPar x) = (m', None) /\ read m' n = Err AttributeError.
Proof.
  intros Hc Hu.
  assert (Nun : String.eqb (under n) n = false) by (apply String.eqb_neq; apply under_neq).
  assert (Nnu : String.eqb n (under n) = false) by (apply String.eqb_neq; intros E; symmetry in E; exact (under_neq E)).
  exists {| m_par := [(under n, VBound w)]; m_buf := []; m_mod := []; m_dict := []; m_prop := [n] |},
    {| m_par := [(under n, VPar x)]; m_buf := []; m_mod := []; m_dict := []; m_prop := [n] |}.
  repeat split.
  all: crunch Hc Hu Nun Nnu.
Qed.

(** * C95 *)
(** What is to be trained after a constructor: the Parameters under their names, the weights of the
    BoundedParameters under their names with an underscore. *)
Definition trained (os : list (op U)) : table U := flat_map (fun o =>
  match o with
  | ASet n (VPar x) => [(n, VPar x)]
  | ASet n (VBound w) => [(under n, VBound w)]
  | _ => []
  end) os.
(** The names that an assignment uses. *)
Definition names (o : op U) : list string :=
  match o with ASet n (VBound _) => [n; under n] | ASet n _ => [n] | ADel n => [n] end.
(** Class attributes do not get in the way. *)
Definition no_clash (o : op U) : Prop :=
  match o with
  | ASet n (VBound _) => cls n = None /\ cls (under n) = None
  | ASet n (VPar _) | ASet n (VBuffer _) | ASet n (VModule _) => cls n = None
  | ASet n _ => True
  | ADel _ => False
  end.

Definition untouched (m : mdl U) (n : string) : Prop :=
  is_prop m n = false /\ get n (m_par m) = None /\ get n (m_buf m) = None /\ get n (m_mod m) = None /\ get n (m_dict m) = None.

Lemma put_new n v (t : table U) : get n t = None -> put n v t = t ++ [(n, v)].
Proof.
  unfold get, put. induction t as [|[k u] t IH]; [reflexivity|]. cbn. destruct (String.eqb n k); [discriminate|].
  intros H. now rewrite IH.
Qed.

Lemma hasattr_untouched m n : untouched m n -> cls n = None -> hasattr sig cls m n = Ok false.
Proof.
  intros (H0 & H1 & H2 & H3 & H4) Hc. unfold AttrModel.hasattr, AttrModel.read, table_read, of_option.
  now rewrite H0, H4, Hc, H1, H2, H3.
Qed.

Lemma drop_none n (t : table U) : get n t = None -> drop n t = t.
Proof.
  unfold get, drop. induction t as [|[k u] t IH]; [reflexivity|]. cbn. destruct (String.eqb n k); [discriminate|].
  intros H. cbn. now rewrite IH.
Qed.

Lemma fresh_step m n v : untouched m n -> (is_bound v = true -> untouched m (under n)) -> no_clash (ASet n v) ->
  exists m', set m n v = (m', None) /\ m_par m' = m_par m ++ trained [ASet n v]
  /\ read m' n = Ok (seen v).
Proof.
  intros Hn Hu Hc. destruct Hn as (H0 & H1 & H2 & H3 & H4).
  assert (Hn : untouched m n) by (repeat split; assumption).
  destruct v as [|x|x|x|x|w|x]; cbn [AttrModel.set no_clash] in *.
  1-3: unfold AttrModel.torch_set, has; rewrite H1, H3, H2, H0; eexists; split; [reflexivity|]; split; [cbn; now rewrite app_nil_r|];
    unfold AttrModel.read; change (is_prop _ n) with (is_prop m n); rewrite H0; cbn; now rewrite get_put, String.eqb_refl.
  - unfold AttrModel.register_buffer. rewrite (hasattr_untouched Hn Hc). cbn [andb].
    unfold AttrModel.torch_set, with_buf, has. cbn [m_par m_buf m_mod m_dict m_prop]. rewrite H1, H3, get_put, String.eqb_refl.
    eexists. split; [reflexivity|]. split; [cbn; now rewrite app_nil_r|].
    unfold AttrModel.read, table_read. change (is_prop _ n) with (is_prop m n). rewrite H0. cbn.
    now rewrite H4, Hc, H1, get_put, String.eqb_refl.
  - unfold AttrModel.torch_set, AttrModel.register_parameter.
    rewrite (drop_none H2), (drop_none H3), (drop_none H4).
    replace {| m_par := m_par m; m_buf := m_buf m; m_mod := m_mod m; m_dict := m_dict m; m_prop := m_prop m |} with m by (destruct m; reflexivity).
    rewrite (hasattr_untouched Hn Hc). cbn [andb]. eexists. split; [reflexivity|]. split; [cbn; now apply put_new|].
    unfold AttrModel.read, table_read. change (is_prop _ n) with (is_prop m n). rewrite H0. cbn.
    now rewrite H4, Hc, get_put, String.eqb_refl.
  - destruct Hc as [Hc1 Hc2]. specialize (Hu eq_refl). unfold AttrModel.register_parameter.
    rewrite (hasattr_untouched Hu Hc2). cbn [andb]. eexists. split; [reflexivity|]. split; [cbn; apply put_new; apply Hu|].
    unfold AttrModel.read, is_prop. cbn. rewrite String.eqb_refl. cbn. now rewrite get_put, String.eqb_refl.
  - unfold AttrModel.torch_set, has. rewrite H1. eexists. split; [reflexivity|]. split; [cbn; rewrite app_nil_r; now apply drop_none|].
    unfold AttrModel.read, table_read. change (is_prop _ n) with (is_prop m n). rewrite H0. cbn.
    rewrite !get_drop, get_put, String.eqb_refl. cbn. now rewrite Hc.
Qed.

Lemma untouched_kept m n v m' e k : set m n v = (m', e) -> untouched m k -> ~ In k (names (ASet n v)) -> untouched m' k.
Proof.
  intros E (H0 & H1 & H2 & H3 & H4) Hk.
  assert (Hkn : k <> n) by (intros ->; apply Hk; destruct v; now left).
  assert (Ht : same_at m m' k).
  { apply (set_frame E). destruct (is_bound v) eqn:Eb; [|exact Hkn]. destruct v; try discriminate. intros ->. apply Hk. right. now left. }
  destruct Ht as (T1 & T2 & T3 & T4). split; [|rewrite T1, T2, T3, T4; auto].
  destruct (set_prop E) as [H|(_ & H & _)]; unfold is_prop in *; rewrite H; [exact H0|]. cbn. rewrite H0.
  destruct (String.eqb_spec k n); [congruence|reflexivity].
Qed.

Lemma read_kept m n v m' k u : set m n v = (m', None) -> read m k = Ok (seen u) ->
  ~ In k (names (ASet n v)) -> ~ In (under k) (names (ASet n v)) \/ is_prop m k = false -> read m' k = Ok (seen u).
Proof.
  intros E Er Hk Hu. rewrite <- Er. apply (C94_others E).
  - intros ->. apply Hk. destruct v; now left.
  - intros Hp <-. destruct Hu as [Hu|Hu]; [|congruence]. apply Hu. destruct v; now left.
  - intros [w ->] ->. apply Hk. right. now left.
Qed.

(** If a constructor uses every name once, none of its assignments is refused, exactly the intended
    weights are trained, and every attribute reads as assigned. *)
Theorem C95_fresh os : NoDup (flat_map names os) -> Forall no_clash os ->
  (forall pre o post, os = pre ++ o :: post -> snd (step (start pre) o) = None)
  /\ parameters (start os) = trained os
  /\ (forall n v, In (ASet n v) os -> read (start os) n = Ok (seen v)).
Proof.
  intros HN HC.
  assert (HF : trained os = filter (fun e => match snd e with VNone => false | _ => true end) (trained os)).
  { clear HN HC. induction os as [|[n v|n] os IH]; [reflexivity| |exact IH]. cbn. destruct v; cbn; try exact IH; f_equal; exact IH. }
  rewrite HF. unfold parameters.
  assert (G : forall post pre, NoDup (flat_map names (pre ++ post)) -> Forall no_clash (pre ++ post) ->
    (forall k, ~ In k (flat_map names pre) -> untouched (start pre) k) ->
    m_par (start pre) = trained pre ->
    (forall n v, In (ASet n v) pre -> read (start pre) n = Ok (seen v)) ->
    (forall q o r, post = q ++ o :: r -> snd (step (start (pre ++ q)) o) = None)
    /\ m_par (start (pre ++ post)) = trained (pre ++ post)
    /\ (forall n v, In (ASet n v) (pre ++ post) -> read (start (pre ++ post)) n = Ok (seen v))).
  2: { destruct (G os [] HN HC) as (A & B & C); try easy.
       split; [intros pre o post E; exact (A pre o post E)|]. cbn [app] in B. split; [now rewrite B|exact C]. }
  clear HN HC HF os. induction post as [|o post IH]; intros pre HN HC Hu Ht Hr.
  { rewrite app_nil_r. split; [|auto]. intros [|? ?] ? ? H; discriminate H. }
  assert (Ho : no_clash o). { rewrite Forall_forall in HC. apply HC. apply in_or_app. right. now left. }
  destruct o as [n v|n]; [|destruct Ho].
  assert (Hnn : forall k, In k (names (ASet n v)) -> ~ In k (flat_map names pre)).
  { intros k Hk Hin. rewrite flat_map_app in HN. cbn [flat_map] in HN. clear - HN Hk Hin.
    induction (flat_map names pre) as [|a l IHl]; [destruct Hin|]. cbn in HN. inversion HN as [|? ? Ha HN']. subst.
    destruct Hin as [->|Hin]; [|now apply IHl]. apply Ha. apply in_or_app. right. apply in_or_app. now left. }
  assert (Hn : untouched (start pre) n) by (apply Hu, Hnn; destruct v; now left).
  assert (Hun : is_bound v = true -> untouched (start pre) (under n)).
  { intros Hb. apply Hu, Hnn. destruct v; try discriminate. right. now left. }
  destruct (fresh_step Hn Hun Ho) as (m' & E & Ep & Er).
  assert (Es : start (pre ++ [ASet n v]) = m').
  { unfold AttrModel.run in *. rewrite fold_left_app. cbn [fold_left AttrModel.step]. now rewrite E. }
  replace (pre ++ ASet n v :: post) with ((pre ++ [ASet n v]) ++ post) in * by now rewrite <- app_assoc.
  destruct (IH (pre ++ [ASet n v])) as (A & B & C); auto.
  - intros k Hk. rewrite Es. rewrite flat_map_app in Hk. cbn [flat_map] in Hk. rewrite app_nil_r in Hk.
    apply (untouched_kept E).
    + apply Hu. intros X. apply Hk. apply in_or_app. now left.
    + intros X. apply Hk. apply in_or_app. now right.
  - rewrite Es, Ep, Ht. unfold trained. now rewrite flat_map_app.
  - intros k u Hin. rewrite Es. apply in_app_or in Hin. destruct Hin as [Hin|[X|[]]]; [|injection X as -> ->; exact Er].
    assert (Hkp : forall z, In z (names (ASet k u)) -> In z (flat_map names pre)).
    { intros z Hz. apply in_flat_map. eauto. }
    apply (read_kept E); [apply Hr; exact Hin| |].
    + intros X. apply (Hnn _ X). apply Hkp. destruct u; now left.
    + destruct (is_prop (start pre) k) eqn:Epr; [left|now right]. intros X. apply (Hnn _ X).
      destruct (run_prop Epr) as [Y|[w Y]]; [discriminate|]. apply in_flat_map. exists (ASet k (VBound w)).
      split; [exact Y|]. right. now left.
  - split; [|auto]. intros [|o' q] o r X; cbn in X.
    + injection X as <- <-. rewrite app_nil_r. cbn [AttrModel.step]. now rewrite E.
    + injection X as <- X. rewrite X in *. specialize (A q o r eq_refl). rewrite <- app_assoc in A. exact A.
Qed.
(** The built-in components, trainable or not; [lib]: class attributes are methods and [num_ports]. *)
Definition lib : Prop := forall n, In n ["C"; "sources_at"; "detectors_at"; "actions_at"; "port_order"; "free_ports_at";
  "phase"; "coupling"; "_coupling"; "R"; "_R"; "weights"; "phi"; "theta"; "amplification"] -> cls n = None.

Fixpoint nodupb (l : list string) : bool := match l with [] => true | a :: r => negb (existsb (String.eqb a) r) && nodupb r end.
Lemma nodupb_sound l : nodupb l = true -> NoDup l.
Proof.
  induction l as [|a l IH]; intros H; [constructor|]. cbn in H. apply andb_true_iff in H. destruct H as [H1 H2].
  constructor; [|now apply IH]. intros Hin. apply negb_true_iff in H1. rewrite <- not_true_iff_false in H1. apply H1.
  apply existsb_exists. exists a. split; [exact Hin|apply String.eqb_refl].
Qed.

Ltac fresh_ops L := 
  match goal with |- parameters (start ?os) = _ =>
    let HN := fresh "HN" in let HC := fresh "HC" in
    assert (HN : NoDup (flat_map names os)) by (apply nodupb_sound; vm_compute; reflexivity);
    assert (HC : Forall no_clash os) by (apply Forall_forall; intros ? HI; cbn in HI; repeat (destruct HI as [<-|HI]; [cbn; try exact I; try (split; apply L; cbn; tauto); apply L; cbn; tauto|]); destruct HI);
    exact (proj1 (proj2 (C95_fresh HN HC))) end.

Theorem C95_builtin (x w : U) (t t' : bool) : lib ->
  parameters (start (waveguide_ops x t)) = (if t then [("phase", VPar x)] else [])
  /\ parameters (start (coupler_ops w x t)) = (if t then [("_coupling", VBound w)] else [])
  /\ parameters (start (coupler_length_ops w x t t')) =
       (if t then [("phase", VPar x)] else []) ++ (if t' then [("_coupling", VBound w)] else [])
  /\ parameters (start (mmi_ops x t)) = (if t then [("weights", VPar x)] else [])
  /\ parameters (start (mzi_ops x t)) = (if t then [("phi", VPar x); ("theta", VPar x)] else [])
  /\ parameters (start (linear_soa_ops x t)) = (if t then [("amplification", VPar x)] else [])
  /\ parameters (start (soa_ops x t)) = (if t then [("amplification", VPar x)] else []).
Proof. intros L. repeat split; destruct t; try destruct t'; fresh_ops L. Qed.

(** False of mirrors: their reflection is among the parameters whether trainable or not. *)
Theorem C95_mirror_refuted (x w : U) : lib -> parameters (start (mirror_ops w x false)) = [("_R", VBound w)].
Proof. intros L. fresh_ops L. Qed.

(** False if names are used twice: a Parameter that is replaced by a BoundedParameter stays among the
    parameters, although no attribute shows it. *)
Theorem C95_refuted (x w : U) n : cls n = None -> cls (under n) = None -> (forall k, cls k <> Some (VPar x)) ->
  let os := [ASet n (VPar x); ASet n (VBound w)] in
  In (n, VPar x) (parameters (start os)) /\ forall k, read (start os) k <> Ok (VPar x).
Proof.
  intros Hc Hu Hx. cbv zeta.
  assert (Nun : String.eqb (under n) n = false) by (apply String.eqb_neq; apply under_neq).
  assert (Nnu : String.eqb n (under n) = false) by (apply String.eqb_neq; intros E; symmetry in E; exact (under_neq E)).
  assert (Es : start [ASet n (VPar x); ASet n (VBound w)] =
    {| m_par := [(n, VPar x); (under n, VBound w)]; m_buf := []; m_mod := []; m_dict := []; m_prop := [n] |}).
  { assert (E1 : set (empty U) n (VPar x) = ({| m_par := [(n, VPar x)]; m_buf := []; m_mod := []; m_dict := []; m_prop := [] |}, None))
      by crunch Hc Hu Nun Nnu.
    assert (E2 : set {| m_par := [(n, VPar x)]; m_buf := []; m_mod := []; m_dict := []; m_prop := [] |} n (VBound w) =
      ({| m_par := [(n, VPar x); (under n, VBound w)]; m_buf := []; m_mod := []; m_dict := []; m_prop := [n] |}, None))
      by crunch Hc Hu Nun Nnu.
    unfold AttrModel.run. cbn [fold_left AttrModel.step]. rewrite E1. cbn [fst]. now rewrite E2. }
  rewrite Es. split; [left; reflexivity|]. intros k. unfold AttrModel.read, table_read, is_prop, get. cbn.
  destruct (String.eqb_spec k n) as [->|Hk]; cbn.
  - rewrite Nun, String.eqb_refl. discriminate.
  - destruct (cls k) eqn:Ek; [intros [= ->]; exact (Hx k Ek)|]. destruct (String.eqb k (under n)); discriminate.
Qed.
(** A weight is taken out of the training by assigning None: it is no longer among the parameters, and the others still are. *)
Lemma put_keys n v (t : list (string * val U)) k : In k (map fst (put n v t)) <-> k = n \/ In k (map fst t).
Proof.
  unfold put. induction t as [|[a b] t IH]; cbn; [intuition congruence|]. destruct (String.eqb_spec n a) as [->|H]; cbn; [intuition congruence|].
  rewrite IH. intuition congruence.
Qed.
Lemma put_nodup n v (t : list (string * val U)) : NoDup (map fst t) -> NoDup (map fst (put n v t)).
Proof.
  unfold put. induction t as [|[a b] t IH]; cbn; intros H; [constructor; [intros []|constructor]|]. inversion H as [|? ? H1 H2]; subst.
  destruct (String.eqb_spec n a) as [->|E]; cbn; [exact H|]. constructor; [|exact (IH H2)].
  intros X. apply put_keys in X. destruct X as [X|X]; [congruence|contradiction].
Qed.
Lemma drop_nodup n (t : list (string * val U)) : NoDup (map fst t) -> NoDup (map fst (drop n t)).
Proof.
  unfold drop. induction t as [|[a b] t IH]; cbn; intros H; [constructor|]. inversion H as [|? ? H1 H2]; subst.
  destruct (String.eqb n a); cbn; [exact (IH H2)|]. constructor; [|exact (IH H2)]. intros X. apply H1. rewrite in_map_iff in *.
  destruct X as (p & Hp & X). apply filter_In in X. exists p. tauto.
Qed.
Lemma put_in n v (t : list (string * val U)) k u : NoDup (map fst t) -> (In (k, u) (put n v t) <-> (k = n /\ u = v) \/ (k <> n /\ In (k, u) t)).
Proof.
  unfold put. induction t as [|[a b] t IH]; cbn; intros H; [intuition congruence|]. inversion H as [|? ? H1 H2]; subst.
  destruct (String.eqb_spec n a) as [->|E]; cbn.
  - split; [intros [[= <- <-]|X]; [left; split; reflexivity|right; split; [|right; exact X]; intros ->; apply H1; apply in_map_iff; exists (a, u); split; [reflexivity|exact X]]|].
    intros [[-> ->]|[X [Y|Y]]]; [left; reflexivity|congruence|right; exact Y].
  - rewrite (IH H2). split; [intros [[= <- <-]|[X|X]]; [right; split; [congruence|left; reflexivity]|left; exact X|right; tauto]|].
    intros [X|[X [Y|Y]]]; [right; left; exact X|left; exact Y|right; right; tauto].
Qed.
Lemma set_nodup m n v : NoDup (map fst (m_par m)) -> NoDup (map fst (m_par (fst (set m n v)))).
Proof.
  intros H.
  assert (RP : forall m n v, NoDup (map fst (m_par m)) -> NoDup (map fst (m_par (fst (register_parameter sig cls m n v))))).
  { intros m0 n0 v0 H0. unfold register_parameter. destruct (hasattr sig cls m0 n0); [|exact H0]. destruct (_ && _); [exact H0|]. cbn [fst with_par m_par]. apply put_nodup. exact H0. }
  assert (RB : forall m n v, m_par (fst (register_buffer sig cls m n v)) = m_par m).
  { intros m0 n0 v0. unfold register_buffer. destruct (hasattr sig cls m0 n0); [|reflexivity]. destruct (_ && _); reflexivity. }
  assert (TS : forall m n v, NoDup (map fst (m_par m)) -> NoDup (map fst (m_par (fst (torch_set sig cls m n v))))).
  { intros m0 n0 v0 H0. unfold torch_set. destruct v0; try (apply RP; exact H0); destruct (has n0 (m_par m0)); try exact H0; try (apply RP; exact H0);
      try (cbn [fst m_par]; apply drop_nodup; exact H0); destruct (has n0 (m_mod m0)); try exact H0; destruct (has n0 (m_buf m0)); try exact H0; destruct (is_prop m0 n0); exact H0. }
  unfold AttrModel.set. destruct v as [|x|x|x|x|x|x]; try (apply TS; exact H).
  - specialize (RB m n (VBuffer x)). destruct (register_buffer sig cls m n (VBuffer x)) as [m1 [e|]]; cbn [fst] in *; [rewrite RB; exact H|]. apply TS. rewrite RB. exact H.
  - specialize (RP m (under n) (VBound x) H). destruct (register_parameter sig cls m (under n) (VBound x)) as [m1 [e|]]; cbn [fst with_prop m_par] in *; exact RP.
Qed.
Lemma run_nodup os : forall m, NoDup (map fst (m_par m)) -> NoDup (map fst (m_par (run m os))).
Proof.
  induction os as [|o os IH]; intros m H; [exact H|]. apply (IH (fst (step m o))). destruct o as [n v|n]; cbn [AttrModel.step]; [apply set_nodup; exact H|].
  unfold delete. destruct (has n (m_par m)); [cbn [fst with_par m_par]; apply drop_nodup; exact H|].
  destruct (has n (m_buf m)); [exact H|]. destruct (has n (m_mod m)); [exact H|]. destruct (is_prop m n); [exact H|]. destruct (has n (m_dict m)); exact H.
Qed.
Theorem C95_disabled os n m' : has n (m_par (start os)) = true -> set (start os) n VNone = (m', None) ->
  forall k v, In (k, v) (parameters m') <-> k <> n /\ In (k, v) (parameters (start os)).
Proof.
  intros H E k v. assert (N : NoDup (map fst (m_par (start os)))) by (apply run_nodup; constructor).
  unfold AttrModel.set, torch_set in E. rewrite H in E. unfold register_parameter in E. destruct (hasattr sig cls (start os) n) as [h|]; [|discriminate].
  destruct (h && negb (has n (m_par (start os)))); [discriminate|]. injection E as <-. unfold parameters. cbn [with_par m_par]. rewrite !filter_In, (put_in _ _ _ _ N). cbn [snd].
  destruct v; intuition discriminate.
Qed.
(** Parameters, modules and buffers keep their kind: plain values are refused for all three, tensors for the first two, and nothing changes. *)
Theorem C95_typed m n v : (exists u, v = VPlain u) /\ has n (m_par m) || has n (m_mod m) || has n (m_buf m) = true \/
    (exists u, v = VTensor u) /\ has n (m_par m) || has n (m_mod m) = true \/
    (exists u, v = VModule u) /\ has n (m_par m) = true -> set m n v = (m, Some TypeError).
Proof.
  intros [[[u ->] H]|[[[u ->] H]|[[u ->] H]]]; unfold AttrModel.set, torch_set; destruct (has n (m_par m)); try reflexivity; try discriminate H;
    destruct (has n (m_mod m)); try reflexivity; try discriminate H. cbn [orb] in H. rewrite H. reflexivity.
Qed.
End Props.
Print Assumptions C95_typed.
Print Assumptions C93_readback.
Print Assumptions C93_bounded.
Print Assumptions C93_kind_fixed.
Print Assumptions C93_refuted.
Print Assumptions C94_others.
Print Assumptions C94_delete.
Print Assumptions C94_refuted.
Print Assumptions C95_fresh.
Print Assumptions C95_builtin.
Print Assumptions C95_mirror_refuted.
Print Assumptions C95_refuted.
Print Assumptions C95_disabled.

(** * Examples: contents are numbers, a bounded value is its weight plus one. *)
Definition ncls (n : string) : option (val nat) := if String.eqb n "num_ports" then Some (VPlain 4) else None.
Definition ex_os : list (op nat) :=
  [ASet "phase" (VPlain 1); ADel "phase"; ASet "phase" (VBuffer 2); ASet "phase" (VPlain 3); ASet "phase" (VTensor 4);
   ASet "phase" (VPar 5); ASet "coupling" (VBound 6)].
(** The float is refused (there is a buffer); the rest is accepted. *)
Example C95_typed_ex : has "phase" (m_buf (run S ncls (empty nat) (firstn 3 ex_os))) = true
  /\ snd (set S ncls (run S ncls (empty nat) (firstn 3 ex_os)) "phase" (VPlain 3)) = Some TypeError.
Proof. split; reflexivity. Qed.
Example C93_ex : exists m', set S ncls (run S ncls (empty nat) ex_os) "phase" (VPar 7) = (m', None)
  /\ ~ bounded_in "phase" ex_os /\ ncls "phase" = None /\ read S ncls m' "phase" = Ok (VPar 7)
  /\ read S ncls m' "coupling" = Ok (VTensor 7).
Proof.
  eexists. split; [reflexivity|]. split; [|repeat split].
  intros [w H]. cbn in H. intuition congruence.
Qed.
Example C93_fixed_ex : only_bounded "coupling" ex_os /\ is_prop (run S ncls (empty nat) ex_os) "coupling" = true.
Proof.
  split; [|reflexivity]. unfold only_bounded, ex_os. repeat split.
  - intros v H. cbn in H. repeat (destruct H as [H|H]; [try discriminate H; injection H as <-; eauto|]). destruct H.
  - intros v H. unfold under in H. cbn in H. repeat (destruct H as [H|H]; [discriminate H|]). destruct H.
  - intros H. unfold under in H. cbn in H. repeat (destruct H as [H|H]; [discriminate H|]). destruct H.
  - intros w k H. cbn in H. repeat (destruct H as [H|H]; [try discriminate H; injection H as <- <-; discriminate|]). destruct H.
Qed.
Example C95_ex : lib ncls /\ NoDup (flat_map (@names nat) (coupler_length_ops 1 2 true true)).
Proof.
  split; [intros n H; cbn in H; intuition (subst; reflexivity)|]. apply nodupb_sound. reflexivity.
Qed.
Example C95_disabled_ex : has "phase" (m_par (run S ncls (empty nat) ex_os)) = true /\
  exists m', set S ncls (run S ncls (empty nat) ex_os) "phase" VNone = (m', None) /\ parameters m' = [("_coupling", VBound 6)].
Proof. split; [reflexivity|]. eexists. split; reflexivity. Qed.
