(** Lemmas about the attribute tables of modules. *)
From Verif Require Import Base AttrModel.
Set Implicit Arguments.
Unset Strict Implicit.
Local Open Scope string_scope.
Local Open Scope list_scope.

Arguments get : simpl never.
Arguments put : simpl never.
Arguments drop : simpl never.
Arguments has : simpl never.
Arguments is_prop : simpl never.
Arguments under : simpl never.

Section Attr.
Variable U : Type.
Variable sig : U -> U.
Variable cls : string -> option (val U).
Notation mdl := (mdl U).
Notation val := (val U).
Notation op := (op U).
Notation read := (read sig cls).
Notation set := (set sig cls).
Notation torch_set := (torch_set sig cls).
Notation register_parameter := (register_parameter sig cls).
Notation register_buffer := (register_buffer sig cls).
Notation hasattr := (hasattr sig cls).
Notation run := (run sig cls).
Notation step := (step sig cls).
Implicit Types (m : mdl) (v : val).

Lemma get_put k n v t : get k (put n v t) = if String.eqb k n then Some v else get k t.
Proof.
  unfold get, put. induction t as [|[a b] t IH]; cbn.
  - destruct (String.eqb k n); reflexivity.
  - destruct (String.eqb_spec n a); cbn.
    + subst a. destruct (String.eqb k n); reflexivity.
    + rewrite IH. destruct (String.eqb_spec k a), (String.eqb_spec k n); congruence.
Qed.

Lemma get_drop k n (t : table U) : get k (drop n t) = if String.eqb k n then None else get k t.
Proof.
  unfold get, drop. induction t as [|[a b] t IH]; cbn.
  - destruct (String.eqb k n); reflexivity.
  - destruct (String.eqb_spec n a); cbn; rewrite IH.
    + subst a. destruct (String.eqb k n); reflexivity.
    + destruct (String.eqb_spec k a), (String.eqb_spec k n); congruence.
Qed.

Lemma has_get n (t : table U) : has n t = false <-> get n t = None.
Proof. unfold has. destruct (get n t); split; congruence. Qed.
Lemma has_get_true n (t : table U) : has n t = true <-> exists v, get n t = Some v.
Proof. unfold has. destruct (get n t); split; try congruence; eauto. intros []; congruence. Qed.

Lemma under_inj a b : under a = under b -> a = b.
Proof. unfold under. congruence. Qed.
Lemma under_neq n : under n <> n.
Proof. unfold under. intros E. apply (f_equal String.length) in E. cbn in E. lia. Qed.

(** ** The tables of an attribute that is not bounded are disjoint *)
Definition sound (m : mdl) : Prop := forall n, is_prop m n = false ->
  (get n (m_par m) <> None -> cls n = None /\ get n (m_buf m) = None /\ get n (m_mod m) = None /\ get n (m_dict m) = None)
  /\ (get n (m_buf m) <> None -> cls n = None /\ get n (m_mod m) = None /\ get n (m_dict m) = None)
  /\ (get n (m_mod m) <> None -> get n (m_dict m) = None).

Lemma hasattr_true m n v : read m n = Ok v -> hasattr m n = Ok true.
Proof. unfold hasattr. now intros ->. Qed.

(** An attribute that is not there is in no table. *)
Lemma no_attr m n : is_prop m n = false -> hasattr m n = Ok false ->
  cls n = None /\ get n (m_par m) = None /\ get n (m_buf m) = None /\ get n (m_mod m) = None /\ get n (m_dict m) = None.
Proof.
  intros Hp. unfold AttrModel.hasattr, AttrModel.read, table_read, of_option. rewrite Hp.
  destruct (get n (m_dict m)); [discriminate|]. destruct (cls n); [discriminate|].
  destruct (get n (m_par m)); [discriminate|]. destruct (get n (m_buf m)); [discriminate|].
  destruct (get n (m_mod m)); [discriminate|]. auto.
Qed.

Lemma hasattr_ok m n : is_prop m n = false -> exists b, hasattr m n = Ok b.
Proof.
  intros Hp. unfold AttrModel.hasattr, AttrModel.read, table_read, of_option. rewrite Hp.
  repeat match goal with |- context [match ?x with Some _ => _ | None => _ end] => destruct x end; eauto.
Qed.

Lemma register_parameter_sound m n v m' e : sound m -> register_parameter m n v = (m', e) -> sound m'.
Proof.
  intros HS. unfold AttrModel.register_parameter. destruct (hasattr m n) as [h|x] eqn:Eh; [|intros [= <- _]; exact HS].
  destruct (h && negb (has n (m_par m))) eqn:Eb; intros [= <- <-]; [exact HS|].
  intros k Hk. destruct (String.eqb_spec k n) as [->|Hkn].
  - specialize (HS n Hk). cbn. rewrite get_put, String.eqb_refl.
    change (is_prop m n = false) in Hk.
    assert (D : cls n = None /\ get n (m_buf m) = None /\ get n (m_mod m) = None /\ get n (m_dict m) = None).
    { destruct h; cbn in Eb.
      - apply negb_false_iff, has_get_true in Eb. destruct Eb as [y Ey]. apply HS. congruence.
      - destruct (no_attr Hk Eh) as (? & ? & ? & ? & ?). auto. }
    destruct D as (D1 & D2 & D3 & D4). rewrite D2, D3, D4. tauto.
  - specialize (HS k Hk). cbn. rewrite get_put. destruct (String.eqb_spec k n); [congruence|]. exact HS.
Qed.

Lemma register_buffer_sound m n v m' e : sound m -> register_buffer m n v = (m', e) -> sound m'.
Proof.
  intros HS. unfold AttrModel.register_buffer. destruct (hasattr m n) as [h|x] eqn:Eh; [|intros [= <- _]; exact HS].
  destruct (h && negb (has n (m_buf m))) eqn:Eb; intros [= <- <-]; [exact HS|].
  intros k Hk. destruct (String.eqb_spec k n) as [->|Hkn].
  - specialize (HS n Hk). cbn. rewrite get_put, String.eqb_refl.
    change (is_prop m n = false) in Hk.
    assert (D : cls n = None /\ get n (m_par m) = None /\ get n (m_mod m) = None /\ get n (m_dict m) = None).
    { destruct h; cbn in Eb.
      - apply negb_false_iff, has_get_true in Eb. destruct Eb as [y Ey]. destruct HS as (H1 & H2 & H3).
        destruct H2 as (D1 & D2 & D3); [congruence|].
        destruct (get n (m_par m)); [|auto]. destruct H1 as (? & ? & ?); congruence.
      - destruct (no_attr Hk Eh) as (? & ? & ? & ? & ?). auto. }
    destruct D as (D1 & D2 & D3 & D4). rewrite D2, D3, D4. repeat split; intros; congruence.
  - specialize (HS k Hk). cbn. rewrite get_put. destruct (String.eqb_spec k n); [congruence|]. exact HS.
Qed.

Lemma drop_sound m n : sound m -> sound {| m_par := m_par m; m_buf := drop n (m_buf m); m_mod := drop n (m_mod m);
  m_dict := drop n (m_dict m); m_prop := m_prop m |}.
Proof.
  intros HS k Hk. specialize (HS k Hk). cbn. rewrite !get_drop. destruct (String.eqb k n); [|exact HS].
  destruct HS as (H1 & _ & _). split; [|split; congruence]. intros Hp. destruct (H1 Hp) as (? & ? & ? & ?). auto.
Qed.

Lemma torch_set_sound m n v m' e : sound m -> torch_set m n v = (m', e) -> sound m'.
Proof.
  intros HS E.
  assert (HP : forall x m1, register_parameter m n x = (m1, e) -> sound m1) by (intros; eapply register_parameter_sound; eauto).
  assert (HD : forall v0, has n (m_par m) = false -> has n (m_mod m) = false -> has n (m_buf m) = false ->
    is_prop m n = false -> sound (with_dict m (put n v0 (m_dict m)))).
  { intros v0 H1 H2 H3 Hp k Hk. specialize (HS k Hk). cbn. rewrite get_put.
    destruct (String.eqb_spec k n) as [->|]; [|exact HS].
    apply has_get in H1. apply has_get in H2. apply has_get in H3. rewrite H1, H2, H3. repeat split; congruence. }
  assert (HB : forall v0, has n (m_par m) = false -> has n (m_mod m) = false -> has n (m_buf m) = true -> sound (with_buf m (put n v0 (m_buf m)))).
  { intros v0 H1 H2 H3 k Hk. specialize (HS k Hk). cbn. rewrite get_put.
    destruct (String.eqb_spec k n) as [->|]; [|exact HS].
    apply has_get in H1. apply has_get in H2. apply has_get_true in H3. destruct H3 as [y H3].
    destruct HS as (_ & HS & _). destruct HS as (D1 & D2 & D3); [congruence|]. rewrite H1. repeat split; congruence. }
  assert (HM : forall v0, has n (m_par m) = false -> has n (m_mod m) = true -> sound (with_mod m (put n v0 (m_mod m)))).
  { intros v0 H1 H2 k Hk. specialize (HS k Hk). cbn. rewrite get_put.
    destruct (String.eqb_spec k n) as [->|]; [|exact HS].
    apply has_get in H1. apply has_get_true in H2. destruct H2 as [y H2]. destruct HS as (_ & HB' & HM').
    assert (D : get n (m_dict m) = None) by (apply HM'; congruence). rewrite H1, D.
    destruct (get n (m_buf m)); [destruct HB' as (_ & ? & _); congruence|]. repeat split; congruence. }
  assert (HO : forall v0, has n (m_par m) = false -> sound {| m_par := drop n (m_par m); m_buf := drop n (m_buf m);
    m_mod := put n v0 (m_mod m); m_dict := drop n (m_dict m); m_prop := m_prop m |}).
  { intros v0 H1 k Hk. specialize (HS k Hk). cbn. rewrite get_put, !get_drop.
    destruct (String.eqb_spec k n) as [->|]; [|exact HS]. repeat split; congruence. }
  assert (HR : forall x, register_parameter {| m_par := m_par m; m_buf := drop n (m_buf m); m_mod := drop n (m_mod m);
       m_dict := drop n (m_dict m); m_prop := m_prop m |} n x = (m', e) -> sound m').
  { intros x Ex. eapply register_parameter_sound; [|exact Ex]. apply drop_sound. exact HS. }
  unfold AttrModel.torch_set in E.
  destruct v; try (eapply HR; eassumption);
    destruct (has n (m_par m)) eqn:E1; try (injection E as <- <-; exact HS); try (eapply HP; eassumption);
    try (injection E as <- <-; auto; fail);
    destruct (has n (m_mod m)) eqn:E2; try (injection E as <- <-; auto; fail);
    destruct (has n (m_buf m)) eqn:E3; try (injection E as <- <-; auto; fail);
    destruct (is_prop m n) eqn:E4; injection E as <- <-; auto.
Qed.

Lemma set_sound m n v m' e : sound m -> set m n v = (m', e) -> sound m'.
Proof.
  intros HS. destruct v; cbn [AttrModel.set]; try (apply torch_set_sound; exact HS).
  - destruct (register_buffer m n (VBuffer x)) as [m1 [y|]] eqn:E.
    + intros [= <- <-]. eapply register_buffer_sound; eauto.
    + apply torch_set_sound. eapply register_buffer_sound; eauto.
  - destruct (register_parameter m (under n) (VBound w)) as [m1 [y|]] eqn:E.
    + intros [= <- <-]. eapply register_parameter_sound; eauto.
    + intros [= <- <-]. apply register_parameter_sound in E; auto. intros k Hk.
      apply (E k). unfold is_prop in *. cbn in Hk. apply orb_false_iff in Hk. tauto.
Qed.

Lemma delete_sound m n m' e : sound m -> delete m n = (m', e) -> sound m'.
Proof.
  intros HS. unfold delete.
  assert (W : forall p b o d,
    (forall k, get k p = get k (m_par m) \/ get k p = None) -> (forall k, get k b = get k (m_buf m) \/ get k b = None) ->
    (forall k, get k o = get k (m_mod m) \/ get k o = None) -> (forall k, get k d = get k (m_dict m) \/ get k d = None) ->
    sound {| m_par := p; m_buf := b; m_mod := o; m_dict := d; m_prop := m_prop m |}).
  { intros p b o d Hp Hb Ho Hd k Hk. specialize (HS k Hk). specialize (Hp k). specialize (Hb k). specialize (Ho k). specialize (Hd k).
    cbn. destruct HS as (H1 & H2 & H3).
    destruct Hp as [->| ->], Hb as [->| ->], Ho as [->| ->], Hd as [->| ->]; repeat split; try congruence;
      intros; try (apply H1; assumption); try (apply H2; assumption); try (apply H3; assumption). }
  assert (T : forall (t : table U) k, get k (drop n t) = get k t \/ get k (drop n t) = None).
  { intros t k. rewrite get_drop. destruct (String.eqb k n); auto. }
  destruct (has n (m_par m)); [intros [= <- <-]; apply W; auto|].
  destruct (has n (m_buf m)); [intros [= <- <-]; apply W; auto|].
  destruct (has n (m_mod m)); [intros [= <- <-]; apply W; auto|].
  destruct (is_prop m n); [intros [= <- <-]; exact HS|].
  destruct (has n (m_dict m)); intros [= <- <-]; [apply W; auto|exact HS].
Qed.

Lemma sound_run os m : sound m -> sound (run m os).
Proof.
  unfold AttrModel.run. revert m. induction os as [|o os IH]; intros m HS; [exact HS|]. cbn. apply IH.
  destruct o as [n v|n]; cbn.
  - destruct (set m n v) as [m' e] eqn:E. eapply set_sound; eauto.
  - destruct (delete m n) as [m' e] eqn:E. eapply delete_sound; eauto.
Qed.

Lemma sound_empty : sound (empty U).
Proof. intros n _. unfold get. cbn. repeat split; congruence. Qed.

(** ** Properties appear only when a BoundedParameter is assigned, and never disappear *)
Lemma register_parameter_prop m n v m' e : register_parameter m n v = (m', e) -> m_prop m' = m_prop m.
Proof.
  unfold AttrModel.register_parameter. destruct (hasattr m n); [|intros [= <- _]; reflexivity].
  destruct (_ && _); intros [= <- _]; reflexivity.
Qed.
Lemma register_buffer_prop m n v m' e : register_buffer m n v = (m', e) -> m_prop m' = m_prop m.
Proof.
  unfold AttrModel.register_buffer. destruct (hasattr m n); [|intros [= <- _]; reflexivity].
  destruct (_ && _); intros [= <- _]; reflexivity.
Qed.
Lemma torch_set_prop m n v m' e : torch_set m n v = (m', e) -> m_prop m' = m_prop m.
Proof.
  unfold AttrModel.torch_set. intros E.
  destruct v; try (apply register_parameter_prop in E; exact E);
    destruct (has n (m_par m)); try (apply register_parameter_prop in E; exact E);
    try (injection E as <- _; reflexivity);
    destruct (has n (m_mod m)); try (injection E as <- _; reflexivity);
    destruct (has n (m_buf m)); try (injection E as <- _; reflexivity);
    destruct (is_prop m n); injection E as <- _; reflexivity.
Qed.
Lemma set_prop m n v m' e : set m n v = (m', e) -> m_prop m' = m_prop m \/ (exists w, v = VBound w) /\ m_prop m' = n :: m_prop m /\ e = None.
Proof.
  destruct v; cbn [AttrModel.set]; try (intros E; left; eapply torch_set_prop; eassumption).
  - destruct (register_buffer m n (VBuffer x)) as [m1 [y|]] eqn:E; intros H.
    + injection H as <- _. left. eapply register_buffer_prop; eauto.
    + left. rewrite (torch_set_prop H). eapply register_buffer_prop; eauto.
  - destruct (register_parameter m (under n) (VBound w)) as [m1 [y|]] eqn:E; intros [= <- <-].
    + left. eapply register_parameter_prop; eauto.
    + right. cbn. rewrite (register_parameter_prop E). eauto.
Qed.
Lemma delete_prop m n m' e : delete m n = (m', e) -> m_prop m' = m_prop m.
Proof.
  unfold delete. repeat match goal with |- context [if ?b then _ else _] => destruct b end; intros [= <- _]; reflexivity.
Qed.
Lemma step_prop m o : m_prop (fst (step m o)) = m_prop m \/ exists n w, o = ASet n (VBound w) /\ m_prop (fst (step m o)) = n :: m_prop m.
Proof.
  destruct o as [n v|n]; cbn.
  - destruct (set m n v) as [m' e] eqn:E. destruct (set_prop E) as [|[[w ->] [? _]]]; cbn; eauto.
  - destruct (delete m n) as [m' e] eqn:E. left. exact (delete_prop E).
Qed.
Lemma run_no_prop os m n : is_prop m n = false -> (forall w, ~ In (ASet n (VBound w)) os) -> is_prop (run m os) n = false.
Proof.
  unfold AttrModel.run. revert m. induction os as [|o os IH]; intros m Hp Hn; [exact Hp|]. cbn. apply IH.
  - destruct (step_prop m o) as [E|(k & w & -> & E)]; unfold is_prop in *; rewrite E; [exact Hp|]. cbn.
    apply orb_false_iff. split; [|exact Hp]. apply String.eqb_neq. intros <-. apply (Hn w). now left.
  - intros w Hin. apply (Hn w). now right.
Qed.

Lemma run_prop os m n : is_prop (run m os) n = true -> is_prop m n = true \/ exists w, In (ASet n (VBound w)) os.
Proof.
  unfold AttrModel.run. revert m. induction os as [|o os IH]; intros m Hp; [now left|]. cbn in Hp.
  destruct (IH _ Hp) as [H|[w H]]; [|right; exists w; now right].
  destruct (step_prop m o) as [E|(k & w & -> & E)]; unfold is_prop in *; rewrite E in H; [now left|].
  cbn in H. apply orb_true_iff in H. destruct H as [H|H]; [|now left].
  apply String.eqb_eq in H. subst k. right. exists w. now left.
Qed.

(** ** Reading other attributes *)
(** Two modules that agree on everything that is read for [k]. *)
Lemma read_frame m m' k : is_prop m' k = is_prop m k ->
  get k (m_dict m') = get k (m_dict m) -> get k (m_par m') = get k (m_par m) ->
  get k (m_buf m') = get k (m_buf m) -> get k (m_mod m') = get k (m_mod m) ->
  (is_prop m k = true -> get (under k) (m_par m') = get (under k) (m_par m)) -> read m' k = read m k.
Proof.
  intros Hp Hd H1 H2 H3 Hu. unfold AttrModel.read, table_read. rewrite Hp, Hd, H1, H2, H3.
  destruct (is_prop m k); [rewrite (Hu eq_refl)|]; reflexivity.
Qed.

Definition is_bound v : bool := match v with VBound _ => true | _ => false end.

(** All tables at a name. *)
Definition same_at (m m' : mdl) (k : string) : Prop :=
  get k (m_par m') = get k (m_par m) /\ get k (m_buf m') = get k (m_buf m)
  /\ get k (m_mod m') = get k (m_mod m) /\ get k (m_dict m') = get k (m_dict m).
Lemma same_refl m k : same_at m m k.
Proof. repeat split. Qed.

Lemma register_parameter_frame m n v m' e k : register_parameter m n v = (m', e) -> k <> n -> same_at m m' k.
Proof.
  unfold AttrModel.register_parameter. intros E Hk. destruct (hasattr m n); [|injection E as <- _; apply same_refl].
  destruct (_ && _); injection E as <- _; [apply same_refl|]. unfold same_at. cbn. rewrite get_put.
  destruct (String.eqb_spec k n); [congruence|auto].
Qed.
Lemma register_buffer_frame m n v m' e k : register_buffer m n v = (m', e) -> k <> n -> same_at m m' k.
Proof.
  unfold AttrModel.register_buffer. intros E Hk. destruct (hasattr m n); [|injection E as <- _; apply same_refl].
  destruct (_ && _); injection E as <- _; [apply same_refl|]. unfold same_at. cbn. rewrite get_put.
  destruct (String.eqb_spec k n); [congruence|auto].
Qed.
Lemma torch_set_frame m n v m' e k : torch_set m n v = (m', e) -> k <> n -> same_at m m' k.
Proof.
  unfold AttrModel.torch_set. intros E Hk.
  assert (W : forall x, register_parameter {| m_par := m_par m; m_buf := drop n (m_buf m); m_mod := drop n (m_mod m);
       m_dict := drop n (m_dict m); m_prop := m_prop m |} n x = (m', e) -> same_at m m' k).
  { intros x Ex. destruct (register_parameter_frame Ex Hk) as (H1 & H2 & H3 & H4). cbn in *.
    rewrite !get_drop in *. destruct (String.eqb_spec k n); [congruence|]. repeat split; assumption. }
  assert (N : String.eqb k n = false) by now apply String.eqb_neq.
  assert (Q : forall p b o d q, (p = m_par m \/ p = drop n (m_par m)) ->
     (b = m_buf m \/ b = drop n (m_buf m) \/ exists x, b = put n x (m_buf m)) ->
     (o = m_mod m \/ exists x, o = put n x (m_mod m)) ->
     (d = m_dict m \/ d = drop n (m_dict m) \/ exists x, d = put n x (m_dict m)) ->
     same_at m {| m_par := p; m_buf := b; m_mod := o; m_dict := d; m_prop := q |} k).
  { intros p b o d q Hp Hb Ho Hd. unfold same_at. cbn. repeat split.
    - destruct Hp as [->| ->]; rewrite ?get_drop, ?N; reflexivity.
    - destruct Hb as [->|[->|[x ->]]]; rewrite ?get_drop, ?get_put, ?N; reflexivity.
    - destruct Ho as [->|[x ->]]; rewrite ?get_put, ?N; reflexivity.
    - destruct Hd as [->|[->|[x ->]]]; rewrite ?get_drop, ?get_put, ?N; reflexivity. }
  destruct v; try (eapply W; eassumption);
    destruct (has n (m_par m)); try (eapply register_parameter_frame; eassumption);
    try (injection E as <- _; first [apply same_refl|apply Q; eauto]; fail);
    destruct (has n (m_mod m)); try (injection E as <- _; first [apply same_refl|apply Q; eauto]; fail);
    destruct (has n (m_buf m)); try (injection E as <- _; first [apply same_refl|apply Q; eauto]; fail);
    destruct (is_prop m n); injection E as <- _; first [apply same_refl|apply Q; eauto].
Qed.

Lemma set_frame m n v m' e k : set m n v = (m', e) -> (if is_bound v then k <> under n else k <> n) -> same_at m m' k.
Proof.
  destruct v; cbn [AttrModel.set is_bound]; try (apply torch_set_frame).
  - destruct (register_buffer m n (VBuffer x)) as [m1 [y|]] eqn:E; intros H Hk.
    + injection H as <- _. eapply register_buffer_frame; eauto.
    + destruct (torch_set_frame H Hk) as (A1 & A2 & A3 & A4). destruct (register_buffer_frame E Hk) as (B1 & B2 & B3 & B4).
      repeat split; congruence.
  - destruct (register_parameter m (under n) (VBound w)) as [m1 [y|]] eqn:E; intros [= <- _] Hk.
    + eapply register_parameter_frame; eauto.
    + exact (register_parameter_frame E Hk).
Qed.
Lemma delete_frame m n m' e k : delete m n = (m', e) -> k <> n -> same_at m m' k.
Proof.
  intros E Hk. assert (N : String.eqb k n = false) by now apply String.eqb_neq. revert E. unfold delete.
  repeat match goal with |- context [if ?b then _ else _] => destruct b end; intros [= <- _]; try apply same_refl;
    unfold same_at; cbn; rewrite get_drop, N; auto.
Qed.

(** ** What was assigned is stored *)
Lemma register_parameter_stored m n v m' : register_parameter m n v = (m', None) -> get n (m_par m') = Some v.
Proof.
  unfold AttrModel.register_parameter. destruct (hasattr m n); [|discriminate]. destruct (_ && _); [discriminate|].
  intros [= <-]. cbn. now rewrite get_put, String.eqb_refl.
Qed.
Lemma bound_read m n w m' : set m n (VBound w) = (m', None) -> read m' n = Ok (VTensor (sig w)).
Proof.
  cbn. destruct (register_parameter m (under n) (VBound w)) as [m1 [y|]] eqn:E; [discriminate|]. intros [= <-].
  apply register_parameter_stored in E. unfold AttrModel.read, is_prop. cbn. rewrite String.eqb_refl. cbn. now rewrite E.
Qed.

(** An unbounded attribute reads the one table that has it. *)
Lemma read_sound m n : sound m -> is_prop m n = false -> cls n = None -> forall v,
  get n (m_par m) = Some v \/ get n (m_buf m) = Some v \/ get n (m_mod m) = Some v \/ get n (m_dict m) = Some v ->
  read m n = Ok v.
Proof.
  intros HS Hp Hc v H. unfold AttrModel.read, table_read. rewrite Hp, Hc. destruct (HS n Hp) as (H1 & H2 & H3).
  destruct H as [H|[H|[H|H]]]; rewrite H in *.
  - destruct H1 as (_ & _ & _ & ->); [congruence|]. reflexivity.
  - destruct H2 as (_ & H4 & ->); [congruence|]. destruct (get n (m_par m)); [|reflexivity].
    destruct H1 as (_ & ? & _); congruence.
  - rewrite H3 by congruence. destruct (get n (m_par m)); [destruct H1 as (_ & _ & ? & _); congruence|].
    destruct (get n (m_buf m)); [destruct H2 as (_ & ? & _); congruence|]. reflexivity.
  - reflexivity.
Qed.

Lemma torch_set_stored m n v m' : is_bound v = false -> torch_set m n v = (m', None) ->
  get n (m_par m') = Some v \/ get n (m_buf m') = Some v \/ get n (m_mod m') = Some v \/ get n (m_dict m') = Some v.
Proof.
  unfold AttrModel.torch_set. intros Hb E. 
  destruct v; try discriminate Hb; try (left; eapply register_parameter_stored; eassumption);
    destruct (has n (m_par m)); try discriminate E; try (left; eapply register_parameter_stored; eassumption);
    try (injection E as <-; cbn; rewrite get_put, String.eqb_refl; auto; fail);
    destruct (has n (m_mod m)); try discriminate E; try (injection E as <-; cbn; rewrite get_put, String.eqb_refl; auto; fail);
    destruct (has n (m_buf m)); try discriminate E; try (injection E as <-; cbn; rewrite get_put, String.eqb_refl; auto; fail);
    destruct (is_prop m n); try discriminate E; injection E as <-; cbn; rewrite get_put, String.eqb_refl; auto.
Qed.

Lemma free_read m n v m' : sound m -> is_prop m n = false -> is_bound v = false -> cls n = None ->
  set m n v = (m', None) -> read m' n = Ok v.
Proof.
  intros HS Hp Hb Hc E. assert (HS' : sound m') by (eapply set_sound; eauto).
  assert (Hp' : is_prop m' n = false).
  { destruct (set_prop E) as [H|[[w ->] _]]; [|discriminate]. unfold is_prop in *. now rewrite H. }
  apply (read_sound HS' Hp' Hc).
  destruct v; try discriminate Hb; cbn [AttrModel.set] in E; try (eapply torch_set_stored; eauto; fail).
  destruct (register_buffer m n (VBuffer x)) as [m1 [y|]]; [discriminate|]. eapply torch_set_stored; eauto.
Qed.
End Attr.
