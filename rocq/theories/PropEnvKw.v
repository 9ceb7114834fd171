(** Properties C104 (old argument names and extra arguments of environments), C105 (copies of
    environments keep everything) and C106 (arguments of set_environment). *)
From Coq Require Import QArith.
From Verif Require Import Base EnvModel EnvKwModel EnvKwProofs.
Set Implicit Arguments.
Unset Strict Implicit.
Local Open Scope string_scope.
Local Open Scope list_scope.
Local Open Scope nat_scope.

(** Names that can not be used for extra arguments: the private attributes. *)
Definition free (n : string) : Prop := is_extra n = true /\ n <> "self" /\ ~ In n ["_grad_manager"; "_synonyms"; "_initialized"].

(** The object [d] is the environment [e] with the attributes [x]. *)
Definition shows (d : dict) (e : environment) (x : string -> option pv) : Prop :=
  (forall p, In p params -> look p d = look p (attributes e)) /\
  (forall o p, In (o, p) olds -> look o d = look p (attributes e)) /\
  forall n, free n -> look n d = x n.

Section Props.
Variable py_str : val -> string.
Notation sort_args := (sort_args py_str).
Notation new_env := (new_env py_str).
Notation copy_env := (copy_env py_str).
Notation set_env := (set_env py_str).

(** * C104 *)
Theorem C104_old_name o p (l1 l2 : dict) v : In (o, p) olds -> NoDup (map fst (l1 ++ (o, v) :: l2)) -> ~ In p (map fst (l1 ++ l2)) ->
  new_env (l1 ++ (o, v) :: l2) = new_env (l1 ++ (p, v) :: l2).
Proof. intros I ND N. apply old_name; auto. now apply look_None. Qed.

(** With both names given, the new one is ignored. *)
Theorem C104_old_wins o p (kw : dict) v v' : In (o, p) olds -> ~ In p (map fst kw) -> In o (map fst kw) ->
  new_env (kw ++ [(p, v)]) = new_env (kw ++ [(p, v')]).
Proof.
  intros I N J. assert (L : forall u, look o (kw ++ [(p, u)]) <> None) by (intros u E; rewrite look_None in E; apply E; rewrite map_app, in_app_iff; auto).
  rewrite (old_wins py_str I (L v)), (old_wins py_str I (L v')), !filter_app. cbn [filter fst]. rewrite String.eqb_refl. reflexivity.
Qed.

Lemma shows_finish e x d : NoDup (map fst x) -> (forall n, In n (map fst x) -> is_extra n = true) -> finish e x = Ok d -> shows d e (fun n => look n x).
Proof.
  intros ND X F. pose proof (finish_look ND F) as L.
  assert (N : forall n, In n params \/ In n (map fst olds) -> look n x = None).
  { intros n H. apply look_None. intros I. apply X in I. apply not_extra in H. congruence. }
  assert (Hd : forall n, In n params \/ In n (map fst olds) -> ~ In n hidden).
  { intros n H J. assert (E : is_extra n = true) by (cbn in J; intuition (subst; reflexivity)). apply not_extra in H. congruence. }
  split; [|split].
  - intros p Ip. rewrite L by auto. rewrite N by auto. reflexivity.
  - intros o p I. assert (Io : In o (map fst olds)) by (apply in_map_iff; exists (o, p); auto). rewrite L by auto. rewrite N by auto. apply attr_old, I.
  - intros n (E & _ & Hn). rewrite L by exact Hn. destruct (look n x); [reflexivity|]. apply look_None. rewrite attr_key. intros H. apply not_extra in H. congruence.
Qed.

(** The object has what the constructor computes from the arguments, under the new and the old names,
    and the extra arguments as they were given. *)
Theorem C104_attributes (kw d : dict) : NoDup (map fst kw) -> unmarked kw -> new_env kw = Ok d ->
  exists k e, sort_args (argument kw) = Ok (class_defaults, k) /\ Environment k = Ok e /\ shows d e (fun n => look n kw).
Proof.
  intros ND U H. destruct (new_inv H) as (_ & (dd & k) & e & H1 & H2 & H3). pose proof (made U H1) as E. cbn [fst snd] in *. subst dd.
  exists k, e. split; [exact H1|]. split; [exact H2|].
  destruct (@shows_finish e (extras kw) d (extras_NoDup ND)) as (S1 & S2 & S3).
  - intros n I. apply in_map_iff in I as ((m & v) & E & I). cbn in E. subst m. apply filter_In in I as [_ I]. exact I.
  - exact H3.
  - split; [exact S1|]. split; [exact S2|]. intros n F. rewrite S3 by exact F. rewrite extras_look. destruct F as (-> & _). reflexivity.
Qed.

(** What counts as a number, and as true. *)
Definition number (v : val) (q : Q) : Prop :=
  v = VNum q \/ (exists z, v = VInt z /\ q = inject_Z z) \/ (v = VBool true /\ q = 1%Q) \/ (v = VBool false /\ q = 0%Q).
Definition falsy (v : val) : Prop :=
  v = VNone \/ v = VBool false \/ v = VInt 0 \/ (exists q, v = VNum q /\ (q == 0)%Q) \/ v = VStr "".
Theorem C104_numbers v q : as_num v = Ok q <-> number v q.
Proof.
  unfold number. split.
  - destruct v as [|[|]|z|q'|s|a|o]; cbn; intros E; try discriminate; injection E as <-; eauto 8.
  - intros [->|[(z & -> & ->)|[[-> ->]|[-> ->]]]]; reflexivity.
Qed.
(** What counts as a number of points: floats do not. *)
Definition count (v : val) (z : Z) : Prop := v = VInt z \/ v = VBool true /\ z = 1%Z \/ v = VBool false /\ z = 0%Z.
Theorem C104_counts v : (forall z, as_int v = Ok z <-> count v z) /\ (forall e, as_int v = Err e <-> e = TypeError /\ forall z, ~ count v z).
Proof.
  unfold count. destruct v as [|[|]|z|q|s|a|o]; cbn; split; intros y; split; intros E;
    solve [discriminate|destruct E as [E|[[E ->]|[E ->]]]; congruence|injection E as <-; auto|destruct E; subst; reflexivity
      |injection E as <-; split; [reflexivity|intros w [H|[[H _]|[H _]]]; discriminate]|destruct E as [-> H]; exfalso; eapply H; eauto].
Qed.
(** What counts as an array of wavelengths or times. *)
Definition array_like (v : val) (a : arr) : Prop := v = VArr a \/ (exists q, v = VNum q /\ a = Scalar q) \/ (exists z, v = VInt z /\ a = Scalar (inject_Z z)).
Theorem C104_arrays v : (forall a, as_arr v = Ok a <-> array_like v a) /\ (forall e, as_arr v = Err e <-> e = TypeError /\ forall a, ~ array_like v a)
  /\ (forall e, as_num v = Err e <-> e = TypeError /\ forall q, ~ number v q).
Proof.
  assert (A : forall a, as_arr v = Ok a <-> array_like v a).
  { intros a. unfold array_like. split.
    - destruct v; cbn; intros E; try discriminate; injection E as <-; eauto.
    - intros [->|[(q & -> & ->)|(z & -> & ->)]]; reflexivity. }
  split; [exact A|]. split; intros e; split.
  - intros E. split; [destruct v; cbn in E; congruence|]. intros a H. apply A in H. congruence.
  - intros [-> H]. destruct (as_arr v) as [a|e'] eqn:E; [exfalso; exact (H a (proj1 (A a) eq_refl))|]. destruct v; cbn in E; congruence.
  - intros E. split; [destruct v as [|[|]|?|?|?|?|?]; cbn in E; congruence|]. intros q H. apply C104_numbers in H. congruence.
  - intros [-> H]. destruct (as_num v) as [q|e'] eqn:E; [exfalso; exact (H q (proj1 (C104_numbers v q) E))|]. destruct v as [|[|]|?|?|?|?|?]; cbn in E; congruence.
Qed.
Theorem C104_flags v : (as_bool v = Ok false <-> falsy v) /\ (as_bool v = Ok true <-> ~ falsy v /\ forall a, v <> VArr a)
  /\ (forall e, as_bool v = Err e <-> e = ValueError /\ exists a, v = VArr a).
Proof.
  assert (F : as_bool v = Ok false <-> falsy v).
  { unfold falsy. split.
    - destruct v as [|b|z|q|s|a|o]; cbn; intros E; try discriminate; try injection E as E; auto.
      + subst b. auto.
      + apply negb_false_iff, Z.eqb_eq in E. subst z. auto.
      + apply negb_false_iff, Qeq_bool_iff in E. eauto 8.
      + apply negb_false_iff, String.eqb_eq in E. subst s. auto 6.
    - intros [->|[->|[->|[(q & -> & Hq)| ->]]]]; try reflexivity. cbn. apply Qeq_bool_iff in Hq. now rewrite Hq. }
  assert (A : forall e, as_bool v = Err e <-> e = ValueError /\ exists a, v = VArr a).
  { intros e. split; [intros E; destruct v; try discriminate E; cbn in E; injection E as <-; eauto|intros [-> [a ->]]; reflexivity]. }
  split; [exact F|]. split; [|exact A]. split.
  - intros E. split; [intros H; apply F in H; congruence|]. intros a ->. discriminate E.
  - intros [N M]. destruct (as_bool v) as [[|]|e] eqn:E; [reflexivity|exfalso; apply N, F; reflexivity|].
    exfalso. destruct (proj1 (A e) eq_refl) as [_ [a X]]. exact (M a X).
Qed.

(** No extra argument can be called like the object itself. *)
Theorem C104_self (kw : dict) : In "self" (map fst kw) -> new_env kw = Err TypeError.
Proof. intros H. unfold EnvKwModel.new_env. replace (mem "self" (map fst kw)) with true; [reflexivity|]. symmetry. apply existsb_exists. exists "self". split; [exact H|reflexivity]. Qed.

(** An extra argument named like the flag for finished objects stops the constructor. *)
Theorem C104_initialized_refuted (kw : dict) v : look "_initialized" kw = Some v -> as_bool (v_val v) = Ok true -> NoDup (map fst kw) -> ~ In "self" (map fst kw) ->
  forall dk e, sort_args (argument kw) = Ok dk -> construct (fst dk) (snd dk) = Ok e -> new_env kw = Err AttributeError.
Proof.
  intros L B ND Nself dk e H1 H2. unfold EnvKwModel.new_env.
  assert (M : mem "self" (map fst kw) = false) by (destruct (mem "self" (map fst kw)) eqn:M; [apply mem_In in M; contradiction|reflexivity]).
  rewrite M, H1. cbn [bind]. rewrite H2. cbn [bind]. unfold finish. rewrite look_update by (now apply extras_NoDup). rewrite extras_look. cbn [is_extra]. rewrite L.
  replace (is_extra "_initialized") with true by reflexivity. rewrite B. reflexivity.
Qed.

(** * C105 *)
(** The value of an extra attribute in a copy: booleans become numbers. *)
Definition same_value (v v' : val) : Prop := v' = v \/ exists b, v = VBool b /\ v' = VInt (if b then 1 else 0).

(** A copy is the environment that [EnvModel.copy] describes, with the arguments given by new or old
    names; extra attributes are those of the original, unless new ones are given. *)
Theorem C105_copy (kw0 d kw : dict) : NoDup (map fst kw0) -> unmarked kw0 -> new_env kw0 = Ok d ->
  NoDup (map fst kw) -> unmarked kw -> no_none kw ->
  forall d', copy_env d kw = Ok d' ->
  exists k0 e k e', sort_args (argument kw0) = Ok (class_defaults, k0) /\ Environment k0 = Ok e /\
    sort_args (argument kw) = Ok (class_defaults, k) /\ copy e k = Ok e' /\
    exists x, shows d' e' x /\ forall n, free n ->
      match look n kw, look n kw0 with
      | Some v, _ => x n = Some v
      | None, Some v => private n = false -> exists v', x n = Some v' /\ same_value (v_val v) (v_val v')
      | None, None => x n = None
      end.
Proof.
  intros ND0 U0 H0 ND U NN d' H. destruct (new_inv H0) as (Ns0 & (dd & k0) & e & H1 & H2 & H3). pose proof (made U0 H1) as E. cbn [fst snd] in *. subst dd.
  exists k0, e.
  assert (X0 : forall n, In n (map fst (extras kw0)) -> is_extra n = true /\ In n (map fst kw0)).
  { intros n I. apply in_map_iff in I as ((m & v) & E & I). cbn in E. subst m. apply filter_In in I as [I J]. split; [exact J|]. apply in_map_iff. exists (n, v). auto. }
  assert (Ns : ~ In "self" (map fst kw)).
  { intros I. apply mem_In in I. unfold EnvKwModel.copy_env in H. rewrite I in H. discriminate. }
  assert (HK : exists dk, sort_args (argument kw) = Ok dk).
  { unfold EnvKwModel.copy_env in H. destruct (mem "self" (map fst kw)); [discriminate|]. apply new_inv in H as (_ & dk & e' & H & _).
    exact (sort_sub ND H). }
  destruct HK as ((dd & k) & HK). pose proof (made U HK) as E. cbn [fst] in E. subst dd.
  rewrite (@copy_made py_str e (extras kw0) d kw (class_defaults, k)) in H; try assumption.
  2: now apply extras_NoDup. 2: intros n I; apply X0, I. 2: intros I; apply X0 in I as [_ I]; contradiction.
  cbn [snd] in H. destruct (copy e k) as [e'|] eqn:HC; [|discriminate]. cbn [bind] in H.
  exists k, e'. split; [exact H1|]. split; [exact H2|]. split; [exact HK|]. split; [exact HC|].
  assert (NDk : NoDup (map fst (kept d kw))).
  { unfold kept. apply extras_NoDup, update_NoDup. rewrite map_map. cbn [recast fst]. apply (filter_fst_NoDup copied). eapply new_NoDup; eassumption. }
  exists (fun n => look n (kept d kw)). split.
  { apply shows_finish; auto. intros n I. apply in_map_iff in I as ((m & v) & E & I). cbn in E. subst m. apply filter_In in I as [_ I]. exact I. }
  intros n F. unfold kept. rewrite extras_look. destruct F as (Fe & Fs & Fh). rewrite Fe. rewrite look_update by exact ND. rewrite look_recast, (look_filter copied).
  rewrite (finish_look (extras_NoDup ND0) H3 Fh). rewrite extras_look, Fe.
  assert (At : look n (attributes e) = None) by (apply look_None; rewrite attr_key; intros I; apply not_extra in I; congruence). rewrite At.
  destruct (look n kw) as [v|]; [reflexivity|]. destruct (look n kw0) as [v|].
  - intros P. unfold copied. rewrite P. unfold is_extra in Fe. apply andb_true_iff in Fe as [Fp Fo]. rewrite Fo. cbn [negb andb].
    eexists. split; [reflexivity|]. unfold recast. cbn [fst snd]. unfold same_value. destruct v as [[] m]; cbn [v_val convert]; auto.
    + left. replace (signature n) with (@None pv); [reflexivity|]. symmetry. apply signature_other. unfold negb in Fp. destruct (mem n params); congruence.
    + right. eauto.
  - destruct (copied n); reflexivity.
Qed.

(** The same with old and new names. *)
Theorem C105_old_name o p (kw0 d l1 l2 : dict) v : new_env kw0 = Ok d -> NoDup (map fst kw0) -> unmarked kw0 -> In (o, p) olds ->
  NoDup (map fst (l1 ++ (o, v) :: l2)) -> ~ In p (map fst (l1 ++ l2)) -> unmarked (l1 ++ (o, v) :: l2) -> no_none (l1 ++ (o, v) :: l2) ->
  forall d1 d2, copy_env d (l1 ++ (o, v) :: l2) = Ok d1 -> copy_env d (l1 ++ (p, v) :: l2) = Ok d2 ->
  forall n, In n params \/ In n (map fst olds) \/ free n -> look n d1 = look n d2.
Proof.
  intros H0 ND0 U0 I ND Np U NN d1 d2 H1 H2.
  assert (ND' : NoDup (map fst (l1 ++ (p, v) :: l2))).
  { rewrite map_app in *. cbn [map fst] in *. apply NoDup_Add with (a := p) (l := map fst l1 ++ map fst l2); [apply Add_app|].
    split; [apply NoDup_remove_1 in ND; exact ND|]. exact Np. }
  assert (U' : unmarked (l1 ++ (p, v) :: l2)).
  { intros n u Iu. apply in_app_or in Iu as [Iu|[[= <- <-]|Iu]]; [apply (U n)|apply (U o)|apply (U n)]; apply in_or_app; cbn; auto. }
  assert (NN' : no_none (l1 ++ (p, v) :: l2)).
  { intros n u Iu. apply in_app_or in Iu as [Iu|[[= <- <-]|Iu]]; [apply (NN n)|apply (NN o)|apply (NN n)]; apply in_or_app; cbn; auto. }
  destruct (@rename o p l1 l2 v I ND (proj2 (look_None p (l1 ++ l2)) Np)) as (HA & HX & _).
  destruct (new_inv H0) as (Ns0 & (dd & k0) & e & E1 & E2 & E3).
  assert (X0 : forall n, In n (map fst (extras kw0)) -> is_extra n = true /\ In n (map fst kw0)).
  { intros n J. apply in_map_iff in J as ((m & u) & E & J). cbn in E. subst m. apply filter_In in J as [J J']. split; [exact J'|]. apply in_map_iff. exists (n, u). auto. }
  assert (G : forall kw d', NoDup (map fst kw) -> unmarked kw -> no_none kw -> copy_env d kw = Ok d' ->
    exists k e', sort_args (argument kw) = Ok (class_defaults, k) /\ copy e k = Ok e' /\ shows d' e' (fun n => look n (kept d kw))).
  { intros kw d' NDk Uk NNk H.
    assert (Ns : ~ In "self" (map fst kw)) by (intros J; apply mem_In in J; unfold EnvKwModel.copy_env in H; rewrite J in H; discriminate).
    assert (HK : exists dk, sort_args (argument kw) = Ok dk).
    { unfold EnvKwModel.copy_env in H. destruct (mem "self" (map fst kw)); [discriminate|]. apply new_inv in H as (_ & dk & e' & H & _). exact (sort_sub NDk H). }
    destruct HK as ((d3 & k) & HK). pose proof (made Uk HK) as E. cbn [fst] in E. subst d3.
    rewrite (@copy_made py_str e (extras kw0) d kw (class_defaults, k)) in H; try assumption.
    2: now apply extras_NoDup. 2: intros n J; apply X0, J. 2: intros J; apply X0 in J as [_ J]; contradiction.
    cbn [snd] in H. destruct (copy e k) as [e'|] eqn:HC; [|discriminate]. cbn [bind] in H. exists k, e'. split; [exact HK|]. split; [exact HC|].
    apply shows_finish; [|intros n J; apply in_map_iff in J as ((m & u) & E & J); cbn in E; subst m; apply filter_In in J as [_ J]; exact J|exact H].
    unfold kept. apply extras_NoDup, update_NoDup. rewrite map_map. cbn [recast fst]. apply (filter_fst_NoDup copied). eapply new_NoDup; eassumption. }
  destruct (G _ _ ND U NN H1) as (ka & ea & A1 & A2 & A3 & A4 & A5). destruct (G _ _ ND' U' NN' H2) as (kb & eb & B1 & B2 & B3 & B4 & B5).
  rewrite (sort_args_ext py_str HA), B1 in A1. injection A1 as <-. rewrite B2 in A2. injection A2 as <-.
  intros n [J|[J|F]].
  - rewrite A3, B3 by exact J. reflexivity.
  - apply in_map_iff in J as ((o' & q) & E & J). cbn in E. subst o'. rewrite (A4 n q J), (B4 n q J). reflexivity.
  - rewrite A5, B5 by exact F. unfold kept. rewrite !extras_look. destruct F as (Fe & _). rewrite Fe. rewrite !look_update by assumption.
    assert (L : look n (l1 ++ (o, v) :: l2) = look n (l1 ++ (p, v) :: l2)).
    { pose proof (f_equal (look n) HX) as E. rewrite !extras_look, Fe in E. exact E. }
    rewrite L. reflexivity.
Qed.

(** * C106 *)
(** One positional environment is copied; more than two are refused. *)
Theorem C106_one (a kw : dict) : set_env [a] None kw = copy_env a kw /\ set_env [] (Some a) kw = copy_env a kw /\ set_env [] None kw = new_env kw.
Proof. auto. Qed.
Theorem C106_refused args env kw : 3 <= length args -> set_env args env kw = Err ValueError.
Proof. intros H. unfold EnvKwModel.set_env. destruct (Nat.ltb_spec 2 (length args)); [reflexivity|lia]. Qed.
(** Two are ignored, although the message says that only one is allowed. *)
Theorem C106_two_refuted (a b kw : dict) : set_env [a; b] None kw = new_env kw.
Proof. reflexivity. Qed.
End Props.
Print Assumptions C104_old_name.
Print Assumptions C104_old_wins.
Print Assumptions C104_attributes.
Print Assumptions C104_counts.
Print Assumptions C104_self.
Print Assumptions C104_arrays.
Print Assumptions C104_initialized_refuted.
Print Assumptions C105_copy.
Print Assumptions C105_old_name.
Print Assumptions C106_one.
Print Assumptions C106_refused.
Print Assumptions C106_two_refuted.

(** ** Environment(timestep=1/2, t_end=2, note=True, _hint=3) *)
Definition num (q : Q) : pv := plain (VNum q).
Definition ekw : dict := [("timestep", num (1 # 2)); ("t_end", num 2); ("note", plain (VBool true)); ("_hint", num 3)].
Notation made_env := (new_env (fun _ => "")).
Notation made_copy := (copy_env (fun _ => "")).
Definition shown (r : res dict) (l : list string) : list (option pv) := match r with Ok d => map (fun n => look n d) l | Err _ => [] end.
Lemma ekw_NoDup : NoDup (map fst ekw). Proof. repeat constructor; cbn; intuition discriminate. Qed.
Lemma ekw_unmarked : unmarked ekw.
Proof. intros n v I. cbn in I. repeat (destruct I as [[= <- <-]|I]; [reflexivity|]). destruct I. Qed.
Lemma made_ok (r : res dict) l : l <> [] -> shown r l <> [] -> exists d, r = Ok d /\ map (fun n => look n d) l = shown r l.
Proof. destruct r; [|intros _ H; contradiction H; reflexivity]. intros _ _. eauto. Qed.

Example C104_example : NoDup (map fst ekw) /\ unmarked ekw /\ exists d, made_env ekw = Ok d
  /\ map (fun n => look n d) ["dt"; "timestep"; "num_t"; "num_timesteps"; "note"; "_hint"]
     = [Some (num (0 + (1 # 2) * 1 - (0 + (1 # 2) * 0))); Some (num (0 + (1 # 2) * 1 - (0 + (1 # 2) * 0)));
        Some (plain (VInt 4)); Some (plain (VInt 4)); Some (plain (VBool true)); Some (num 3)].
Proof.
  split; [apply ekw_NoDup|]. split; [apply ekw_unmarked|].
  destruct (@made_ok (made_env ekw) ["dt"; "timestep"; "num_t"; "num_timesteps"; "note"; "_hint"]) as (d & H & E); [discriminate|vm_compute; discriminate|].
  exists d. split; [exact H|]. rewrite E. vm_compute. reflexivity.
Qed.
Example C104_counts_ex : count (VBool true) 1 /\ (forall z, ~ count (VNum 3) z).
Proof. split; [right; left; split; reflexivity|]. intros z [H|[[H _]|[H _]]]; discriminate. Qed.
Example C104_renamed : In ("timestep", "dt") olds /\ ~ In "dt" (map fst (skipn 1 ekw))
  /\ made_env ekw = made_env (("dt", num (1 # 2)) :: skipn 1 ekw).
Proof.
  split; [cbn; tauto|]. split; [cbn; intuition discriminate|].
  refine (@C104_old_name _ "timestep" "dt" [] (skipn 1 ekw) (num (1 # 2)) _ _ _); [cbn; tauto|exact ekw_NoDup|cbn; intuition discriminate].
Qed.
(** Contradicting values are not noticed. *)
Theorem C104_both_refuted : exists kw d o p v v', In (o, p) olds /\ look o kw = Some v /\ look p kw = Some v' /\ v <> v' /\ made_env kw = Ok d /\ look p d = Some v.
Proof.
  destruct (@made_ok (made_env [("enable_grad", plain (VBool true)); ("grad", plain (VBool false))]) ["grad"]) as (d & H & E); [discriminate|vm_compute; discriminate|].
  exists [("enable_grad", plain (VBool true)); ("grad", plain (VBool false))], d, "enable_grad", "grad", (plain (VBool true)), (plain (VBool false)).
  split; [cbn; tauto|]. split; [reflexivity|]. split; [reflexivity|]. split; [discriminate|]. split; [exact H|].
  assert (V : shown (made_env [("enable_grad", plain (VBool true)); ("grad", plain (VBool false))]) ["grad"] = [Some (plain (VBool true))]) by (vm_compute; reflexivity).
  rewrite V in E. cbn [map] in E. congruence.
Qed.
Print Assumptions C104_both_refuted.

(** Copies lose attributes with an underscore, and the boolean has become a number. *)
Theorem C105_extras_refuted : exists kw d d' , made_env kw = Ok d /\ made_copy d [] = Ok d' /\
  look "_hint" d = Some (num 3) /\ look "_hint" d' = None /\ look "note" d = Some (plain (VBool true)) /\ look "note" d' = Some (marked (VInt 1)).
Proof.
  destruct (@made_ok (made_env ekw) ["_hint"; "note"]) as (d & H & E); [discriminate|vm_compute; discriminate|].
  assert (V : shown (made_env ekw) ["_hint"; "note"] = [Some (num 3); Some (plain (VBool true))]) by (vm_compute; reflexivity).
  assert (V' : shown (do d <- made_env ekw; made_copy d []) ["_hint"; "note"] = [None; Some (marked (VInt 1))]) by (vm_compute; reflexivity).
  rewrite H in V'. cbn [bind] in V'. destruct (@made_ok (made_copy d []) ["_hint"; "note"]) as (d' & H' & E'); [discriminate|rewrite V'; discriminate|].
  exists ekw, d, d'. rewrite V in E. rewrite V' in E'. cbn [map] in E, E'. injection E as E1 E2. injection E' as E3 E4. auto 10.
Qed.
Print Assumptions C105_extras_refuted.
Example C105_example : exists d d', made_env ekw = Ok d /\ unmarked [("num_timesteps", plain (VInt 3)); ("more", num 1)] /\ no_none [("num_timesteps", plain (VInt 3)); ("more", num 1)]
  /\ free "more" /\ free "note" /\ private "note" = false
  /\ made_copy d [("num_timesteps", plain (VInt 3)); ("more", num 1)] = Ok d' /\ map (fun n => look n d') ["num_t"; "more"] = [Some (plain (VInt 3)); Some (num 1)].
Proof.
  destruct (@made_ok (made_env ekw) ["_hint"]) as (d & H & E); [discriminate|vm_compute; discriminate|].
  assert (V' : shown (do d <- made_env ekw; made_copy d [("num_timesteps", plain (VInt 3)); ("more", num 1)]) ["num_t"; "more"] = [Some (plain (VInt 3)); Some (num 1)]) by (vm_compute; reflexivity).
  rewrite H in V'. cbn [bind] in V'. destruct (@made_ok (made_copy d [("num_timesteps", plain (VInt 3)); ("more", num 1)]) ["num_t"; "more"]) as (d' & H' & E'); [discriminate|rewrite V'; discriminate|].
  exists d, d'. split; [exact H|]. split; [intros n v [[= <- <-]|[[= <- <-]|[]]]; reflexivity|]. split; [intros n v [[= <- <-]|[[= <- <-]|[]]]; discriminate|].
  split; [split; [reflexivity|split; [discriminate|cbn; intuition discriminate]]|]. split; [split; [reflexivity|split; [discriminate|cbn; intuition discriminate]]|]. split; [reflexivity|].
  split; [exact H'|]. rewrite E', V'. reflexivity.
Qed.
Example C106_example : exists a, made_env ekw = Ok a /\ set_env (fun _ => "") [a; a] None [] <> made_copy a [].
Proof.
  destruct (@made_ok (made_env ekw) ["num_t"]) as (a & H & E); [discriminate|vm_compute; discriminate|]. exists a. split; [exact H|].
  rewrite C106_two_refuted. intros F.
  assert (V : shown (made_env []) ["num_t"] = [Some (plain (VInt 100))]) by (vm_compute; reflexivity).
  assert (V' : shown (do d <- made_env ekw; made_copy d []) ["num_t"] = [Some (plain (VInt 4))]) by (vm_compute; reflexivity).
  rewrite H in V'. cbn [bind] in V'. rewrite <- F, V in V'. discriminate.
Qed.
