(** Proofs about the keyword arguments of environments. *)
From Coq Require Import QArith.
From Verif Require Import Base EnvModel EnvKwModel.
Set Implicit Arguments.
Unset Strict Implicit.
Local Open Scope string_scope.
Local Open Scope list_scope.
Local Open Scope nat_scope.

(** *** Dictionaries *)
Lemma mem_In s l : mem s l = true <-> In s l.
Proof.
  unfold mem. rewrite existsb_exists. split; [intros (x & I & E); apply String.eqb_eq in E; now subst|intros I; exists s; split; [exact I|apply String.eqb_refl]].
Qed.
Lemma look_nil n : look n [] = None. Proof. reflexivity. Qed.
Lemma look_cons n m v (d : dict) : look n ((m, v) :: d) = if String.eqb n m then Some v else look n d. Proof. reflexivity. Qed.
Lemma look_app n (d d' : dict) : look n (d ++ d') = match look n d with Some v => Some v | None => look n d' end.
Proof. induction d as [|[m v] d IH]; [reflexivity|]. cbn [app]. rewrite !look_cons. destruct (String.eqb n m); [reflexivity|exact IH]. Qed.
Lemma look_None n (d : dict) : look n d = None <-> ~ In n (map fst d).
Proof.
  induction d as [|[m v] d IH]; [cbn; tauto|]. rewrite look_cons. cbn [map fst In]. destruct (String.eqb_spec n m) as [->|N]; [split; [discriminate|tauto]|].
  rewrite IH. split; [intros H [->|I]; tauto|tauto].
Qed.
Lemma look_Some_In n v (d : dict) : look n d = Some v -> In (n, v) d.
Proof.
  induction d as [|[m u] d IH]; [discriminate|]. rewrite look_cons. destruct (String.eqb_spec n m) as [->|N]; [intros [= ->]; now left|right; auto].
Qed.
Lemma look_set n m v (d : dict) : look n (dict_set String.eqb m v d) = if String.eqb n m then Some v else look n d.
Proof.
  induction d as [|[k u] d IH]; cbn [dict_set].
  - rewrite look_cons. reflexivity.
  - destruct (String.eqb_spec m k) as [->|N].
    + rewrite !look_cons. destruct (String.eqb n k); reflexivity.
    + rewrite !look_cons, IH. destruct (String.eqb_spec n k) as [->|N2]; [|reflexivity]. destruct (String.eqb_spec k m); [congruence|reflexivity].
Qed.
Lemma look_update x : forall n d, NoDup (map fst x) -> look n (update d x) = match look n x with Some v => Some v | None => look n d end.
Proof.
  induction x as [|[m v] x IH]; intros n d ND; [reflexivity|]. cbn [map fst] in ND. inversion ND as [|? ? N1 N2]; subst.
  cbn [update fold_left fst snd]. fold (update (dict_set String.eqb m v d) x). rewrite IH by exact N2. rewrite look_set, look_cons.
  destruct (String.eqb_spec n m) as [->|N]; [|reflexivity]. apply look_None in N1. rewrite N1. reflexivity.
Qed.
Lemma look_filter f n (d : dict) : look n (filter (fun e => f (fst e)) d) = if f n then look n d else None.
Proof.
  induction d as [|[m v] d IH]; [destruct (f n); reflexivity|]. cbn [filter fst]. destruct (f m) eqn:E; rewrite ?look_cons, IH;
  destruct (String.eqb_spec n m) as [->|N]; rewrite ?E; try reflexivity.
Qed.
Lemma look_recast n (d : dict) : look n (map recast d) = match look n d with Some v => Some (snd (recast (n, v))) | None => None end.
Proof.
  induction d as [|[m v] d IH]; [reflexivity|]. cbn [map]. unfold recast at 1. cbn [fst]. rewrite !look_cons, IH. destruct (String.eqb_spec n m) as [->|N]; reflexivity.
Qed.
Lemma filter_fst_NoDup f (d : dict) : NoDup (map fst d) -> NoDup (map fst (filter (fun e => f (fst e)) d)).
Proof.
  induction d as [|[m v] d IH]; [intros; exact H|]. cbn [map fst]. intros H. inversion H as [|? ? N1 N2]; subst. cbn [filter fst].
  destruct (f m); [|auto]. cbn [map fst]. constructor; [|auto]. intros I. apply N1. apply in_map_iff in I as ((a & b) & E & I). apply filter_In in I as [I _].
  cbn in E. subst a. apply in_map_iff. exists (m, b). auto.
Qed.
Lemma set_keys m v (d : dict) x : In x (map fst (dict_set String.eqb m v d)) <-> x = m \/ In x (map fst d).
Proof.
  induction d as [|[k u] d IH]; cbn [dict_set map fst In]; [intuition congruence|].
  destruct (String.eqb_spec m k) as [->|N]; cbn [map fst In]; [intuition congruence|]. rewrite IH. intuition congruence.
Qed.
Lemma set_NoDup m v (d : dict) : NoDup (map fst d) -> NoDup (map fst (dict_set String.eqb m v d)).
Proof.
  induction d as [|[k u] d IH]; cbn [dict_set map fst]; intros H; [constructor; [intros []|constructor]|]. inversion H as [|? ? N1 N2]; subst.
  destruct (String.eqb_spec m k) as [->|N]; cbn [map fst]; constructor; auto. rewrite set_keys. intros [->|I]; [congruence|contradiction].
Qed.
Lemma update_NoDup x : forall d, NoDup (map fst d) -> NoDup (map fst (update d x)).
Proof. induction x as [|[m v] x IH]; intros d H; [exact H|]. cbn [update fold_left fst snd]. apply IH. now apply set_NoDup. Qed.
Lemma update_keys x : forall d n, In n (map fst (update d x)) <-> In n (map fst x) \/ In n (map fst d).
Proof.
  induction x as [|[m v] x IH]; intros d n; [cbn; tauto|]. cbn [update fold_left fst snd map In]. fold (update (dict_set String.eqb m v d) x).
  rewrite IH, set_keys. intuition congruence.
Qed.

(** *** The tables of names *)
Lemma old_is (o p : string) : In (o, p) olds -> old_of p = Some o /\ In p params /\ is_extra p = false /\ is_extra o = false
  /\ o <> p /\ mem o params = false /\ o <> "self" /\ p <> "self" /\ private o = false /\ private p = false.
Proof. intros I. repeat (destruct I as [[= <- <-]|I]; [repeat split; (discriminate || reflexivity || (apply mem_In; reflexivity))|]). destruct I. Qed.
Lemma old_assoc o p : In (o, p) olds -> assoc String.eqb o olds = Some p.
Proof. intros I. repeat (destruct I as [[= <- <-]|I]; [reflexivity|]). destruct I. Qed.
Lemma old_of_In p o : old_of p = Some o -> In (o, p) olds.
Proof.
  unfold old_of. destruct (find (fun x => String.eqb (snd x) p) olds) as [[a b]|] eqn:E; [|discriminate]. cbn [fst]. intros [= <-].
  apply find_some in E as [E1 E2]. cbn [snd] in E2. apply String.eqb_eq in E2. now subst.
Qed.
Lemma old_of_inj p q o : old_of p = Some o -> old_of q = Some o -> p = q.
Proof. intros Hp Hq. apply old_of_In, old_assoc in Hp. apply old_of_In, old_assoc in Hq. congruence. Qed.
Lemma param_not_old p o q : In p params -> In (o, q) olds -> p <> o.
Proof. intros I J ->. apply old_is in J as (_ & _ & _ & _ & _ & H & _). apply mem_In in I. congruence. Qed.

(** *** Arguments *)
Section Str.
Variable py_str : val -> string.
Notation sort_args := (sort_args py_str).
Notation new_env := (new_env py_str).
Notation copy_env := (copy_env py_str).
Lemma sort_args_ext a a' : (forall p, In p params -> a p = a' p) -> sort_args a = sort_args a'.
Proof. intros H. unfold EnvKwModel.sort_args. rewrite !H by (apply mem_In; reflexivity). reflexivity. Qed.

Lemma rename o p (l1 l2 : dict) v : In (o, p) olds -> NoDup (map fst (l1 ++ (o, v) :: l2)) -> look p (l1 ++ l2) = None ->
  (forall q, In q params -> argument (l1 ++ (o, v) :: l2) q = argument (l1 ++ (p, v) :: l2) q)
  /\ extras (l1 ++ (o, v) :: l2) = extras (l1 ++ (p, v) :: l2)
  /\ mem "self" (map fst (l1 ++ (o, v) :: l2)) = mem "self" (map fst (l1 ++ (p, v) :: l2)).
Proof.
  intros I ND Np. destruct (old_is I) as (Ho & Ip & Xp & Xo & Nop & Mo & So & Sp & _).
  assert (No : look o (l1 ++ l2) = None).
  { apply look_None. rewrite map_app in *. cbn [map fst] in ND. apply NoDup_remove_2 in ND. exact ND. }
  rewrite look_app in Np, No. destruct (look p l1) eqn:P1; [discriminate|]. destruct (look o l1) eqn:O1; [discriminate|].
  split; [|split].
  - intros q Iq. unfold argument. destruct (String.eqb_spec q p) as [->|N].
    + rewrite Ho. rewrite !look_app, O1, P1, !look_cons, !String.eqb_refl. destruct (String.eqb_spec o p); [congruence|]. rewrite No. reflexivity.
    + assert (L : look q (l1 ++ (o, v) :: l2) = look q (l1 ++ (p, v) :: l2)).
      { rewrite !look_app, !look_cons. destruct (look q l1); [reflexivity|]. destruct (String.eqb_spec q o) as [->|_]; [exfalso; exact (param_not_old Iq I eq_refl)|].
        destruct (String.eqb_spec q p); [congruence|reflexivity]. }
      destruct (old_of q) as [o'|] eqn:Eo; [|exact L].
      assert (L' : look o' (l1 ++ (o, v) :: l2) = look o' (l1 ++ (p, v) :: l2)).
      { rewrite !look_app, !look_cons. destruct (look o' l1); [reflexivity|]. destruct (String.eqb_spec o' o) as [->|_].
        - exfalso. apply N. exact (old_of_inj Eo Ho).
        - destruct (String.eqb_spec o' p) as [->|_]; [|reflexivity]. exfalso. exact (param_not_old Ip (old_of_In Eo) eq_refl). }
      rewrite L, L'. reflexivity.
  - unfold extras. rewrite !filter_app. cbn [filter fst]. rewrite Xp, Xo. reflexivity.
  - rewrite !map_app. cbn [map fst]. unfold mem. rewrite !existsb_app. cbn [existsb].
    destruct (String.eqb_spec "self" o); [congruence|]. destruct (String.eqb_spec "self" p); [congruence|]. reflexivity.
Qed.

Theorem old_name o p (l1 l2 : dict) v : In (o, p) olds -> NoDup (map fst (l1 ++ (o, v) :: l2)) -> look p (l1 ++ l2) = None ->
  new_env (l1 ++ (o, v) :: l2) = new_env (l1 ++ (p, v) :: l2).
Proof.
  intros I ND Np. destruct (@rename o p l1 l2 v I ND Np) as (H1 & H2 & H3). unfold EnvKwModel.new_env. rewrite H3, H2, (sort_args_ext H1). reflexivity.
Qed.

(** The old name wins. *)
Theorem old_wins o p (kw : dict) : In (o, p) olds -> look o kw <> None ->
  new_env kw = new_env (filter (fun e => negb (String.eqb (fst e) p)) kw).
Proof.
  intros I Lo. destruct (old_is I) as (Ho & Ip & Xp & Xo & Nop & Mo & So & Sp & _).
  assert (Lk : forall n, n <> p -> look n (filter (fun e => negb (String.eqb (fst e) p)) kw) = look n kw).
  { intros n N. rewrite (look_filter (fun x => negb (String.eqb x p))). destruct (String.eqb_spec n p); [congruence|reflexivity]. }
  assert (M : mem "self" (map fst kw) = mem "self" (map fst (filter (fun e => negb (String.eqb (fst e) p)) kw))).
  { destruct (mem "self" (map fst kw)) eqn:E; symmetry.
    - apply mem_In. apply mem_In in E. destruct (look "self" kw) eqn:L; [|apply look_None in L; contradiction].
      assert (L' : look "self" (filter (fun e => negb (String.eqb (fst e) p)) kw) = Some p0) by (rewrite Lk; congruence).
      apply look_Some_In in L'. apply in_map_iff. exists ("self", p0). auto.
    - destruct (mem "self" (map fst (filter _ kw))) eqn:F; [|reflexivity]. apply mem_In in F. apply in_map_iff in F as ((a & b) & E' & F). apply filter_In in F as [F _].
      cbn in E'. subst a. assert (In "self" (map fst kw)) by (apply in_map_iff; exists ("self", b); auto). apply mem_In in H. congruence. }
  assert (X : extras kw = extras (filter (fun e => negb (String.eqb (fst e) p)) kw)).
  { unfold extras. clear Lk M Lo. induction kw as [|[m v] kw IH]; [reflexivity|]. cbn [filter fst]. destruct (String.eqb_spec m p) as [->|N]; cbn [negb filter fst].
    - rewrite Xp. exact IH.
    - destruct (is_extra m); [f_equal|]; exact IH. }
  unfold EnvKwModel.new_env. rewrite <- M, <- X. rewrite (@sort_args_ext (argument kw) (argument (filter (fun e => negb (String.eqb (fst e) p)) kw))); [reflexivity|].
  intros q Iq. unfold argument. destruct (String.eqb_spec q p) as [->|N].
  - rewrite Ho, Lk by exact Nop. destruct (look o kw); [reflexivity|congruence].
  - rewrite Lk by exact N. destruct (old_of q) as [o'|] eqn:Eo; [|reflexivity]. rewrite Lk; [reflexivity|]. intros ->. exact (param_not_old Ip (old_of_In Eo) eq_refl).
Qed.

(** *** Attributes *)
Lemma attr_key e n : In n (map fst (attributes e)) <-> In n params \/ In n (map fst olds).
Proof.
  assert (E : map fst (attributes e) = map fst (attributes {| n_name := ""; n_t := []; n_t0 := 0%Q; n_t1 := None; n_num_t := 0; n_dt := None; n_samplerate := None;
    n_bitrate := None; n_bitlength := None; n_wl := []; n_wl0 := 0%Q; n_wl1 := None; n_num_wl := 0; n_dwl := None; n_f := []; n_f0 := 0%Q; n_f1 := None; n_num_f := 0;
    n_df := None; n_c := 0%Q; n_freqdomain := false; n_grad := false |})) by reflexivity.
  rewrite E. clear E. split.
  - intros H. cbn in H. repeat (destruct H as [<-|H]; [(left; apply mem_In; reflexivity) || (right; apply mem_In; reflexivity)|]). destruct H.
  - intros [H|H]; cbn in H; repeat (destruct H as [<-|H]; [apply mem_In; reflexivity|]); destruct H.
Qed.
Lemma attr_old e o p : In (o, p) olds -> look o (attributes e) = look p (attributes e).
Proof. intros I. repeat (destruct I as [[= <- <-]|I]; [reflexivity|]). destruct I. Qed.

Definition hidden : list string := ["_grad_manager"; "_synonyms"; "_initialized"].
Lemma finish_look e (x d : dict) : NoDup (map fst x) -> finish e x = Ok d ->
  forall n, ~ In n hidden -> look n d = match look n x with Some v => Some v | None => look n (attributes e) end.
Proof.
  intros ND H n N. unfold finish in H.
  assert (E : d = update (update (attributes e) x) [("_grad_manager", plain (VObj 0)); ("_synonyms", plain (VObj 1)); ("_initialized", plain (VBool true))]).
  { destruct (look "_initialized" (update (attributes e) x)) as [v|]; [|congruence]. destruct (as_bool (v_val v)) as [[|]|]; cbn [bind] in H; congruence. }
  subst d. rewrite look_update by (repeat constructor; cbn; intuition discriminate). rewrite look_update by exact ND.
  rewrite !look_cons, look_nil. cbn in N.
  destruct (String.eqb_spec n "_grad_manager"); [subst; tauto|]. destruct (String.eqb_spec n "_synonyms"); [subst; tauto|]. destruct (String.eqb_spec n "_initialized"); [subst; tauto|]. reflexivity.
Qed.
Lemma finish_keys e (x d : dict) : finish e x = Ok d -> forall n, In n (map fst d) <-> In n hidden \/ In n (map fst x) \/ In n (map fst (attributes e)).
Proof.
  intros H n. unfold finish in H.
  assert (E : d = update (update (attributes e) x) [("_grad_manager", plain (VObj 0)); ("_synonyms", plain (VObj 1)); ("_initialized", plain (VBool true))]).
  { destruct (look "_initialized" (update (attributes e) x)) as [v|]; [|congruence]. destruct (as_bool (v_val v)) as [[|]|]; cbn [bind] in H; congruence. }
  subst d. rewrite !update_keys. cbn [map fst hidden In]. tauto.
Qed.
Lemma extras_look n (kw : dict) : look n (extras kw) = if is_extra n then look n kw else None.
Proof. apply (look_filter is_extra). Qed.
Lemma extras_NoDup (kw : dict) : NoDup (map fst kw) -> NoDup (map fst (extras kw)).
Proof. apply (filter_fst_NoDup is_extra). Qed.
Lemma not_extra n : is_extra n = false <-> In n params \/ In n (map fst olds).
Proof. unfold is_extra. rewrite <- !mem_In. destruct (mem n params), (mem n (map fst olds)); cbn; intuition discriminate. Qed.
Lemma new_inv (kw d : dict) : new_env kw = Ok d -> ~ In "self" (map fst kw) /\
  exists dk e, sort_args (argument kw) = Ok dk /\ construct (fst dk) (snd dk) = Ok e /\ finish e (extras kw) = Ok d.
Proof.
  unfold EnvKwModel.new_env. destruct (mem "self" (map fst kw)) eqn:M; [discriminate|]. intros H. split; [intros I; apply mem_In in I; congruence|].
  destruct (sort_args (argument kw)) as [dk|] eqn:E; [|discriminate]. cbn [bind] in H. destruct (construct (fst dk) (snd dk)) as [e|] eqn:E'; [|discriminate]. cbn [bind] in H. eauto.
Qed.

(** *** Arguments given by a caller: none is marked *)
Definition unmarked (kw : dict) : Prop := forall n v, In (n, v) kw -> v_mark v = false.
Definition no_none (kw : dict) : Prop := forall n v, In (n, v) kw -> v_val v <> VNone.
Lemma argument_In kw p v : argument kw p = Some v -> exists n, In (n, v) kw.
Proof.
  unfold argument. destruct (old_of p) as [o|]; [destruct (look o kw) eqn:E|]; intros H.
  - injection H as ->. exists o. now apply look_Some_In.
  - exists p. now apply look_Some_In.
  - exists p. now apply look_Some_In.
Qed.
Lemma slot_given {A} (conv : val -> res A) kw p r : unmarked kw -> slot conv (argument kw p) = Ok r -> snd r = None.
Proof.
  intros U. destruct (argument kw p) as [v|] eqn:E; cbn [slot]; [|intros [= <-]; reflexivity]. destruct (argument_In E) as (n & I). rewrite (U n v I).
  destruct (conv (v_val v)); cbn [bind]; [|discriminate]. intros [= <-]. reflexivity.
Qed.
Lemma slot_none_given {A} (conv : val -> res A) kw p r : unmarked kw -> slot_none conv (argument kw p) = Ok r -> snd r = None.
Proof.
  intros U H. assert (D : slot_none conv (argument kw p) = Ok (None, None) \/ slot_none conv (argument kw p) = slot conv (argument kw p)).
  { destruct (argument kw p) as [[[] m]|]; cbn [slot_none]; auto. }
  destruct D as [D|D]; rewrite D in H; [injection H as <-; reflexivity|]. eapply slot_given; eassumption.
Qed.
Ltac chain H := repeat match type of H with bind ?r _ = Ok _ => let E := fresh "E" in destruct r as [?|] eqn:E; [cbn [bind] in H|discriminate H] end.

Theorem made kw dk : unmarked kw -> sort_args (argument kw) = Ok dk -> fst dk = class_defaults.
Proof.
  intros U H. unfold EnvKwModel.sort_args in H. chain H. injection H as <-. cbn [fst].
  repeat match goal with E : slot _ (argument kw _) = Ok _ |- _ => apply (slot_given U) in E; rewrite E; clear E end.
  repeat match goal with E : slot_none _ (argument kw _) = Ok _ |- _ => apply (slot_none_given U) in E; rewrite ?E; clear E end. reflexivity.
Qed.

(** *** Copies *)
Lemma construct_ext d d' k :
  get (k_dt k) (d_dt d) = get (k_dt k) (d_dt d') -> get (k_t0 k) (d_t0 d) = get (k_t0 k) (d_t0 d') -> get (k_t1 k) (d_t1 d) = get (k_t1 k) (d_t1 d') ->
  get (k_t k) (d_t d) = get (k_t k) (d_t d') -> (k_bitrate k = None -> d_bitrate d = d_bitrate d') -> get (k_wl k) (d_wl d) = get (k_wl k) (d_wl d') ->
  get (k_dwl k) (d_dwl d) = get (k_dwl k) (d_dwl d') -> get (k_wl0 k) (d_wl0 d) = get (k_wl0 k) (d_wl0 d') -> get (k_f0 k) (d_f0 d) = get (k_f0 k) (d_f0 d') ->
  get (k_wl1 k) (d_wl1 d) = get (k_wl1 k) (d_wl1 d') -> get (k_f1 k) (d_f1 d) = get (k_f1 k) (d_f1 d') -> get (k_c k) (d_c d) = get (k_c k) (d_c d') ->
  get (k_freqdomain k) (d_freqdomain d) = get (k_freqdomain k) (d_freqdomain d') -> get (k_grad k) (d_grad d) = get (k_grad k) (d_grad d') ->
  get (k_name k) (d_name d) = get (k_name k) (d_name d') -> construct d k = construct d' k.
Proof.
  intros H1 H2 H3 H4 H5 H6 H7 H8 H9 H10 H11 H12 H13 H14 H15.
  assert (EB : bitrate_of d k = bitrate_of d' k) by (unfold bitrate_of; destruct (k_bitlength k); [reflexivity|]; destruct (k_bitrate k); [reflexivity|]; f_equal; auto).
  unfold construct. rewrite EB. unfold checks, time_grid, wl_grid, freq_ends, light. rewrite H1, H2, H3, H4, H6, H7, H8, H9, H10, H11, H12, H13, H14, H15. reflexivity.
Qed.

Lemma argument_copy (d kw : dict) p : NoDup (map fst kw) -> In p params ->
  argument (update (map recast (filter (fun e => copied (fst e)) d)) kw) p =
  match argument kw p with Some v => Some v | None => match look p d with Some v => Some (snd (recast (p, v))) | None => None end end.
Proof.
  intros ND Ip. assert (Lp : look p (map recast (filter (fun e => copied (fst e)) d)) = match look p d with Some v => Some (snd (recast (p, v))) | None => None end).
  { rewrite look_recast, (look_filter copied). assert (C : copied p = true); [|rewrite C; reflexivity].
    cbn in Ip. repeat (destruct Ip as [<-|Ip]; [reflexivity|]). destruct Ip. }
  unfold argument. destruct (old_of p) as [o|] eqn:Eo.
  - rewrite !look_update by exact ND. rewrite Lp. rewrite look_recast, (look_filter copied).
    assert (C : copied o = false) by (apply old_of_In in Eo; unfold copied; assert (M : mem o (map fst olds) = true) by (apply mem_In, in_map_iff; exists (o, p); auto); rewrite M; now rewrite Bool.andb_false_r).
    rewrite C. destruct (look o kw); reflexivity.
  - rewrite look_update by exact ND. rewrite Lp. reflexivity.
Qed.

Lemma slot_copy {A} (conv : val -> res A) kw p m (x : A) r : unmarked kw -> v_mark m = true -> conv (v_val m) = Ok x -> slot conv (argument kw p) = Ok r ->
  slot conv (match argument kw p with Some v => Some v | None => Some m end) = Ok (fst r, match fst r with Some _ => None | None => Some x end).
Proof.
  intros U M C H. destruct (argument kw p) as [v|] eqn:E.
  - destruct (argument_In E) as (n & I). cbn [slot] in *. rewrite (U n v I) in *. destruct (conv (v_val v)) as [a|]; cbn [bind] in *; [|discriminate]. injection H as <-. reflexivity.
  - cbn [slot] in *. injection H as <-. rewrite M, C. reflexivity.
Qed.
Lemma slot_none_copy kw p o r : unmarked kw -> no_none kw -> slot_none as_num (argument kw p) = Ok r ->
  slot_none as_num (match argument kw p with Some v => Some v | None => Some (match o with Some q => marked (VNum q) | None => plain VNone end) end)
  = Ok (fst r, match fst r with Some _ => None | None => o end).
Proof.
  intros U NN H. destruct (argument kw p) as [v|] eqn:E.
  - destruct (argument_In E) as (n & I). pose proof (NN n v I). pose proof (U n v I) as Um. destruct v as [v m]. cbn [v_val v_mark] in *. subst m.
    destruct v; cbn in H |- *; try congruence; try discriminate; injection H as <-; reflexivity.
  - cbn in H. injection H as <-. destruct o; reflexivity.
Qed.

Definition kept (d kw : dict) : dict := extras (update (map recast (filter (fun e => copied (fst e)) d)) kw).

Theorem copy_made e (x d kw : dict) dk : NoDup (map fst x) -> (forall n, In n (map fst x) -> is_extra n = true) -> ~ In "self" (map fst x) -> finish e x = Ok d ->
  NoDup (map fst kw) -> unmarked kw -> no_none kw -> ~ In "self" (map fst kw) -> sort_args (argument kw) = Ok dk ->
  copy_env d kw = do e' <- copy e (snd dk); finish e' (kept d kw).
Proof.
  intros NDx Xx Sx F ND U NN Sk H.
  set (new := update (map recast (filter (fun e => copied (fst e)) d)) kw).
  assert (Ln : forall p, In p params -> look p d = look p (attributes e)).
  { intros p Ip. rewrite (finish_look NDx F).
    - destruct (look p x) eqn:E; [|reflexivity]. assert (X : is_extra p = true) by (apply Xx; apply look_Some_In in E; apply in_map_iff; exists (p, p0); auto).
      assert (is_extra p = false) by (apply not_extra; auto). congruence.
    - intros Hh. cbn in Ip. repeat (destruct Ip as [<-|Ip]; [cbn in Hh; intuition discriminate|]). destruct Ip. }
  assert (HA : forall p, In p params -> argument new p = match argument kw p with Some v => Some v | None => match look p (attributes e) with Some v => Some (snd (recast (p, v))) | None => None end end).
  { intros p Ip. unfold new. rewrite argument_copy by assumption. rewrite Ln by exact Ip. reflexivity. }
  assert (HS : exists dd, sort_args (argument new) = Ok (dd, snd dk) /\ construct dd (snd dk) = copy e (snd dk)).
  { unfold EnvKwModel.sort_args in H. chain H. injection H as <-. cbn [snd].
    assert (one : forall A (conv : val -> res A) p v r (y : A), slot conv (argument kw p) = Ok r -> In p params -> look p (attributes e) = Some v ->
      v_mark (snd (recast (p, v))) = true -> conv (v_val (snd (recast (p, v)))) = Ok y ->
      slot conv (argument new p) = Ok (fst r, match fst r with Some _ => None | None => Some y end)).
    { intros A conv p v r y Hs Ip L M C. rewrite HA by exact Ip. rewrite L. apply slot_copy; assumption. }
    assert (two : forall p r o, slot_none as_num (argument kw p) = Ok r -> In p params -> look p (attributes e) = Some (plain (opt_num o)) -> signature p = Some (plain VNone) ->
      slot_none as_num (argument new p) = Ok (fst r, match fst r with Some _ => None | None => o end)).
    { intros p r o Hs Ip L Sg. rewrite HA by exact Ip. rewrite L.
      replace (snd (recast (p, plain (opt_num o)))) with (match o with Some q => marked (VNum q) | None => plain VNone end).
      - apply slot_none_copy; assumption.
      - destruct o; cbn [recast snd fst plain v_val opt_num]; [reflexivity|]. rewrite Sg. reflexivity. }
    match goal with E : slot ?c (argument kw "dt") = Ok ?r |- _ => eapply (@one _ c "dt" _ r (get (n_dt e) (d_dt class_defaults))) in E; [|apply mem_In; reflexivity|reflexivity|repeat (reflexivity || match goal with |- context [opt_num ?o] => destruct o | |- context [VBool ?b] => destruct b end)..] end.
    match goal with E : slot ?c (argument kw "samplerate") = Ok ?r |- _ => eapply (@one _ c "samplerate" _ r (get (n_samplerate e) (inject_Z 0))) in E; [|apply mem_In; reflexivity|reflexivity|repeat (reflexivity || match goal with |- context [opt_num ?o] => destruct o | |- context [VBool ?b] => destruct b end)..] end.
    match goal with E : slot ?c (argument kw "num_t") = Ok ?r |- _ => eapply (@one _ c "num_t" _ r (Z.of_nat (n_num_t e))) in E; [|apply mem_In; reflexivity|reflexivity|repeat (reflexivity || match goal with |- context [opt_num ?o] => destruct o | |- context [VBool ?b] => destruct b end)..] end.
    match goal with E : slot ?c (argument kw "t0") = Ok ?r |- _ => eapply (@one _ c "t0" _ r (n_t0 e)) in E; [|apply mem_In; reflexivity|reflexivity|repeat (reflexivity || match goal with |- context [opt_num ?o] => destruct o | |- context [VBool ?b] => destruct b end)..] end.
    match goal with E : slot ?c (argument kw "t1") = Ok ?r |- _ => eapply (@one _ c "t1" _ r (get (n_t1 e) (d_t1 class_defaults))) in E; [|apply mem_In; reflexivity|reflexivity|repeat (reflexivity || match goal with |- context [opt_num ?o] => destruct o | |- context [VBool ?b] => destruct b end)..] end.
    match goal with E : slot ?c (argument kw "t") = Ok ?r |- _ => eapply (@one _ c "t" _ r (Vec (n_t e))) in E; [|apply mem_In; reflexivity|reflexivity|repeat (reflexivity || match goal with |- context [opt_num ?o] => destruct o | |- context [VBool ?b] => destruct b end)..] end.
    match goal with E : slot ?c (argument kw "wl") = Ok ?r |- _ => eapply (@one _ c "wl" _ r (Vec (n_wl e))) in E; [|apply mem_In; reflexivity|reflexivity|repeat (reflexivity || match goal with |- context [opt_num ?o] => destruct o | |- context [VBool ?b] => destruct b end)..] end.
    match goal with E : slot ?c (argument kw "f") = Ok ?r |- _ => eapply (@one _ c "f" _ r (Vec (n_f e))) in E; [|apply mem_In; reflexivity|reflexivity|repeat (reflexivity || match goal with |- context [opt_num ?o] => destruct o | |- context [VBool ?b] => destruct b end)..] end.
    match goal with E : slot ?c (argument kw "dwl") = Ok ?r |- _ => eapply (@one _ c "dwl" _ r (get (n_dwl e) (d_dwl class_defaults))) in E; [|apply mem_In; reflexivity|reflexivity|repeat (reflexivity || match goal with |- context [opt_num ?o] => destruct o | |- context [VBool ?b] => destruct b end)..] end.
    match goal with E : slot ?c (argument kw "df") = Ok ?r |- _ => eapply (@one _ c "df" _ r (get (n_df e) (inject_Z 0))) in E; [|apply mem_In; reflexivity|reflexivity|repeat (reflexivity || match goal with |- context [opt_num ?o] => destruct o | |- context [VBool ?b] => destruct b end)..] end.
    match goal with E : slot ?c (argument kw "num_wl") = Ok ?r |- _ => eapply (@one _ c "num_wl" _ r (Z.of_nat (n_num_wl e))) in E; [|apply mem_In; reflexivity|reflexivity|repeat (reflexivity || match goal with |- context [opt_num ?o] => destruct o | |- context [VBool ?b] => destruct b end)..] end.
    match goal with E : slot ?c (argument kw "num_f") = Ok ?r |- _ => eapply (@one _ c "num_f" _ r (Z.of_nat (n_num_f e))) in E; [|apply mem_In; reflexivity|reflexivity|repeat (reflexivity || match goal with |- context [opt_num ?o] => destruct o | |- context [VBool ?b] => destruct b end)..] end.
    match goal with E : slot ?c (argument kw "wl0") = Ok ?r |- _ => eapply (@one _ c "wl0" _ r (n_wl0 e)) in E; [|apply mem_In; reflexivity|reflexivity|repeat (reflexivity || match goal with |- context [opt_num ?o] => destruct o | |- context [VBool ?b] => destruct b end)..] end.
    match goal with E : slot ?c (argument kw "f0") = Ok ?r |- _ => eapply (@one _ c "f0" _ r (n_f0 e)) in E; [|apply mem_In; reflexivity|reflexivity|repeat (reflexivity || match goal with |- context [opt_num ?o] => destruct o | |- context [VBool ?b] => destruct b end)..] end.
    match goal with E : slot ?c (argument kw "wl1") = Ok ?r |- _ => eapply (@one _ c "wl1" _ r (get (n_wl1 e) (d_wl1 class_defaults))) in E; [|apply mem_In; reflexivity|reflexivity|repeat (reflexivity || match goal with |- context [opt_num ?o] => destruct o | |- context [VBool ?b] => destruct b end)..] end.
    match goal with E : slot ?c (argument kw "f1") = Ok ?r |- _ => eapply (@one _ c "f1" _ r (get (n_f1 e) (d_f1 class_defaults))) in E; [|apply mem_In; reflexivity|reflexivity|repeat (reflexivity || match goal with |- context [opt_num ?o] => destruct o | |- context [VBool ?b] => destruct b end)..] end.
    match goal with E : slot ?c (argument kw "c") = Ok ?r |- _ => eapply (@one _ c "c" _ r (n_c e)) in E; [|apply mem_In; reflexivity|reflexivity|repeat (reflexivity || match goal with |- context [opt_num ?o] => destruct o | |- context [VBool ?b] => destruct b end)..] end.
    match goal with E : slot ?c (argument kw "freqdomain") = Ok ?r |- _ => eapply (@one _ c "freqdomain" _ r (n_freqdomain e)) in E; [|apply mem_In; reflexivity|reflexivity|repeat (reflexivity || match goal with |- context [opt_num ?o] => destruct o | |- context [VBool ?b] => destruct b end)..] end.
    match goal with E : slot ?c (argument kw "grad") = Ok ?r |- _ => eapply (@one _ c "grad" _ r (n_grad e)) in E; [|apply mem_In; reflexivity|reflexivity|repeat (reflexivity || match goal with |- context [opt_num ?o] => destruct o | |- context [VBool ?b] => destruct b end)..] end.
    match goal with E : slot ?c (argument kw "name") = Ok ?r |- _ => eapply (@one _ c "name" _ r (n_name e)) in E; [|apply mem_In; reflexivity|reflexivity|repeat (reflexivity || match goal with |- context [opt_num ?o] => destruct o | |- context [VBool ?b] => destruct b end)..] end.
    match goal with E : slot_none _ (argument kw "bitrate") = Ok ?r |- _ => apply (@two "bitrate" r (n_bitrate e)) in E; [|apply mem_In; reflexivity|reflexivity|reflexivity] end.
    match goal with E : slot_none _ (argument kw "bitlength") = Ok ?r |- _ => apply (@two "bitlength" r (n_bitlength e)) in E; [|apply mem_In; reflexivity|reflexivity|reflexivity] end.
    unfold EnvKwModel.sort_args.
    repeat match goal with E : _ = Ok (fst _, _) |- _ => rewrite E; cbn [bind]; clear E end.
    eexists. split; [reflexivity|]. unfold copy. cbn [fst snd]. clear - e.
    apply construct_ext; cbn [k_dt k_t0 k_t1 k_t k_bitrate k_wl k_dwl k_wl0 k_f0 k_wl1 k_f1 k_c k_freqdomain k_grad k_name
      d_dt d_t0 d_t1 d_t d_bitrate d_wl d_dwl d_wl0 d_f0 d_wl1 d_f1 d_c d_freqdomain d_grad d_name as_defaults];
      try (match goal with |- get (fst ?r) _ = _ => destruct (fst r); reflexivity end).
    match goal with |- fst ?r = None -> _ => intros ->; reflexivity end. }
  destruct HS as (dd & HS & HC). unfold EnvKwModel.copy_env.
  assert (M1 : mem "self" (map fst kw) = false) by (destruct (mem "self" (map fst kw)) eqn:M; [apply mem_In in M; contradiction|reflexivity]). rewrite M1.
  unfold EnvKwModel.new_env. fold new.
  assert (M2 : mem "self" (map fst new) = false).
  { destruct (mem "self" (map fst new)) eqn:M; [|reflexivity]. apply mem_In in M. unfold new in M. apply update_keys in M as [M|M]; [contradiction|].
    apply in_map_iff in M as ((n & v) & En & M). cbn in En. subst n. apply in_map_iff in M as ((n & v') & En & M). injection En as En _. subst n. apply filter_In in M as [M _].
    assert (K : In "self" (map fst d)) by (apply in_map_iff; exists ("self", v'); auto). apply (finish_keys F) in K as [K|[K|K]]; [cbn in K; intuition discriminate|contradiction|].
    apply attr_key in K. cbn in K. intuition discriminate. }
  rewrite M2, HS. cbn [bind fst snd]. rewrite HC. reflexivity.
Qed.

Lemma sort_fewer a a' dk : (forall p, In p params -> a p = None \/ a p = a' p) -> sort_args a' = Ok dk -> exists dk', sort_args a = Ok dk'.
Proof.
  intros H E. assert (one : forall A (conv : val -> res A) p r, In p params -> slot conv (a' p) = Ok r -> exists r', slot conv (a p) = Ok r').
  { intros A conv p r Ip Hs. destruct (H p Ip) as [->| ->]; [eexists; reflexivity|eauto]. }
  assert (two : forall p r, In p params -> slot_none as_num (a' p) = Ok r -> exists r', slot_none as_num (a p) = Ok r').
  { intros p r Ip Hs. destruct (H p Ip) as [->| ->]; [eexists; reflexivity|eauto]. }
  unfold EnvKwModel.sort_args in E. chain E. clear E.
  repeat match goal with X : slot _ (a' ?p) = Ok _ |- _ => apply one in X as (? & X); [|apply mem_In; reflexivity] end.
  repeat match goal with X : slot_none _ (a' ?p) = Ok _ |- _ => apply two in X as (? & X); [|apply mem_In; reflexivity] end.
  unfold EnvKwModel.sort_args. repeat match goal with X : _ = Ok _ |- _ => rewrite X; cbn [bind]; clear X end. eauto.
Qed.
Lemma sort_sub (d kw : dict) dk : NoDup (map fst kw) -> sort_args (argument (update (map recast (filter (fun e => copied (fst e)) d)) kw)) = Ok dk ->
  exists dk', sort_args (argument kw) = Ok dk'.
Proof.
  intros ND. apply sort_fewer. intros p Ip. rewrite argument_copy by assumption. destruct (argument kw p); auto.
Qed.
Lemma finish_NoDup e (x d : dict) : finish e x = Ok d -> NoDup (map fst d).
Proof.
  intros H. unfold finish in H.
  assert (E : d = update (update (attributes e) x) [("_grad_manager", plain (VObj 0)); ("_synonyms", plain (VObj 1)); ("_initialized", plain (VBool true))]).
  { destruct (look "_initialized" (update (attributes e) x)) as [v|]; [|congruence]. destruct (as_bool (v_val v)) as [[|]|]; cbn [bind] in H; congruence. }
  subst d. do 2 apply update_NoDup. cbn [attributes map fst].
  repeat (constructor; [cbn [In]; intros I; repeat (destruct I as [I|I]; [discriminate I|]); exact I|]). constructor.
Qed.
Lemma new_NoDup (kw d : dict) : new_env kw = Ok d -> NoDup (map fst d).
Proof. intros H. destruct (new_inv H) as (_ & dk & e & _ & _ & F). eapply finish_NoDup, F. Qed.
End Str.
Lemma signature_other n : mem n params = false -> signature n = None.
Proof.
  intros H. unfold signature. cbn [assoc].
  repeat match goal with |- context [String.eqb n ?s] => destruct (String.eqb_spec n s); [subst; discriminate H|] end. reflexivity.
Qed.
