(** Programs that build networks from shared objects (C85-C89). *)
From Verif Require Import Base PyStr NetModel NetSpec NetProofs NetBuild PropNet ObjModel ObjSpec ObjProofs ObjTree ObjNames.
Set Implicit Arguments.
Unset Strict Implicit.
Local Open Scope string_scope.
Local Open Scope list_scope.
Local Open Scope nat_scope.

Section Prop_.
Variables (X D : Type) (x0 : X) (d0 : D).
Variable reserved : string -> bool.
Variable limit : nat.
Notation state := (state X D).
Notation stmt := (stmt X D).
Notation run := (@run X D x0 d0 reserved limit).
Notation step := (@step X D x0 d0 reserved limit).
Notation terminate := (@terminate X D x0 d0 reserved limit).

(** The states a program can reach. *)
Definition reachable (s : state) : Prop := exists ps, run (start X D) ps = Ok s.
(** Statement [p] calls [link] of network [l]. *)
Definition links (s : state) (p : stmt) (l : nat) : Prop :=
  (exists ports, p = SLink l ports) \/ (exists ports r, p = SCurLink ports /\ st_stack s = l :: r).
(** Whenever the program calls [link], the network is neither part of another nor shares its lists with a copy. *)
Definition disciplined (ps : list stmt) : Prop := forall pre p post s l, ps = pre ++ p :: post -> run (start X D) pre = Ok s ->
  links s p l -> ~ in_use s l /\ forall k, twins s l k -> k = l.

Lemma reachable_good s : reachable s -> good s.
Proof. intros [ps H]. eapply run_good; [apply good_start|exact H]. Qed.
Lemma target_links (s : state) p l : target s p = Some l -> links s p l.
Proof.
  destruct p; cbn [target]; try discriminate; intros H.
  - injection H as ->. left. eauto.
  - right. destruct (st_stack s) as [|q r]; [discriminate|]. injection H as ->. eauto.
Qed.
Lemma links_target (s : state) p l : links s p l -> target s p = Some l.
Proof. intros [[ports ->]|(ports & r & -> & E)]; cbn [target]; [reflexivity|]. now rewrite E. Qed.
Lemma sh_net (o : obj X D) i : sh_of o = Some i -> exists n c cs f, o = ONet n c cs f i.
Proof. destruct o as [|n c cs f sh]; [discriminate|]. intros H. injection H as ->. eauto. Qed.
Lemma loose_of (s : state) l : good s -> ~ in_use s l -> (forall k, twins s l k -> k = l) -> loose s l.
Proof.
  intros G Hu Ht o sh E Hs. destruct (sh_net Hs) as (n & c & cs & f & ->). split.
  - intros q n1 c1 cs1 f1 sh1 Eq k t o1 Hin Ho Q. destruct (sh_net Q) as (n2 & c2 & cs2 & f2 & ->). apply Hu. exists k, t. split.
    + do 8 eexists. exists sh. split; [exact E|exact Ho].
    + exists q, cs1, (sh_conns (get_sh s sh1)). split; [|exact Hin]. exists n1, c1, f1, sh1, (get_sh s sh1). split; [exact Eq|]. split; [|reflexivity].
      apply nth_error_nth'. eapply (proj1 G); [exact Eq|reflexivity].
  - intros k o' Ek Q. destruct (sh_net Q) as (n2 & c2 & cs2 & f2 & ->). apply Ht. do 8 eexists. exists sh. split; [exact E|exact Ek].
Qed.
Lemma run_app ps qs s : run s (ps ++ qs) = (do s1 <- run s ps; run s1 qs).
Proof. revert s. unfold ObjModel.run. induction ps as [|p ps IH]; intros s; [reflexivity|]. cbn [app foldM]. destruct (step s p) as [s1|]; [apply IH|reflexivity]. Qed.
Lemma run_cons p ps s : run s (p :: ps) = (do s1 <- step s p; run s1 ps).
Proof. reflexivity. Qed.
Lemma careful_of ps : disciplined ps -> careful x0 d0 reserved limit (start X D) ps.
Proof.
  intros Hd. assert (H : forall rest pre s, ps = pre ++ rest -> run (start X D) pre = Ok s -> careful x0 d0 reserved limit s rest); [|exact (H ps [] _ eq_refl eq_refl)].
  induction rest as [|p rest IH]; intros pre s E Hr; [exact I|]. split.
  - intros l Hl. destruct (Hd pre p rest s l E Hr (target_links Hl)) as [H1 H2]. apply loose_of; [eapply reachable_good; exists pre; exact Hr|exact H1|exact H2].
  - intros s' Hs. apply (IH (pre ++ [p])); [now rewrite <- app_assoc|]. rewrite run_app, Hr. cbn [bind]. rewrite run_cons, Hs. reflexivity.
Qed.

(** C85: in a disciplined program every object has the buffers of the circuit it stands for. *)
Theorem C85_disciplined ps s l b : disciplined ps -> run (start X D) ps = Ok s -> stored s l = Ok b ->
  exists t, unfolds s l t /\ (forall t', unfolds s l t' -> t' = t) /\ compile x0 d0 t = Ok b.
Proof.
  intros Hd Hr Hb. pose proof (run_good (good_start X D) Hr) as G. pose proof (run_agree (good_start X D) (@agree_start X D x0 d0 limit) (careful_of Hd) Hr) as A.
  destruct (stored_unfolds G A Hb) as (t & Ht & Hc). exists t. split; [exact Ht|]. split; [|exact Hc]. intros t' H'. exact (unfolds_fun H' Ht).
Qed.

(** C87: apart from names and objects yet to be created, a program changes a network's components,
    connections and buffers only by calling [link] of that network or of a copy of it. *)
Definition net_state (s : state) (l : nat) (cs : list (string * nat)) (conns : list string) (b : option (buf X D)) : Prop :=
  exists n c f i x, object s l (ONet n c cs f i) /\ nth_error (st_sh s) i = Some x /\ sh_conns x = conns /\ sh_buf x = b.
Lemma net_state_get s l cs conns b : good s -> net_state s l cs conns b <-> exists n c f i, nth_error (st_objs s) l = Some (ONet n c cs f i)
  /\ sh_conns (get_sh s i) = conns /\ sh_buf (get_sh s i) = b.
Proof.
  intros G. split.
  - intros (n & c & f & i & x & O & Hx & H1 & H2). exists n, c, f, i. unfold get_sh. rewrite (nth_error_nth _ _ _ Hx). auto.
  - intros (n & c & f & i & O & H1 & H2). exists n, c, f, i, (get_sh s i). split; [exact O|]. split; [|auto]. apply nth_error_nth'. eapply (proj1 G); [exact O|reflexivity].
Qed.
Theorem C87_step s p s' l cs conns b : reachable s -> step s p = Ok s' -> (forall k, links s p k -> ~ twins s k l) ->
  net_state s l cs conns b -> net_state s' l cs conns b.
Proof.
  intros R H Hl Hn. pose proof (reachable_good R) as G. destruct (step_ok G H) as (G' & F & _). apply (net_state_get _ _ _ _ G) in Hn as (n & c & f & i & O & H1 & H2).
  assert (Ht : Some l <> target s p /\ Some i <> target_sh s p).
  { unfold target_sh. destruct (target s p) as [k|] eqn:Et; [|split; discriminate]. pose proof (Hl k (target_links Et)) as Hk. split.
    - intros Q. injection Q as <-. apply Hk. do 8 eexists. exists i. split; exact O.
    - destruct (nth_error (st_objs s) k) as [o|] eqn:Eo; [|discriminate]. intros Q. symmetry in Q. destruct (sh_net Q) as (n2 & c2 & cs2 & f2 & ->). apply Hk. do 8 eexists. exists i. split; [exact Eo|exact O]. }
  destruct Ht as [T1 T2]. destruct (fr_obj F O) as (o' & O' & Hs & _ & [K|K]); [|contradiction]. destruct o' as [|n' c' cs' f' i']; [discriminate|]. cbn in K. injection K as -> -> -> ->.
  apply (net_state_get _ _ _ _ G'). exists n', c, f, i. split; [exact O'|]. destruct (fr_sh F (i := i)) as [-> ->]; [eapply (proj1 G); [exact O|reflexivity]|exact T2|]. auto.
Qed.
(** Whether a program links the network with the lists numbered [i]. *)
Lemma twins_step s p s' k l : reachable s -> step s p = Ok s' -> (exists o, object s k o) -> (exists o, object s l o) -> twins s' k l -> twins s k l.
Proof.
  intros R H [ok Hk] [ol Hl] (n & c & cs & f & n' & c' & cs' & f' & i & K & L). pose proof (reachable_good R) as G. destruct (step_ok G H) as (_ & F & _).
  destruct (fr_obj F Hk) as (o1 & O1 & S1 & _). destruct (fr_obj F Hl) as (o2 & O2 & S2 & _). unfold object in *. rewrite K in O1. injection O1 as <-. rewrite L in O2. injection O2 as <-.
  symmetry in S1, S2. destruct (sh_net S1) as (? & ? & ? & ? & ->). destruct (sh_net S2) as (? & ? & ? & ? & ->). do 8 eexists. exists i. split; eassumption.
Qed.
Lemma reachable_step s p s' : reachable s -> step s p = Ok s' -> reachable s'.
Proof. intros [ps H] Hs. exists (ps ++ [p]). rewrite run_app, H. cbn [bind]. rewrite run_cons, Hs. reflexivity. Qed.
Theorem C87_only_link ps : forall s s' l cs conns b, reachable s -> run s ps = Ok s' ->
  (forall pre p post s1 k, ps = pre ++ p :: post -> run s pre = Ok s1 -> links s1 p k -> ~ twins s1 k l) ->
  net_state s l cs conns b -> net_state s' l cs conns b.
Proof.
  induction ps as [|p r IH]; intros s s' l cs conns b R H Hl Hn; [injection H as <-; exact Hn|]. rewrite run_cons in H. destruct (step s p) as [s1|] eqn:E; [|discriminate]. cbn [bind] in H.
  apply (IH s1 s' l cs conns b (reachable_step R E) H).
  - intros pre q post s2 k E2 H2. apply (Hl (p :: pre) q post s2 k); [now rewrite E2|]. rewrite run_cons, E. exact H2.
  - eapply C87_step; [exact R|exact E| |exact Hn]. intros k. apply (Hl [] p r s k eq_refl eq_refl).
Qed.

(** Buffers are only made if every link leads to a port there is. *)
Theorem C87_in_range (re st : list (string * buf X D)) conns b conn i j : ObjModel.filled x0 d0 re st conns = Ok b -> In conn conns ->
  wire_of re st conn = Ok (Some (i, j)) -> i < b_np b /\ j < b_np b.
Proof.
  unfold ObjModel.filled. destruct (ordering re st conns) as [o|]; [|discriminate]. cbn [bind]. destruct (wiring re st conns) as [W|] eqn:E; [|discriminate]. cbn [bind].
  intros H I Hw. injection H as <-. cbn [b_np]. unfold wiring in E. revert E. generalize (block_mat (@b_C X D) false re) as M. induction conns as [|k r IH]; [contradiction|].
  intros M E. cbn [foldM] in E. destruct I as [->|I].
  - rewrite Hw in E. cbn [bind] in E. destruct ((i <? total_ports re) && (j <? total_ports re)) eqn:L; [|discriminate].
    apply andb_true_iff in L as [L1 L2]. apply Nat.ltb_lt in L1, L2. split; assumption.
  - destruct (do o <- wire_of re st k; match o with None => Ok M | Some (i, j) => if (i <? total_ports re) && (j <? total_ports re) then Ok (connect M i j) else Err IndexError end) as [M'|];
      cbn [bind] in E; [|discriminate]. exact (IH I M' E).
Qed.
(** C86: terminating a network leaves every network that exists as it is, and gives a network whose
    [unterminate] is the original object. *)
Lemma assoc_dict_set V (k : string) (v : V) d : assoc String.eqb k (dict_set String.eqb k v d) = Some v.
Proof.
  induction d as [|[k' v'] d IH]; cbn; [now rewrite String.eqb_refl|]. destruct (String.eqb_spec k k') as [->|N]; cbn; [now rewrite String.eqb_refl|].
  destruct (String.eqb_spec k k'); [contradiction|exact IH].
Qed.
Lemma reachable_stacked s : reachable s -> stacked s.
Proof. intros [ps H]. eapply stacked_run; [apply good_start|apply stacked_start|exact H]. Qed.
Theorem C86_unterminate s l arg ts s' nw : reachable s -> terminate s l arg ts = Ok (s', nw) -> unterminate s' nw = Ok l
  /\ length (st_objs s) <= nw /\ (forall k cs conns b, net_state s k cs conns b -> net_state s' k cs conns b).
Proof.
  intros R H. pose proof (reachable_good R) as G.
  destruct (terminate_inv G (reachable_stacked R) H) as (own & cls & cs & f & sh & s3 & i & E & _ & G3 & C3 & Hlen & _ & _ & _ & Ha). split; [|split; [exact Hlen|]].
  - apply add_comp_inv in Ha as (n & cl & cs1 & f1 & sh1 & o & En & _ & _ & _ & _ & ->). unfold unterminate.
    assert (En' : nth_error (st_objs (put_sh s3 sh1 {| sh_mods := dict_set String.eqb "base" l (sh_mods (get_sh s3 sh1)); sh_conns := sh_conns (get_sh s3 sh1); sh_buf := sh_buf (get_sh s3 sh1) |})) nw = Some (ONet n cl cs1 f1 sh1)) by exact En.
    rewrite (proj2 (get_net_inv _ _ _ _ _ _ _) En'). cbn [bind]. rewrite get_sh_put by (eapply (proj1 G3); [exact En|reflexivity]). cbn [sh_mods]. now rewrite assoc_dict_set.
  - intros k cs1 conns b. apply (@C87_step s (STerm l arg ts) s'); [exact R|cbn [ObjModel.step]; rewrite H; reflexivity|].
    intros q [[ports Q]|(ports & r & Q & _)]; discriminate Q.
Qed.
(** Without [terminate] there is nothing to return to. *)
Theorem C86_not_terminated (s : state) l o : object s l o ->
  (forall n cl cs f i, o = ONet n cl cs f i -> ~ In "base" (map fst (sh_mods (get_sh s i)))) -> unterminate s l = Err AttributeError.
Proof.
  intros H N. unfold unterminate, get_net, get. rewrite H. cbn [of_option bind]. destruct o as [n b|n cl cs f i]; [reflexivity|]. cbn [bind].
  specialize (N n cl cs f i eq_refl). induction (sh_mods (get_sh s i)) as [|[k v] r IH]; [reflexivity|]. cbn [assoc map fst] in *.
  destruct (String.eqb_spec "base" k) as [<-|K]; [exfalso; apply N; now left|]. apply IH. intros I. apply N. now right.
Qed.
(** Linking a name that no component has. *)
Lemma mapM_missing V (d : list (string * V)) l k : In k l -> ~ In k (map fst d) ->
  mapM (fun n => do c <- of_option KeyError (assoc String.eqb n d); Ok (n, c)) l = Err KeyError.
Proof.
  intros I N. assert (M : assoc String.eqb k d = None).
  { clear I. induction d as [|[k' v] r IH]; [reflexivity|]. cbn [assoc map fst] in *. destruct (String.eqb_spec k k') as [<-|K]; [exfalso; apply N; now left|]. apply IH. intros I. apply N. now right. }
  induction l as [|n l IH]; [contradiction|]. cbn [mapM]. destruct (assoc String.eqb n d) as [c|] eqn:E; [|reflexivity]. cbn [of_option bind].
  destruct I as [->|I]; [congruence|]. rewrite (IH I). reflexivity.
Qed.
Theorem C87_unknown (s : state) l n cl cs f i ports cs' k : reachable s -> object s l (ONet n cl cs f i) -> link_strings ports = (cs', None) -> sh_mods (get_sh s i) <> [] ->
  In k (used_names (map clean_conn (sh_conns (get_sh s i) ++ cs'))) -> ~ In k (map fst (sh_mods (get_sh s i))) ->
  step s (SLink l ports) = Err KeyError.
Proof.
  intros R H HL M I N. assert (Li : i < length (st_sh s)) by (eapply (proj1 (reachable_good R)); [exact H|reflexivity]). cbn [ObjModel.step]. unfold link_net. rewrite (proj2 (get_net_inv _ _ _ _ _ _ _) H). cbn [bind]. rewrite HL.
  set (s1 := put_sh s i _). unfold ObjModel.refresh. rewrite (proj2 (get_net_inv s1 l _ _ _ _ _) H). cbn [bind]. unfold s1. rewrite get_sh_put by exact Li. cbn [sh_conns sh_mods].
  destruct (sh_conns (get_sh s i) ++ cs') as [|c0 r0] eqn:E0; [contradiction|]. destruct (sh_mods (get_sh s i)) as [|m0 ms] eqn:E1; [contradiction|].
  cbv zeta. rewrite (mapM_missing I N). reflexivity.
Qed.
(** A network that has never been linked cannot be part of another. *)
Theorem C87_unlinked_part (s : state) fuel l n cl cs f i k j n' cl' cs' f' i' : object s l (ONet n cl cs f i) ->
  (forall e, In e cs -> exists b, ObjModel.current x0 d0 fuel s (snd e) = Ok b) ->
  In (k, j) cs -> object s j (ONet n' cl' cs' f' i') -> sh_buf (get_sh s i') = None -> ObjModel.current x0 d0 (S fuel) s l = Err AttributeError.
Proof.
  intros H HC I HJ HB. cbn [ObjModel.current]. unfold get at 1. rewrite H. cbn [of_option bind].
  assert (E1 : exists re, mapM (fun e => do b <- ObjModel.current x0 d0 fuel s (snd e); Ok (fst e, b)) cs = Ok re).
  { clear I H. induction cs as [|e r IH]; [eexists; reflexivity|]. cbn [mapM]. destruct (HC e (or_introl eq_refl)) as (b & ->). cbn [bind].
    destruct IH as (re & ->); [intros e' I; apply HC; now right|]. eexists. reflexivity. }
  destruct E1 as (re & ->). cbn [bind].
  assert (E2 : mapM (fun e => do b <- stored s (snd e); Ok (fst e, b)) cs = Err AttributeError); [|rewrite E2; reflexivity].
  assert (G : forall e, In e cs -> nth_error (st_objs s) (snd e) <> None).
  { intros e Ie E. destruct (HC e Ie) as (b & Eb). destruct fuel; [discriminate Eb|]. cbn [ObjModel.current] in Eb. unfold get in Eb. rewrite E in Eb. discriminate Eb. }
  clear H HC re. induction cs as [|e r IH]; [contradiction|]. cbn [mapM].
  destruct (stored s (snd e)) as [b|x] eqn:Es.
  - cbn [bind]. destruct I as [->|I]; [unfold stored, get in Es; cbn [snd] in Es; rewrite HJ in Es; cbn [of_option bind] in Es; rewrite HB in Es; discriminate Es|].
    rewrite IH by (auto; intros e' I'; apply G; now right). reflexivity.
  - cbn [bind]. specialize (G e (or_introl eq_refl)). unfold stored, get in Es. destruct (nth_error (st_objs s) (snd e)) as [o|]; [|congruence]. cbn [of_option bind] in Es.
    destruct o as [m b|m c0 c1 f0 i0]; [discriminate Es|]. destruct (sh_buf (get_sh s i0)); cbn in Es; [discriminate Es|]. injection Es as <-. reflexivity.
Qed.

(** C88: statements other than assignments to a network's attributes add components only to the network
    of the innermost with-block (or its copies); outside with-blocks, to none. *)
Definition module_of (s : state) (l : nat) (key : string) (c : nat) : Prop :=
  exists n cl cs f i x, object s l (ONet n cl cs f i) /\ nth_error (st_sh s) i = Some x /\ assoc String.eqb key (sh_mods x) = Some c.
Definition innermost (s : state) (l : nat) : Prop := exists r, st_stack s = l :: r.
Lemma module_get s l key c : good s -> module_of s l key c <-> exists n cl cs f i, nth_error (st_objs s) l = Some (ONet n cl cs f i)
  /\ assoc String.eqb key (sh_mods (get_sh s i)) = Some c.
Proof.
  intros G. split.
  - intros (n & cl & cs & f & i & x & O & Hx & H). exists n, cl, cs, f, i. unfold get_sh. rewrite (nth_error_nth _ _ _ Hx). auto.
  - intros (n & cl & cs & f & i & O & H). exists n, cl, cs, f, i, (get_sh s i). split; [exact O|]. split; [|exact H]. apply nth_error_nth'. eapply (proj1 G); [exact O|reflexivity].
Qed.
Theorem C88_innermost s p s' l key c : reachable s -> step s p = Ok s' -> (forall net key c, p <> SAdd net key c) ->
  (forall k, innermost s k -> ~ twins s k l) -> (exists o, object s l o) -> module_of s' l key c <-> module_of s l key c.
Proof.
  intros R H Hp Hi [o Ho]. pose proof (reachable_good R) as G. pose proof (reachable_stacked R) as S. destruct (step_ok G H) as (G' & F & _).
  assert (M : mods_same (inner s) s s').
  { pose proof (step_mods G S H) as M. destruct p; try exact M. destruct (Hp _ _ _ eq_refl). }
  destruct (fr_obj F Ho) as (o' & Ho' & Hs & _).
  assert (X1 : forall n cl cs f i, o = ONet n cl cs f i -> sh_mods (get_sh s' i) = sh_mods (get_sh s i)).
  { intros n cl cs f i ->. apply M; [eapply (proj1 G); [exact Ho|reflexivity]|]. unfold inner. destruct (st_stack s) as [|q r] eqn:Es; [discriminate|].
    destruct (nth_error (st_objs s) q) as [oq|] eqn:Eq; [|discriminate]. intros Q. symmetry in Q. destruct (sh_net Q) as (n2 & c2 & cs2 & f2 & ->).
    apply (Hi q); [exists r; exact Es|]. do 8 eexists. exists i. split; [exact Eq|exact Ho]. }
  rewrite (module_get _ _ _ G'), (module_get _ _ _ G). split.
  - intros (n & cl & cs & f & i & O & A). unfold object in *. rewrite Ho' in O. injection O as ->. symmetry in Hs. destruct (sh_net Hs) as (n2 & c2 & cs2 & f2 & ->).
    exists n2, c2, cs2, f2, i. split; [exact Ho|]. now rewrite <- (X1 _ _ _ _ _ eq_refl).
  - intros (n & cl & cs & f & i & O & A). unfold object in *. rewrite Ho in O. injection O as ->. destruct (sh_net Hs) as (n2 & c2 & cs2 & f2 & ->).
    exists n2, c2, cs2, f2, i. split; [exact Ho'|]. now rewrite (X1 _ _ _ _ _ eq_refl).
Qed.
(** A component created with a name inside a with-block is added to the innermost network. *)
Theorem C88_registered s name b s' k : reachable s -> step s (SComp (Some name) b) = Ok s' -> innermost s k -> module_of s' k name (length (st_objs s)).
Proof.
  intros R H [r Es]. pose proof (reachable_good R) as G. destruct (step_ok G H) as (G' & _). cbn [ObjModel.step] in H.
  destruct (new_comp reserved s (Some name) b) as [[s1 l]|] eqn:E; [|discriminate]. cbn [bind] in H. injection H as <-.
  unfold new_comp in E. cbn [alloc] in E. destruct (register _ _ _ _) as [s2|] eqn:Er; [|discriminate]. cbn [bind] in E. destruct (check_buf false b); [|discriminate]. cbn [bind] in E. injection E as <- <-.
  unfold register in Er. cbn [st_stack] in Er. rewrite Es in Er. apply add_comp_inv in Er as (n & cl & cs & f & sh & o & En & Eo & _ & _ & _ & E2).
  apply (module_get _ _ _ G'). rewrite E2. exists n, cl, cs, f, sh. split; [exact En|]. rewrite get_sh_put; [cbn [sh_mods]; apply assoc_dict_set|].
  cbn [st_sh st_objs] in *. assert (Hk : k < length (st_objs s)) by (apply (reachable_stacked R); rewrite Es; now left). rewrite nth_error_app1 in En by exact Hk.
  eapply (proj1 G); [exact En|reflexivity].
Qed.

(** Which assignments to attributes of a network are refused, and how. *)
Theorem C88_refused s net key c n cl cs f i o : object s net (ONet n cl cs f i) -> object s c o ->
  (In key (map fst cs) -> step s (SAdd net key c) = Err AttributeError)
  /\ (~ In key (map fst cs) -> forall m, name_of o = Some m -> m <> key -> step s (SAdd net key c) = Err ValueError)
  /\ (~ In key (map fst cs) -> name_of o = None \/ name_of o = Some key -> reserved key = true -> step s (SAdd net key c) = Err KeyError)
  /\ (~ In key (map fst cs) -> name_of o = None \/ name_of o = Some key -> reserved key = false -> exists s', step s (SAdd net key c) = Ok s').
Proof.
  unfold object. intros H1 H2. cbn [ObjModel.step]. unfold add_comp, get_net, get. rewrite H1. cbn [of_option bind]. rewrite H2. cbn [of_option bind].
  assert (E : existsb (fun e => String.eqb key (fst e)) cs = true <-> In key (map fst cs)).
  { rewrite existsb_exists, in_map_iff. split; intros (x & A & B).
    - apply String.eqb_eq in B. eauto.
    - exists x. split; [exact B|]. subst key. apply String.eqb_refl. }
  destruct (existsb _ cs).
  - repeat split; try reflexivity; intros N; exfalso; apply N, E; reflexivity.
  - split; [intros I; apply E in I; discriminate|]. split.
    + intros _ m -> N. apply String.eqb_neq in N. now rewrite N.
    + split; intros _ [->| ->] ->; rewrite ?String.eqb_refl; cbn [negb]; eauto.
Qed.

(** C89: a network that is a component of another has a name; a network with a name cannot be terminated
    (the name "base" apart). *)
Theorem C89_used_has_name s p cs conns k l : reachable s -> circuit_of s p cs conns -> In (k, l) cs -> exists o n, object s l o /\ name_of o = Some n.
Proof.
  intros R (n & c & f & i & x & O & _) Hin. pose proof (reachable_good R) as (_ & N & _). destruct (N _ _ _ _ _ _ O k l Hin) as (o & Ho & Hn).
  destruct (name_of o) as [m|] eqn:E; [|congruence]. exists o, m. auto.
Qed.
Theorem C89_named_fails s l o n arg ts : reachable s -> object s l o -> name_of o = Some n -> n <> "base" -> exists e, terminate s l arg ts = Err e.
Proof.
  intros R Ho Hn Hb. destruct (terminate s l arg ts) as [[s' nw]|e] eqn:H; [|eauto]. exfalso. pose proof (reachable_good R) as G.
  destruct (terminate_inv G (reachable_stacked R) H) as (own & cls & cs & f & sh & s3 & i & E & E3 & _ & _ & _ & _ & _ & _ & Ha).
  apply add_comp_inv in Ha as (n1 & cl & cs1 & f1 & sh1 & o1 & _ & E1 & Hnm & _). unfold object in Ho. rewrite E in Ho. injection Ho as <-. rewrite E3 in E1. injection E1 as <-.
  cbn [name_of] in *. destruct Hnm as [Q|Q]; congruence.
Qed.
(** A network cannot be terminated with a term that has no name. *)
Theorem C89_unnamed_term s l own cl cs m i arg ts t b : reachable s -> object s l (ONet own cl cs (Some (S m)) i) ->
  In t ts -> object s t (OComp None b) -> (forall t', In t' ts -> exists n' b', object s t' (OComp n' b')) ->
  terminate s l arg ts = Err TypeError.
Proof.
  unfold object. intros R Ho Ht Hb Hc. unfold ObjModel.terminate, get_net, get. rewrite Ho. cbn [of_option bind Nat.eqb].
  assert (C : forall ts s1 d, (forall k o, nth_error (st_objs s) k = Some o -> nth_error (st_objs s1) k = Some o) -> In t ts ->
    (forall t', In t' ts -> exists n' b', nth_error (st_objs s) t' = Some (OComp n' b')) -> copy_terms s1 ts d = Err TypeError).
  { clear - Hb. induction ts as [|a ts IH]; intros s1 d M Ht Hc; [destruct Ht|]. cbn [copy_terms]. unfold get.
    destruct (Hc a (or_introl eq_refl)) as (n' & b' & Ha). rewrite (M _ _ Ha). cbn [of_option bind].
    destruct n' as [n'|]; [|reflexivity]. destruct Ht as [->|Ht]; [rewrite Hb in Ha; discriminate|].
    cbn [alloc]. apply IH; [|exact Ht|intros t' I; apply Hc; now right].
    intros k o Hk. cbn [st_objs]. rewrite nth_error_app1; [exact (M _ _ Hk)|]. apply nth_error_Some. rewrite (M _ _ Hk). discriminate. }
  rewrite C; auto.
Qed.
End Prop_.

(** ** Programs *)
Notation urun := (@ObjModel.run unit unit tt tt (fun _ => false) 20).
Notation ustate := (state unit unit).
Definition final (ps : list (stmt unit unit)) : ustate := match urun (start unit unit) ps with Ok s => s | Err _ => start unit unit end.
Definition is_ok {A} (r : res A) : bool := match r with Ok _ => true | Err _ => false end.
Definition term1 : buf unit unit := lf 1.

Lemma final_ok ps : is_ok (urun (start unit unit) ps) = true -> urun (start unit unit) ps = Ok (final ps).
Proof. unfold final. destruct (urun _ ps); [reflexivity|discriminate]. Qed.
Lemma circuit_ok (s : ustate) l cs conns :
  (match nth_error (st_objs s) l with Some (ONet _ _ cs' _ i) => Some (cs', option_map (@sh_conns _ _) (nth_error (st_sh s) i)) | _ => None end) = Some (cs, Some conns) ->
  circuit_of s l cs conns.
Proof.
  intros H. destruct (nth_error (st_objs s) l) as [[|n c cs' f i]|] eqn:E; try discriminate. destruct (nth_error (st_sh s) i) as [x|] eqn:Ex; [|discriminate].
  cbn in H. injection H as <- <-. exists n, c, f, i, x. auto.
Qed.

(** A network [pair] of two unconnected waveguides is used in another network [top]; afterwards the two
    waveguides are connected. *)
Definition pair_prog : list (stmt unit unit) :=
  [ SNet None "network" [] []; SComp None (lf 2); SComp None (lf 2); SAdd 0 "a" 1; SAdd 0 "b" 2;
    SLink 0 [PInt 0; PStr "0:a:1"; PInt 1]; SLink 0 [PInt 2; PStr "0:b:1"; PInt 3];
    SNet None "network" [] []; SComp None (lf 2); SAdd 3 "pair" 0; SAdd 3 "wg" 4;
    SLink 3 [PInt 0; PStr "0:wg:1"; PStr "0:pair"] ].
Definition late_prog := pair_prog ++ [SLink 0 [PStr "a:1"; PStr "0:b"]].

Definition wg2 : comp unit unit := Leaf (lf 2).
Definition pair_late : comp unit unit := Net [("a", wg2); ("b", wg2)] ["a:0:0"; "a:1:1"; "b:0:2"; "b:1:3"; "a:1:b:0"].
Definition top_late : comp unit unit := Net [("wg", wg2); ("pair", pair_late)] ["wg:1:pair:0"; "wg:0:0"].

Lemma unfolds_leaf2 (s : ustate) l n : nth_error (st_objs s) l = Some (OComp n (lf 2)) -> unfolds s l wg2.
Proof. intros H. eapply un_leaf. exact H. Qed.

(** C85 is false: connecting two parts of a network that is already used in another leaves the outer
    network without that connection, and no exception is raised. *)
Theorem C85_late_refuted : exists s b t b', urun (start unit unit) late_prog = Ok s /\ stored s 3 = Ok b /\ unfolds s 3 t
  /\ ucompile t = Ok b' /\ b_C b' 3 4 = true /\ b_C b 3 4 = false.
Proof.
  exists (final late_prog). destruct (stored (final late_prog) 3) as [b|] eqn:Eb; [|vm_compute in Eb; discriminate].
  destruct (ucompile top_late) as [b'|] eqn:Ec; [|vm_compute in Ec; discriminate]. exists b, top_late, b'.
  split; [apply final_ok; vm_compute; reflexivity|]. split; [reflexivity|]. split.
  { eapply un_net; [apply circuit_ok; vm_compute; reflexivity|]. constructor; [eapply unfolds_leaf2; vm_compute; reflexivity|]. constructor; [|constructor].
    eapply un_net; [apply circuit_ok; vm_compute; reflexivity|]. constructor; [eapply unfolds_leaf2; vm_compute; reflexivity|]. constructor; [|constructor]. eapply unfolds_leaf2; vm_compute; reflexivity. }
  split; [exact Ec|]. split.
  - assert (Q : match ucompile top_late with Ok b => b_C b 3 4 | Err _ => false end = true) by (vm_compute; reflexivity). rewrite Ec in Q. exact Q.
  - assert (Q : match stored (final late_prog) 3 with Ok b => b_C b 3 4 | Err _ => true end = false) by (vm_compute; reflexivity). rewrite Eb in Q. exact Q.
Qed.

(** A network is terminated and linked further afterwards. *)
Definition again_prog : list (stmt unit unit) :=
  [ SNet None "network" [] []; SComp None (lf 2); SComp None (lf 2); SAdd 0 "a" 1; SAdd 0 "b" 2;
    SLink 0 [PInt 0; PStr "0:a:1"; PInt 1]; SLink 0 [PInt 2; PStr "0:b:1"; PInt 3];
    STermOne 0 None "term" term1; SLink 0 [PStr "a:1"; PStr "0:b"] ].

Definition again_net : comp unit unit :=
  Net [("term_0", Leaf term1); ("network", pair_late); ("term_1", Leaf term1); ("term_2", Leaf term1); ("term_3", Leaf term1)]
      ["term_0:0:network:0"; "term_1:0:network:1"; "term_2:0:network:2"; "term_3:0:network:3"].
Theorem C85_terminated_refuted : exists s b t e, urun (start unit unit) again_prog = Ok s /\ stored s 12 = Ok b /\ unfolds s 12 t /\ ucompile t = Err e.
Proof.
  exists (final again_prog). destruct (stored (final again_prog) 12) as [b|] eqn:Eb; [|vm_compute in Eb; discriminate]. exists b, again_net, ValueError.
  split; [apply final_ok; vm_compute; reflexivity|]. split; [reflexivity|]. split; [|vm_compute; reflexivity].
  eapply un_net; [apply circuit_ok; vm_compute; reflexivity|]. constructor; [eapply un_leaf; vm_compute; reflexivity|]. constructor.
  { eapply un_net; [apply circuit_ok; vm_compute; reflexivity|]. constructor; [eapply unfolds_leaf2; vm_compute; reflexivity|]. constructor; [|constructor]. eapply unfolds_leaf2; vm_compute; reflexivity. }
  repeat (constructor; [eapply un_leaf; vm_compute; reflexivity|]). constructor.
Qed.

(** A program that can be seen to be disciplined. *)
Definition same_sh (i : nat) (o : obj unit unit) : bool := match o with ONet _ _ _ _ j => i =? j | OComp _ _ => false end.
Definition looseb (s : ustate) (l : nat) : bool :=
  match nth_error (st_objs s) l with
  | Some (ONet _ _ _ _ i) =>
      forallb (fun k => (k =? l) || negb (match nth_error (st_objs s) k with Some o => same_sh i o | None => false end)) (seq 0 (length (st_objs s)))
      && forallb (fun o => match o with
                           | ONet _ _ cs _ _ => forallb (fun e => negb (match nth_error (st_objs s) (snd e) with Some o => same_sh i o | None => false end)) cs
                           | OComp _ _ => true end) (st_objs s)
  | _ => true
  end.
Lemma looseb_ok (s : ustate) l : looseb s l = true -> ~ in_use s l /\ forall k, twins s l k -> k = l.
Proof.
  unfold looseb. intros H. assert (T : forall k, twins s l k -> k = l).
  { intros k (n & c & cs & f & n' & c' & cs' & f' & i & O & K). unfold object in *. rewrite O in H. apply andb_true_iff in H as [H _]. rewrite forallb_forall in H.
    specialize (H k). rewrite K in H. cbn [same_sh] in H. rewrite Nat.eqb_refl in H. cbn in H. rewrite orb_false_r in H. apply Nat.eqb_eq, H, in_seq. apply nth_in_range in K. lia. }
  split; [|exact T]. intros (key & c & (n & c1 & cs & f & n' & c' & cs' & f' & i & O & K) & p & cs1 & conns & (n2 & c2 & f2 & i2 & x & P & _) & Hin). unfold object in *.
  rewrite O in H. apply andb_true_iff in H as [_ H]. rewrite forallb_forall in H. specialize (H _ (nth_error_In _ _ P)). cbn in H. rewrite forallb_forall in H. specialize (H _ Hin). cbn [snd] in H.
  rewrite K in H. cbn [same_sh] in H. rewrite Nat.eqb_refl in H. discriminate.
Qed.
Fixpoint discb (s : ustate) (ps : list (stmt unit unit)) : bool :=
  match ps with
  | [] => true
  | p :: r => match target s p with Some l => looseb s l | None => true end
              && match @ObjModel.step unit unit tt tt (fun _ => false) 20 s p with Ok s' => discb s' r | Err _ => true end
  end.
Lemma discb_ok ps : discb (start unit unit) ps = true -> disciplined tt tt (fun _ => false) 20 ps.
Proof.
  intros H. assert (Q : forall pre s0 p post s l, discb s0 (pre ++ p :: post) = true -> urun s0 pre = Ok s -> links s p l -> looseb s l = true).
  { clear. induction pre as [|q pre IH]; intros s0 p post s l Hd Hr Hl.
    - injection Hr as <-. cbn [app discb] in Hd. apply andb_true_iff in Hd as [Hd _]. now rewrite (links_target Hl) in Hd.
    - cbn [app discb] in Hd. apply andb_true_iff in Hd as [_ Hd]. rewrite run_cons in Hr. destruct (ObjModel.step _ _ _ _ s0 q) as [s1|]; [|discriminate]. cbn [bind] in Hr. eapply IH; eassumption. }
  intros pre p post s l -> Hr Hl. apply looseb_ok. eapply Q; eassumption.
Qed.
Example C85_ex : disciplined tt tt (fun _ => false) 20 pair_prog
  /\ exists b, stored (final pair_prog) 3 = Ok b /\ pairs_of b = [(1, 2); (2, 1)].
Proof.
  split; [apply discb_ok; vm_compute; reflexivity|]. destruct (stored (final pair_prog) 3) as [b|] eqn:Eb; [|vm_compute in Eb; discriminate]. exists b. split; [reflexivity|].
  assert (Q : match stored (final pair_prog) 3 with Ok b => pairs_of b | Err _ => [] end = [(1, 2); (2, 1)]) by (vm_compute; reflexivity). rewrite Eb in Q. exact Q.
Qed.

Lemma reach ps : is_ok (urun (start unit unit) ps) = true -> reachable tt tt (fun _ => false) 20 (final ps).
Proof. intros H. exists ps. apply final_ok, H. Qed.
(** C86, C87: the two waveguides of [pair_prog] without the outer network. *)
Definition two_prog := firstn 7 pair_prog.
Example C86_ex : reachable tt tt (fun _ => false) 20 (final (two_prog ++ [SComp (Some "t") term1]))
  /\ is_ok (terminate tt tt (fun _ => false) 20 (final (two_prog ++ [SComp (Some "t") term1])) 0 None [3]) = true.
Proof. split; [apply reach|]; vm_compute; reflexivity. Qed.
Fixpoint awayb (l : nat) (s : ustate) (ps : list (stmt unit unit)) : bool :=
  match ps with
  | [] => true
  | p :: r => match target s p with
              | Some k => match nth_error (st_objs s) l, nth_error (st_objs s) k with Some (ONet _ _ _ _ i), Some o => negb (same_sh i o) | _, _ => true end
              | None => true
              end && match @ObjModel.step unit unit tt tt (fun _ => false) 20 s p with Ok s' => awayb l s' r | Err _ => true end
  end.
Lemma awayb_ok l : forall pre s0 p post s k, awayb l s0 (pre ++ p :: post) = true -> urun s0 pre = Ok s -> links s p k -> ~ twins s k l.
Proof.
  induction pre as [|q pre IH]; intros s0 p post s k Hd Hr Hl.
  - injection Hr as <-. cbn [app awayb] in Hd. apply andb_true_iff in Hd as [Hd _]. rewrite (links_target Hl) in Hd.
    intros (n & c & cs & f & n' & c' & cs' & f' & i & O & K). unfold object in *. rewrite O, K in Hd. cbn [same_sh] in Hd. rewrite Nat.eqb_refl in Hd. discriminate.
  - cbn [app awayb] in Hd. apply andb_true_iff in Hd as [_ Hd]. rewrite run_cons in Hr. destruct (ObjModel.step _ _ _ _ s0 q) as [s1|]; [|discriminate]. cbn [bind] in Hr. eapply IH; eassumption.
Qed.
(** The waveguides are untouched when the outer network is built. *)
Example C87_ex : reachable tt tt (fun _ => false) 20 (final two_prog) /\ is_ok (urun (final two_prog) (skipn 7 pair_prog)) = true
  /\ (forall pre p post s1 k, skipn 7 pair_prog = pre ++ p :: post -> urun (final two_prog) pre = Ok s1 -> links s1 p k -> ~ twins s1 k 0)
  /\ circuit_of (final two_prog) 0 [("a", 1); ("b", 2)] ["a:0:0"; "a:1:1"; "b:0:2"; "b:1:3"].
Proof.
  split; [apply reach; vm_compute; reflexivity|]. split; [vm_compute; reflexivity|]. split; [|apply circuit_ok; vm_compute; reflexivity].
  intros pre p post s1 k E. apply (@awayb_ok 0 pre (final two_prog) p post s1 k). rewrite <- E. vm_compute; reflexivity.
Qed.

(** C88 is false as hoped: terminating a network inside the with-block of another adds the terms and the
    terminated network to the outer one, where they replace a component of that name that is not yet linked. *)
Definition with_prog : list (stmt unit unit) :=
  [ SNet None "network" [] []; SEnter 0; SComp None (lf 2); SAdd 0 "term_0" 1;
    SNet None "network" [] []; SComp None (lf 2); SAdd 2 "wg" 3; SLink 2 [PInt 0; PStr "0:wg:1"; PInt 1] ].
Theorem C88_refuted : exists s s' c, reachable tt tt (fun _ => false) 20 s /\ @ObjModel.step unit unit tt tt (fun _ => false) 20 s (STermOne 2 None "term" term1) = Ok s'
  /\ module_of s 0 "term_0" 1 /\ module_of s' 0 "term_0" c /\ c <> 1.
Proof.
  exists (final with_prog), (final (with_prog ++ [STermOne 2 None "term" term1])), 4.
  assert (M : forall (s : ustate) l key c, match nth_error (st_objs s) l with
    | Some (ONet _ _ _ _ i) => match nth_error (st_sh s) i with Some x => assoc String.eqb key (sh_mods x) | None => None end | _ => None end = Some c -> module_of s l key c).
  { intros s l key c H. destruct (nth_error (st_objs s) l) as [[|n cl cs f i]|] eqn:E; try discriminate. destruct (nth_error (st_sh s) i) as [x|] eqn:Ex; [|discriminate].
    exists n, cl, cs, f, i, x. auto. }
  split; [apply reach; vm_compute; reflexivity|]. split; [|split; [apply M; vm_compute; reflexivity|split; [apply M; vm_compute; reflexivity|discriminate]]].
  assert (R : urun (start unit unit) (with_prog ++ [STermOne 2 None "term" term1]) = Ok (final (with_prog ++ [STermOne 2 None "term" term1]))) by (apply final_ok; vm_compute; reflexivity).
  rewrite run_app, (final_ok (ps := with_prog)) in R by (vm_compute; reflexivity). cbn [bind] in R. rewrite run_cons in R. destruct (ObjModel.step _ _ _ _ (final with_prog) _) as [s1|]; [exact R|discriminate].
Qed.
Example C88_ex : innermost (final (firstn 2 with_prog)) 0 /\ ~ innermost (final with_prog) 2.
Proof. split; [exists []; vm_compute; reflexivity|]. intros [r H]. vm_compute in H. discriminate. Qed.

(** C89 is false as hoped: a network with free ports that is used in another network. *)
Theorem C89_refuted : exists s l b, reachable tt tt (fun _ => false) 20 s /\ stored s l = Ok b /\ num_free b = 4
  /\ (forall arg ts, exists e, terminate tt tt (fun _ => false) 20 s l arg ts = Err e).
Proof.
  exists (final pair_prog), 0. destruct (stored (final pair_prog) 0) as [b|] eqn:Eb; [|vm_compute in Eb; discriminate]. exists b.
  assert (R : reachable tt tt (fun _ => false) 20 (final pair_prog)) by (apply reach; vm_compute; reflexivity).
  split; [exact R|]. split; [reflexivity|]. split.
  - assert (Q : match stored (final pair_prog) 0 with Ok b => num_free b | Err _ => 0 end = 4) by (vm_compute; reflexivity). rewrite Eb in Q. exact Q.
  - intros arg ts. apply (@C89_named_fails unit unit tt tt (fun _ => false) 20 (final pair_prog) 0 (ONet (Some "pair") "network" [("a", 1); ("b", 2)] (Some 4) 0) "pair" arg ts R);
      [vm_compute; reflexivity|reflexivity|discriminate].
Qed.

(** A waveguide next to a network without connections: linking them, linking a name that is not there, and undoing a
    termination that did not happen. *)
Definition bare_prog : list (stmt unit unit) :=
  [ SNet None "network" [] []; SNet None "network" [] []; SComp None (lf 2); SAdd 0 "sub" 1; SAdd 0 "wg" 2 ].
Example C87_failures_ex : reachable tt tt (fun _ => false) 20 (final bare_prog)
  /\ urun (final bare_prog) [SLink 0 [PStr "sub:0"; PStr "0:wg:1"; PInt 0]] = Err AttributeError
  /\ urun (final bare_prog) [SLink 0 [PStr "gw:0"; PStr "0:wg:1"; PInt 0]] = Err KeyError
  /\ unterminate (final bare_prog) 0 = Err AttributeError.
Proof. split; [exists bare_prog; apply final_ok; vm_compute; reflexivity|]. repeat split; vm_compute; reflexivity. Qed.

Print Assumptions C85_disciplined.
Print Assumptions C85_late_refuted.
Print Assumptions C85_terminated_refuted.
Print Assumptions C86_unterminate.
Print Assumptions C86_not_terminated.
Example C87_in_range_ex : exists b : buf unit unit, ObjModel.filled tt tt [("a", lf 2); ("b", lf 2)] [("a", lf 2); ("b", lf 2)] ["a:1:b:0"] = Ok b
  /\ wire_of [("a", lf 2); ("b", lf 2)] [("a", lf 2); ("b", lf 2)] "a:1:b:0" = Ok (Some (1, 2)).
Proof. eexists. split; [vm_compute; reflexivity|vm_compute; reflexivity]. Qed.
Print Assumptions C87_in_range.
Print Assumptions C87_unknown.
Print Assumptions C87_unlinked_part.
Print Assumptions C87_step.
Print Assumptions C87_only_link.
Print Assumptions C88_innermost.
Print Assumptions C88_registered.
Print Assumptions C88_refuted.
Print Assumptions C89_used_has_name.
Print Assumptions C89_named_fails.
Print Assumptions C89_refuted.
