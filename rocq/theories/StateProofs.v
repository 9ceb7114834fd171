(** Histories of [add_component] and [link] calls (C09, C10, C66). *)
From Verif Require Import Base PyStr PyStrProofs NetModel NetSpec LinkProofs NetProofs.
Set Implicit Arguments.
Unset Strict Implicit.
Local Open Scope list_scope.

Lemma py_int_strip s : py_int (strip s) = py_int s.
Proof. unfold py_int. now rewrite strip_idem. Qed.

Lemma split_clean conn : split_colon (clean_conn conn) = map strip (split_colon conn).
Proof.
  unfold clean_conn. apply split_join.
  - pose proof (split_nonempty conn). destruct (split_colon conn); [congruence|discriminate].
  - pose proof (split_parts_no_colon conn) as H. induction H; constructor; auto. now apply strip_no_colon.
Qed.

Lemma clean_idem conn : clean_conn (clean_conn conn) = clean_conn conn.
Proof.
  unfold clean_conn at 1. rewrite split_clean, map_map. unfold clean_conn. f_equal. apply map_ext.
  intros a. apply strip_idem.
Qed.

Lemma clean_idems conns : map clean_conn (map clean_conn conns) = map clean_conn conns.
Proof. rewrite map_map. apply map_ext, clean_idem. Qed.

Definition prefix {A} (l l' : list A) : Prop := exists r, l' = l ++ r.

Lemma prefix_refl {A} (l : list A) : prefix l l.
Proof. exists []. now rewrite app_nil_r. Qed.
Lemma prefix_trans {A} (a b c : list A) : prefix a b -> prefix b c -> prefix a c.
Proof. intros [x ->] [y ->]. exists (x ++ y). now rewrite app_assoc. Qed.
Lemma prefix_In {A} (l l' : list A) x : prefix l l' -> In x l -> In x l'.
Proof. intros [r ->] H. apply in_or_app. auto. Qed.

Lemma takewhile_app {A} (f : A -> bool) l r : prefix (takewhile f l) (takewhile f (l ++ r)).
Proof.
  induction l as [|a l [x IH]]; cbn; [exists (takewhile f r); reflexivity|].
  destruct (f a); [|apply prefix_refl]. rewrite IH. exists x. reflexivity.
Qed.
Lemma takewhile_mono {A} (f g : A -> bool) l : (forall a, f a = true -> g a = true) ->
  prefix (takewhile f l) (takewhile g l).
Proof.
  intros H. induction l as [|a l [x IH]]; cbn; [apply prefix_refl|].
  destruct (f a) eqn:E; [|eexists; reflexivity]. rewrite (H _ E), IH. exists x. reflexivity.
Qed.
Lemma takewhile_prefix {A} (f : A -> bool) l l' : prefix l l' -> prefix (takewhile f l) (takewhile f l').
Proof. intros [r ->]. apply takewhile_app. Qed.
Lemma takewhile_In {A} (f : A -> bool) l a : In a (takewhile f l) -> f a = true.
Proof.
  induction l as [|b l IH]; cbn; [tauto|]. destruct (f b) eqn:E; cbn; [|tauto]. intros [<-|H]; auto.
Qed.

Lemma dedup_app l r seen : prefix (dedup l seen) (dedup (l ++ r) seen).
Proof.
  revert seen. induction l as [|a l IH]; intros seen; cbn; [exists (dedup r seen); reflexivity|].
  destruct (existsb _ _); [apply IH|]. destruct (IH (a :: seen)) as [x ->]. exists x. reflexivity.
Qed.

Lemma used_names_app l r : prefix (used_names l) (used_names (l ++ r)).
Proof. unfold used_names. rewrite flat_map_app, filter_app. apply dedup_app. Qed.

Section S.
Variables (X D : Type) (x0 : X) (d0 : D).
Notation buf := (buf X D).
Notation cobj := (cobj X D).
Notation nstate := (nstate X D).
Notation nop := (nop X D).

(** What the names may be: those of [components] always come from the connections, in order. *)
Definition names_inv (s : nstate) : Prop :=
  prefix (ns_names s) (takewhile (has_mod (ns_mods s)) (used_names (map clean_conn (ns_conns s)))).

Lemma dict_set_keys k (v : cobj) d n :
  has_mod (dict_set String.eqb k v d) n = has_mod d n || String.eqb n k.
Proof.
  unfold has_mod. induction d as [|[k' v'] d IH]; cbn; [now rewrite orb_false_r|].
  destruct (String.eqb_spec k k') as [->|E]; cbn.
  - destruct (String.eqb n k'), (existsb _ d); reflexivity.
  - rewrite IH. now rewrite orb_assoc.
Qed.

Lemma name_mods_has names (mods : list (string * cobj)) n : has_mod (name_mods names mods) n = has_mod mods n.
Proof.
  unfold has_mod, name_mods. induction mods as [|[k c] l IH]; [reflexivity|]. cbn [map existsb fst].
  rewrite IH. destruct (existsb (String.eqb k) names); reflexivity.
Qed.

Lemma takewhile_ext {A} (f g : A -> bool) l : (forall a, f a = g a) -> takewhile f l = takewhile g l.
Proof. intros H. induction l as [|a l IH]; cbn; [reflexivity|]. now rewrite H, IH. Qed.

Lemma stored_set k (c : cobj) d n : assoc String.eqb n (dict_set String.eqb k c d) =
  if String.eqb n k then Some c else assoc String.eqb n d.
Proof.
  induction d as [|[k' v'] d IH]; cbn.
  - destruct (String.eqb n k); reflexivity.
  - destruct (String.eqb_spec k k') as [->|E]; cbn.
    + destruct (String.eqb_spec n k'); reflexivity.
    + rewrite IH. destruct (String.eqb_spec n k') as [->|E']; [|reflexivity].
      destruct (String.eqb_spec k' k); congruence.
Qed.

Lemma stored_name_mods names (mods : list (string * cobj)) n :
  option_map (@o_buf X D) (assoc String.eqb n (name_mods names mods))
  = option_map (@o_buf X D) (assoc String.eqb n mods).
Proof.
  unfold name_mods. induction mods as [|[k c] l IH]; [reflexivity|]. cbn [map assoc fst snd].
  destruct (existsb (String.eqb k) names); cbn [assoc fst]; destruct (String.eqb n k); auto.
Qed.

(** One step: the invariant, and the names in use with their components, are kept. *)
Definition keeps (s s' : nstate) : Prop :=
  names_inv s' /\ prefix (ns_names s) (ns_names s')
  /\ prefix (map clean_conn (ns_conns s)) (map clean_conn (ns_conns s'))
  /\ (forall n, In n (ns_names s) -> stored s' n = stored s n).

Lemma rebuild_keeps s : names_inv s -> keeps s (fst (rebuild x0 d0 s)).
Proof.
  intros Hi. unfold rebuild.
  assert (H0 : keeps s s) by (split; [exact Hi|repeat split; try apply prefix_refl; auto]).
  destruct (ns_conns s) eqn:Ec; [exact H0|]. destruct (ns_mods s) eqn:Em; [exact H0|].
  rewrite <- Ec in *. rewrite <- Em in *.
  set (names := takewhile (has_mod (ns_mods s)) (used_names (map clean_conn (ns_conns s)))) in *.
  assert (Hk : forall bf, keeps s {| ns_mods := name_mods names (ns_mods s);
      ns_conns := map clean_conn (ns_conns s); ns_names := names; ns_buf := bf |}).
  { intros bf. split; [|split; [|split]]; cbn.
    - unfold names_inv. cbn. rewrite clean_idems.
      rewrite (takewhile_ext (g := has_mod (ns_mods s))) by (intros a; apply name_mods_has). apply prefix_refl.
    - exact Hi.
    - rewrite clean_idems. apply prefix_refl.
    - intros n _. apply stored_name_mods. }
  destruct (set_buffers x0 d0 (plain (ns_mods s)) (ns_conns s)) as [[[cs b]|]|e]; cbn [fst]; auto.
Qed.

Lemma keeps_refl s : names_inv s -> keeps s s.
Proof. intros H. split; [exact H|repeat split; try apply prefix_refl; auto]. Qed.

Lemma keeps_trans a b c : keeps a b -> keeps b c -> keeps a c.
Proof.
  intros (_ & A1 & A2 & A3) (B0 & B1 & B2 & B3). split; [exact B0|]. split; [eapply prefix_trans; eassumption|].
  split; [eapply prefix_trans; eassumption|]. intros n Hn. rewrite B3; [auto|]. eapply prefix_In; eassumption.
Qed.

Lemma append_keeps s cs : names_inv s ->
  keeps s {| ns_mods := ns_mods s; ns_conns := ns_conns s ++ cs; ns_names := ns_names s; ns_buf := ns_buf s |}.
Proof.
  intros Hi. split; [|split; [|split]]; cbn; auto; try apply prefix_refl.
  - unfold names_inv in *. cbn. rewrite map_app. eapply prefix_trans; [exact Hi|].
    apply takewhile_prefix, used_names_app.
  - rewrite map_app. eexists. reflexivity.
Qed.

Lemma step_keeps s o : names_inv s -> keeps s (fst (nstep x0 d0 s o)).
Proof.
  intros Hi. destruct o as [n c|ports]; cbn [nstep].
  - unfold add_component. destruct (existsb (String.eqb n) (ns_names s)) eqn:E; [now apply keeps_refl|].
    assert (Hk : keeps s {| ns_mods := dict_set String.eqb n c (ns_mods s); ns_conns := ns_conns s;
                            ns_names := ns_names s; ns_buf := ns_buf s |}).
    { split; [|split; [|split]]; cbn; try apply prefix_refl.
      - unfold names_inv in *. cbn. eapply prefix_trans; [exact Hi|]. apply takewhile_mono.
        intros a Ha. rewrite dict_set_keys, Ha. reflexivity.
      - intros m Hm. unfold stored. cbn. rewrite stored_set. destruct (String.eqb_spec m n) as [->|_]; [|reflexivity].
        exfalso. apply not_true_iff_false in E. apply E. apply existsb_exists. exists n. split; [exact Hm|apply String.eqb_refl]. }
    destruct (o_name c) as [m|]; [|exact Hk]. destruct (String.eqb m n); [exact Hk|now apply keeps_refl].
  - unfold link. destruct (link_strings ports) as [cs [e|]].
    + apply append_keeps, Hi.
    + eapply keeps_trans; [apply append_keeps, Hi|]. apply rebuild_keeps.
      apply (append_keeps cs Hi).
Qed.

Lemma run_keeps os s : names_inv s -> keeps s (nrun x0 d0 s os).
Proof.
  revert s. unfold nrun. induction os as [|o os IH]; intros s Hi; [now apply keeps_refl|]. cbn [fold_left].
  pose proof (step_keeps o Hi) as Hk. eapply keeps_trans; [exact Hk|]. apply IH, Hk.
Qed.

Lemma empty_inv : names_inv (ns_empty X D).
Proof. apply prefix_refl. Qed.

(** C10: once a component is part of the network, no later call replaces it. *)
Theorem names_permanent (os1 os2 : list nop) n :
  let s := nrun x0 d0 (ns_empty X D) os1 in
  let s' := nrun x0 d0 s os2 in
  In n (ns_names s) -> In n (ns_names s') /\ stored s' n = stored s n.
Proof.
  cbn. intros Hn. pose proof (run_keeps os1 empty_inv) as (Hi & _).
  pose proof (run_keeps os2 Hi) as (_ & Hp & _ & Hs). split; [eapply prefix_In; eassumption|auto].
Qed.

Theorem add_refused (s : nstate) n c : In n (ns_names s) -> add_component s n c = (s, Some AttributeError).
Proof.
  intros H. unfold add_component.
  assert (E : existsb (String.eqb n) (ns_names s) = true) by (apply existsb_exists; exists n; split; [exact H|apply String.eqb_refl]).
  now rewrite E.
Qed.

(** C66: a network built by any history of calls is the one built at once from its connections. *)
Lemma set_buffers_clean (mods : comps X D) conns : set_buffers x0 d0 mods (map clean_conn conns) = set_buffers x0 d0 mods conns.
Proof. unfold set_buffers. destruct conns; [reflexivity|]. cbn [map]. destruct mods; [reflexivity|]. rewrite clean_idem.
  change (clean_conn s :: map clean_conn (map clean_conn conns)) with (map clean_conn (s :: map clean_conn conns)).
  cbn [map]. now rewrite clean_idems. Qed.

Lemma plain_name_mods names (mods : list (string * cobj)) : plain (name_mods names mods) = plain mods.
Proof.
  unfold plain, name_mods. rewrite map_map. apply map_ext. intros [k c]. cbn.
  destruct (existsb (String.eqb k) names); reflexivity.
Qed.

Theorem link_builds (s s' : nstate) ports : link x0 d0 s ports = (s', None) ->
  ns_mods s <> [] -> ns_conns s ++ fst (link_strings ports) <> [] ->
  exists b, ns_buf s' = Built b
    /\ build x0 d0 (plain (ns_mods s)) (ns_conns s ++ fst (link_strings ports)) = Ok b
    /\ ns_conns s' = map clean_conn (ns_conns s ++ fst (link_strings ports))
    /\ plain (ns_mods s') = plain (ns_mods s).
Proof.
  unfold link. destruct (link_strings ports) as [cs [e|]]; [discriminate|]. cbn [fst].
  unfold rebuild. cbn [ns_conns ns_mods]. intros H Hm Hc.
  destruct (ns_conns s ++ cs) as [|c0 l] eqn:Ec; [congruence|].
  destruct (ns_mods s) as [|m ms] eqn:Em; [congruence|]. rewrite <- Em in *.
  destruct (set_buffers x0 d0 (plain (ns_mods s)) (c0 :: l)) as [[[cs' b]|]|e] eqn:Eb.
  - injection H as <-. cbn. exists b. repeat split; [|apply plain_name_mods]. unfold build. rewrite Eb. reflexivity.
  - exfalso. unfold set_buffers in Eb. destruct (plain (ns_mods s)) eqn:Ep; [rewrite Em in Ep; discriminate|].
    cbv zeta in Eb. destruct (select_comps _ _); [|discriminate]. cbn [bind] in Eb. destruct (net_buf _ _ _ _); discriminate.
  - discriminate.
Qed.

Lemma build_clean (mods : comps X D) conns : build x0 d0 mods (map clean_conn conns) = build x0 d0 mods conns.
Proof. unfold build. now rewrite set_buffers_clean. Qed.

(** All connections declared by a list of links. *)
Definition declared (os : list nop) : list string :=
  flat_map (fun o => match o with OAdd _ _ => [] | OLink _ _ p => fst (link_strings p) end) os.

Theorem links_at_once (s s' : nstate) (links : list (list parg)) :
  ns_mods s <> [] -> accepted (nstep x0 d0) s (map (@OLink X D) links) s' -> declared (map (@OLink X D) links) <> [] ->
  exists b, ns_buf s' = Built b
    /\ build x0 d0 (plain (ns_mods s)) (ns_conns s ++ declared (map (@OLink X D) links)) = Ok b.
Proof.
  intros Hm Ha Hd.
  assert (Hg : forall links s0 s1, accepted (nstep x0 d0) s0 (map (@OLink X D) links) s1 -> ns_mods s0 <> [] ->
    map clean_conn (ns_conns s1) = map clean_conn (ns_conns s0 ++ declared (map (@OLink X D) links))
    /\ plain (ns_mods s1) = plain (ns_mods s0)
    /\ (ns_conns s0 ++ declared (map (@OLink X D) links) <> [] -> links <> [] ->
        exists b, ns_buf s1 = Built b /\ build x0 d0 (plain (ns_mods s1)) (ns_conns s1) = Ok b)).
  { clear. induction links as [|p links IH]; intros s0 s2 Ha Hm; cbn [map] in Ha; inversion Ha; subst.
    - cbn. rewrite app_nil_r. repeat split. congruence.
    - cbn [nstep] in *. match goal with H : link _ _ _ _ = _ |- _ => rename H into Hl end.
      match goal with H : accepted _ _ _ _ |- _ => rename H into Ha' end.
      destruct (list_eq_dec string_dec (ns_conns s0 ++ fst (link_strings p)) []) as [En|Hne].
      + (* nothing declared yet: the state is unchanged *)
        destruct (app_eq_nil _ _ En) as [E1 E2].
        assert (Es : s1 = s0).
        { unfold link in Hl. destruct (link_strings p) as [cs [e|]]; [discriminate|]. cbn in E2. subst cs.
          rewrite E1 in Hl. cbn in Hl. injection Hl as <-. destruct s0; cbn in *. now subst. }
        subst s1. destruct (IH _ _ Ha' Hm) as (I1 & I2 & I3).
        cbn [map declared flat_map]. fold (declared (map (@OLink X D) links)). rewrite E2. cbn [app].
        repeat split; auto. intros Hx _. destruct links as [|p' links]; [|apply I3; [exact Hx|discriminate]].
        cbn in Hx. rewrite E1 in Hx. cbn in Hx. congruence.
      + destruct (link_builds Hl Hm Hne) as (b & B1 & B2 & B3 & B4).
        assert (Hm1 : ns_mods s1 <> []).
        { intros E. rewrite E in B4. cbn in B4. destruct (ns_mods s0); [congruence|discriminate]. }
        destruct (IH _ _ Ha' Hm1) as (I1 & I2 & I3).
        cbn [map declared flat_map]. fold (declared (map (@OLink X D) links)).
        split; [|split].
        * rewrite I1, B3, map_app, clean_idems, app_assoc, (map_app _ (ns_conns s0 ++ _)). reflexivity.
        * congruence.
        * intros _ _. destruct links as [|p' links].
          -- inversion Ha'; subst. exists b. split; [exact B1|]. rewrite B3, B4, build_clean. exact B2.
          -- apply I3; [|discriminate]. rewrite B3. intros E. apply app_eq_nil in E. destruct E as [E _].
             destruct (ns_conns s0 ++ fst (link_strings p)); [congruence|discriminate]. }
  destruct (Hg _ _ _ Ha Hm) as (I1 & I2 & I3). destruct I3 as (b & B1 & B2).
  - intros E. apply app_eq_nil in E. tauto.
  - intros ->. apply Hd. reflexivity.
  - exists b. split; [exact B1|]. rewrite <- build_clean, I1, build_clean, I2 in B2. exact B2.
Qed.

(** C09: what survives of a failed call. *)
Theorem link_rejected_unchanged (s : nstate) ports e : link_strings ports = ([], Some e) ->
  link x0 d0 s ports = (s, Some e).
Proof. intros H. unfold link. rewrite H, app_nil_r. destruct s; reflexivity. Qed.

Lemma unreadable_clean conn : unreadable conn -> unreadable (clean_conn conn).
Proof.
  intros (n1 & s1 & n2 & s2 & Hs & H). exists (strip n1), (strip s1), (strip n2), (strip s2).
  rewrite split_clean, Hs, !py_int_strip. auto.
Qed.

Lemma unreadable_set_buffers (mods : comps X D) conns c : In c conns -> unreadable c -> mods <> [] ->
  exists e, set_buffers x0 d0 mods conns = Err e.
Proof.
  intros Hin Hu Hm. destruct conns as [|c0 l]; [destruct Hin|]. destruct mods as [|m ms]; [congruence|].
  unfold set_buffers. cbv zeta. destruct (select_comps _ _) as [cs|e]; [|eexists; reflexivity]. cbn [bind].
  destruct (net_buf x0 d0 cs (map clean_conn (c0 :: l))) as [b|e] eqn:E; [|eexists; reflexivity]. exfalso.
  destruct (net_buf_inv E) as (_ & HC & _). unfold net_C in HC.
  apply (in_map clean_conn) in Hin. apply unreadable_clean in Hu. revert Hin Hu HC.
  generalize (clean_conn c) as d, (map clean_conn (c0 :: l)) as ds. intros d ds Hin Hu.
  generalize (block_mat (@b_C X D) false cs). induction ds as [|x ds IH]; [destruct Hin|]. intros C0 HC.
  cbn [foldM] in HC. destruct Hin as [->|Hin].
  - destruct Hu as (n1 & s1 & n2 & s2 & Hs & Hp). unfold parse_connection in HC. rewrite Hs in HC.
    destruct Hp as [Hp|Hp]; rewrite Hp in HC; [discriminate HC|].
    destruct (py_int s1); discriminate HC.
  - destruct (parse_connection cs x) as [o|]; [|discriminate]. cbn [bind] in HC.
    destruct o as [[i j]|]; eapply IH; eauto.
Qed.

(** Once such a connection was given, every later link fails. *)
Theorem unreadable_forever (s : nstate) c os ports : ns_mods s <> [] -> In c (ns_conns s) -> unreadable c ->
  exists e, snd (link x0 d0 (nrun x0 d0 s os) ports) = Some e.
Proof.
  intros Hm Hin Hu.
  assert (Hinv : forall os s, ns_mods s <> [] /\ (exists c, In c (ns_conns s) /\ unreadable c) ->
    let s' := nrun x0 d0 s os in ns_mods s' <> [] /\ (exists c, In c (ns_conns s') /\ unreadable c)).
  { clear. induction os as [|o os IH]; intros s H; [exact H|]. cbn. apply IH. clear IH.
    destruct H as [Hm (c & Hin & Hu)]. destruct o as [n k|ports]; cbn [nstep].
    - unfold add_component. destruct (existsb _ _); [cbn; eauto|].
      assert (Hd : forall d, dict_set String.eqb n k d <> []) by (intros [|[k' v] d]; cbn; [|destruct (String.eqb n k')]; discriminate).
      destruct (o_name k) as [m|]; [destruct (String.eqb m n)|]; cbn; eauto.
    - unfold link. destruct (link_strings ports) as [cs [e|]].
      + cbn. split; [exact Hm|]. exists c. split; [apply in_or_app; auto|exact Hu].
      + unfold rebuild. cbn [ns_conns ns_mods].
        destruct (ns_conns s ++ cs) as [|c0 l] eqn:Ec; [destruct (ns_conns s); [destruct Hin|discriminate]|].
        destruct (ns_mods s) as [|m ms] eqn:Em; [congruence|]. rewrite <- Em in *.
        assert (Hc : exists c, In c (map clean_conn (c0 :: l)) /\ unreadable c).
        { exists (clean_conn c). split; [|now apply unreadable_clean]. apply in_map. rewrite <- Ec. apply in_or_app; auto. }
        assert (Hn : forall names, name_mods names (ns_mods s) <> []) by (intros names; rewrite Em; discriminate).
        destruct (set_buffers _ _ _ _) as [[[cs' b]|]|e]; cbn [fst ns_mods ns_conns]; auto.
        split; [congruence|]. exists c. split; [|exact Hu]. rewrite <- Ec. apply in_or_app; auto. }
  destruct (Hinv os s) as [Hm' (c' & Hin' & Hu')]; [eauto|]. cbn in *.
  set (t := nrun x0 d0 s os) in *. unfold link. destruct (link_strings ports) as [cs [e|]]; [eexists; reflexivity|].
  unfold rebuild. cbn [ns_conns ns_mods].
  destruct (ns_conns t ++ cs) as [|c0 l] eqn:Ec; [destruct (ns_conns t); [destruct Hin'|discriminate]|].
  destruct (ns_mods t) as [|m ms] eqn:Em; [congruence|]. rewrite <- Em in *.
  destruct (@unreadable_set_buffers (plain (ns_mods t)) (c0 :: l) c') as [e He]; auto.
  - rewrite <- Ec. apply in_or_app; auto.
  - rewrite Em. discriminate.
  - rewrite He. eexists. reflexivity.
Qed.
End S.
