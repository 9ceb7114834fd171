(** Exact answers where C08, C29 and C31 fail: which connections wire a port to itself, what
    becomes of light between delayed and instantaneous ports, and whose parameters a
    simulation uses. *)
From Coq Require Import QArith Qcanon Ring Permutation.
From Verif Require Import Base PyStr NetModel NetSpec NetProofs WireProofs SimModel SimAlg SimSpec SimNodes SimProofs SimMore SimDelay SimRegular SimCut
  CacheModel CacheProofs RingExample PropNet PropSim.
Set Implicit Arguments.
Unset Strict Implicit.
Local Open Scope list_scope.
Local Open Scope nat_scope.

(** * C08 *)
(** An accepted connection wires a port to itself exactly if it names the same component twice,
    with indices that differ by the number of its free ports. *)
Theorem C08_exact (X D : Type) (cs : list (string * buf X D)) conn n1 s1 k1 n2 s2 k2 i j :
  NoDup (map fst cs) -> orders_ok cs ->
  split_colon conn = [n1; s1; n2; s2] -> py_int s1 = Some k1 -> py_int s2 = Some k2 ->
  parse_connection cs conn = Ok (Some (i, j)) ->
  (i = j <-> n1 = n2 /\ exists c f, In (n1, c) cs /\ free_count c f /\ Z.abs (k1 - k2) = Z.of_nat f).
Proof.
  intros Hnd Ho Hs H1 H2 Hp.
  pose proof (parse_Some Hp) as (m1 & t1 & l1 & m2 & t2 & l2 & Ht & G1 & G2 & Gp1 & Gp2).
  rewrite Hs in Ht. injection Ht as <- <- <- <-.
  assert (l1 = k1) by congruence. assert (l2 = k2) by congruence. subst l1 l2.
  destruct (names_port_located Ho Gp1) as (c1 & q1 & (pre1 & post1 & Hc1 & E1 & Hq1) & Hr1 & _).
  destruct (names_port_located Ho Gp2) as (c2 & q2 & (pre2 & post2 & Hc2 & E2 & Hq2) & Hr2 & _).
  assert (I1 : In (n1, c1) cs) by (rewrite Hc1; apply in_or_app; right; left; reflexivity).
  assert (O1 : order_ok c1) by (apply (Ho n1); exact I1).
  assert (FL : free_count c1 (length (free_ports c1))).
  { apply num_free_count. unfold num_free, free_ports. apply Permutation_length.
    apply NoDup_Permutation; [apply NoDup_filter, order_ok_NoDup, O1|apply NoDup_filter, seq_NoDup|].
    intros x. rewrite !filter_In. split; intros [H H']; (split; [|exact H']).
    - exact (Permutation_in _ O1 H).
    - exact (Permutation_in _ (Permutation_sym O1) H). }
  assert (FU : forall n, free_count c1 n -> n = length (free_ports c1)).
  { intros n H. apply num_free_count in H, FL. congruence. }
  assert (Hnf : NoDup (free_ports c1)) by (apply NoDup_filter, order_ok_NoDup, O1).
  apply resolves_index in Hr1, Hr2. apply py_index_Ok in Hr1, Hr2.
  assert (B : forall A (l : list A) n a, nth_error l n = Some a -> n < length l).
  { intros A l n a H. apply nth_error_Some. congruence. }
  split.
  - intros E. rewrite E1, E2 in E. destruct (located_unique Hc1 Hc2 Hq1 Hq2 E) as (<- & <- & <- & <- & <-).
    split; [reflexivity|]. exists c1, (length (free_ports c1)). split; [exact I1|]. split; [exact FL|].
    assert (NK : k1 <> k2).
    { intros <-. unfold parse_connection in Hp. rewrite Hs, H1, H2 in Hp. cbn [bind of_option] in Hp.
      rewrite String.eqb_refl, Z.eqb_refl in Hp. discriminate Hp. }
    destruct Hr1 as [[P1 R1]|(P1 & Q1 & R1)], Hr2 as [[P2 R2]|(P2 & Q2 & R2)];
      pose proof (NoDup_nth_error_eq Hnf R1 R2); lia.
  - intros [<- (c & f & Ic & Fc & Dz)].
    destruct (decomp_unique Hnd Hc1 Hc2) as (<- & <- & <-).
    assert (c = c1).
    { clear - Hnd I1 Ic. induction cs as [|[n d] l IH]; [destruct Ic|]. cbn in Hnd. inversion Hnd as [|? ? N1 N2]; subst.
      assert (NI : forall d, ~ In (n, d) l) by (intros x H; apply N1; apply in_map_iff; exists (n, x); auto).
      destruct Ic as [E|Ic], I1 as [E1|I1]; [congruence| | |auto].
      - injection E as -> ->. exfalso; eapply NI; eauto.
      - injection E1 as -> ->. exfalso; eapply NI; eauto. }
    subst c. rewrite (FU _ Fc) in Dz. rewrite E1, E2. f_equal.
    destruct Hr1 as [[P1 R1]|(P1 & Q1 & R1)], Hr2 as [[P2 R2]|(P2 & Q2 & R2)];
      pose proof (B _ _ _ _ R1); pose proof (B _ _ _ _ R2); try lia.
    + replace (Z.of_nat (length (free_ports c1)) + k2)%Z with k1 in R2 by lia. congruence.
    + replace (Z.of_nat (length (free_ports c1)) + k1)%Z with k2 in R1 by lia. congruence.
Qed.
Print Assumptions C08_exact.

Example C08_exact_ex : parse_connection ring_mods "dc:3:dc:-1" = Ok (Some (3, 3)) /\
  parse_connection ring_mods "dc:3:dc:-2" = Ok (Some (3, 2)) /\ free_count (lf 4) 4.
Proof. split; [reflexivity|]. split; [reflexivity|]. apply num_free_count. reflexivity. Qed.

(** * C29 *)
(** For every circuit: the detected fields are those of the circuit without the coefficients
    between delayed and instantaneous ports. *)
Theorem C29_exact (K : Type) (k0 k1 : K) (kadd kmul ksub : K -> K -> K) (kopp : K -> K)
  (solve : nat -> nat -> mat K -> mat K -> option (mat K)) (A : Type) (act : A -> nat -> field K -> A * field K)
  (e : env) (b : net K) s0 source outs w c :
  ring_theory k0 k1 kadd kmul ksub kopp (@eq K) -> solver_sound k0 kadd kmul solve ->
  flags_ok b -> num_act b = 0 -> w < e_num_wl e ->
  forward k0 k1 kadd kmul ksub kopp solve act e b s0 source = Ok outs ->
  exists a o, waves k0 kadd kmul ksub e (cut k0 e b) w (e_num_t e) (injected k0 b source w c) a o
           /\ reads k0 b outs w c (e_num_t e) a.
Proof.
  exact (fun KR SS F => @forward_cut K k0 k1 kadd kmul ksub kopp KR solve A act SS e b s0 source outs w c
    (proj1 (flags_separate b) F)).
Qed.
Print Assumptions C29_exact.

(** The circuit of [C29_mixed_refuted]: the coefficient 1 from the source to the detector is lost. *)
Example C29_exact_ex : flags_ok qmixed /\ num_act qmixed = 0 /\ (exists outs, qforward (tenv 1) qmixed always = Ok outs)
  /\ b_S qmixed 2 1 0 = (qc1, qc0) /\ b_S (cut qc0 (tenv 1) qmixed) 2 1 0 = (qc0, qc0).
Proof.
  split; [apply flagsb_ok; vm_compute; reflexivity|]. split; [reflexivity|].
  split; [apply is_ok_ex; vm_compute; reflexivity|]. split; reflexivity.
Qed.

(** * C31 *)
(** The environment of the last call that could initialize. *)
Definition last_env (P X : Type) (ops : list (cop P X)) : option nat :=
  fold_left (fun m o => match o with CSet _ _ => m | CInit _ _ e | CForward _ e _ _ => Some e end) ops None.
(** After [l1], [o] initializes the network in [env]. *)
Definition initializes (P X : Type) (l1 : list (cop P X)) (o : cop P X) (env : nat) : Prop :=
  match o with
  | CSet _ _ => False
  | CInit _ _ e => e = env
  | CForward _ e g _ => e = env /\ (g = true \/ last_env l1 <> Some env)
  end.

Section Cache.
Variables (P M X Y : Type) (init : P -> nat -> M) (simulate : M -> nat -> X -> Y).
Notation crun := (crun init simulate).

Lemma last_env_snoc (ops : list (cop P X)) o : last_env (ops ++ [o]) =
  match o with CSet _ _ => last_env ops | CInit _ _ e | CForward _ e _ _ => Some e end.
Proof. unfold last_env. rewrite fold_left_app. reflexivity. Qed.

Lemma cache_env p ops : option_map fst (c_cache (crun p ops)) = last_env ops.
Proof.
  induction ops as [|o ops IH] using rev_ind; [reflexivity|].
  rewrite crun_snoc, last_env_snoc. destruct o as [f|e|e g x]; [exact IH|reflexivity|].
  cbn [cstep cforward fst]. unfold prepare. destruct (c_cache (crun p ops)) as [[e' m]|] eqn:E; [|reflexivity].
  destruct (negb (e' =? e) || g) eqn:R; [reflexivity|]. rewrite E. cbn.
  apply orb_false_iff in R as [R _]. apply negb_false_iff, Nat.eqb_eq in R. congruence.
Qed.

Lemma keeps_cache p ops env l2 m : c_cache (crun p ops) = Some (env, m) -> Forall (@keeps P X env) l2 ->
  c_cache (crun p (ops ++ l2)) = Some (env, m).
Proof.
  intros E. induction l2 as [|o l2 IH] using rev_ind; intros F; [now rewrite app_nil_r|].
  apply Forall_app in F as [F Fo]. inversion Fo as [|? ? K _]; subst. specialize (IH F).
  rewrite app_assoc, crun_snoc. destruct o as [f|e|e g x]; [exact IH|destruct K|]. destruct K as [-> ->].
  cbn [cstep cforward fst]. unfold prepare. rewrite IH, Nat.eqb_refl. exact IH.
Qed.

Lemma initializes_cache p l1 o env : initializes l1 o env ->
  c_cache (crun p (l1 ++ [o])) = Some (env, init (params p l1) env).
Proof.
  intros I. rewrite crun_snoc. destruct o as [f|e|e g x]; [destruct I| |].
  - cbn in I. subst e. cbn. now rewrite crun_par.
  - destruct I as [-> I]. cbn [cstep cforward fst]. unfold prepare. pose proof (cache_env p l1) as C.
    destruct (c_cache (crun p l1)) as [[e' m]|] eqn:E; [|cbn; now rewrite crun_par].
    replace (negb (e' =? env) || g) with true; [cbn; now rewrite crun_par|].
    destruct I as [->|I]; [now rewrite orb_true_r|]. cbn in C. rewrite <- C in I.
    destruct (Nat.eqb_spec e' env); [congruence|reflexivity].
Qed.
End Cache.

(** Without gradients, in the environment of the last initialization: the parameters of that
    initialization, whatever they are now. *)
Theorem C31_exact (P M X Y : Type) (init : P -> nat -> M) (simulate : M -> nat -> X -> Y) p l1 o l2 env x :
  initializes l1 o env -> Forall (keeps env) l2 ->
  snd (cforward init simulate (crun init simulate p (l1 ++ o :: l2)) env false x)
    = Some (simulate (init (params p l1) env) env x).
Proof.
  intros I F. unfold cforward, prepare.
  assert (E : c_cache (crun init simulate p (l1 ++ o :: l2)) = Some (env, init (params p l1) env)).
  { change (o :: l2) with ([o] ++ l2). rewrite app_assoc. apply keeps_cache; auto. apply initializes_cache; auto. }
  rewrite E, Nat.eqb_refl. cbn [negb orb snd]. rewrite E. reflexivity.
Qed.

(** Every history has such a last initialization, unless the network was never initialized or last
    in another environment; then, or with gradients, the parameters are the current ones. *)
Theorem C31_cases (P M X Y : Type) (init : P -> nat -> M) (simulate : M -> nat -> X -> Y) p (ops : list (cop P X)) env :
  (exists l1 o l2, ops = l1 ++ o :: l2 /\ initializes l1 o env /\ Forall (keeps env) l2) /\ last_env ops = Some env \/
  last_env ops <> Some env /\ forall grad x,
    snd (cforward init simulate (crun init simulate p ops) env grad x) = Some (simulate (init (params p ops) env) env x).
Proof.
  assert (ED : {last_env ops = Some env} + {last_env ops <> Some env}) by (decide equality; apply Nat.eq_dec).
  destruct ED as [E|E].
  - left. split; [|exact E]. induction ops as [|o ops IH] using rev_ind; [discriminate|].
    rewrite last_env_snoc in E. destruct o as [f|e|e g x].
    + destruct (IH E) as (l1 & o & l2 & -> & I & F). exists l1, o, (l2 ++ [CSet X f]).
      rewrite <- app_assoc. split; [reflexivity|]. split; [exact I|]. apply Forall_app. split; [exact F|]. repeat constructor.
    + injection E as ->. exists ops, (CInit P X env), []. split; [reflexivity|]. split; [reflexivity|constructor].
    + injection E as ->.
      assert (GD : (g = true \/ last_env ops <> Some env) \/ g = false /\ last_env ops = Some env).
      { destruct g; auto. assert (ED : {last_env ops = Some env} + {last_env ops <> Some env}) by (decide equality; apply Nat.eq_dec).
        destruct ED; auto. }
      destruct GD as [G|[-> G]].
      * exists ops, (CForward P env g x), []. split; [reflexivity|]. split; [split; auto|constructor].
      * destruct (IH G) as (l1 & o & l2 & -> & I & F). exists l1, o, (l2 ++ [CForward P env false x]).
        rewrite <- app_assoc. split; [reflexivity|]. split; [exact I|]. apply Forall_app. split; [exact F|]. repeat constructor.
  - right. split; [exact E|]. intros grad x. pose proof (cache_env init simulate p ops) as C. unfold cforward, prepare.
    destruct (c_cache (crun init simulate p ops)) as [[e m]|] eqn:EC; [|cbn; now rewrite crun_par].
    cbn in C. destruct (Nat.eqb_spec e env) as [->|N]; [congruence|]. cbn. now rewrite crun_par.
Qed.
Print Assumptions C31_exact.
Print Assumptions C31_cases.

(** Parameters 5 at the initialization and 7 at the simulation. *)
Example C31_exact_ex : let l1 := [CSet unit (fun _ => 5)] in let l2 := [CForward nat 1 false tt; CSet unit (fun _ => 7)] in
  initializes l1 (CForward nat 1 false tt) 1 /\ Forall (keeps 1) l2 /\
  params 0 l1 = 5 /\ params 0 (l1 ++ CForward nat 1 false tt :: l2) = 7.
Proof. repeat split; auto; [right; discriminate|]. repeat constructor. Qed.

(** * C30 *)
(** The number of ports with a delay; sources, detectors and active ports have one. *)
Definition num_delayed {K} (e : env) (b : net K) : nat :=
  length (filter (fun i => negb (lag e b i =? 0)) (seq 0 (b_np b))).

(** Exactly which simulations succeed, for components that do not mix delayed and instantaneous
    ports: those of terminated circuits without resonance, with a time step or in the frequency
    domain, with a detector or with one delayed port only. *)
Theorem C30_exact (K : Type) (k0 k1 : K) (kadd kmul ksub : K -> K -> K) (kopp : K -> K)
  (solve : nat -> nat -> mat K -> mat K -> option (mat K)) (A : Type) (act : A -> nat -> field K -> A * field K)
  (e : env) (b : net K) s0 source :
  ring_theory k0 k1 kadd kmul ksub kopp (@eq K) ->
  solver_complete k0 kadd kmul solve -> solver_regular k0 kadd kmul solve ->
  (forall dt, e_dt e = Some dt -> (0 < dt)%Q) -> flags_ok b -> e_num_t e <> 0 ->
  (forall w, w < e_num_wl e -> unmixed k0 e b w) ->
  ((exists outs, forward k0 k1 kadd kmul ksub kopp solve act e b s0 source = Ok outs) <->
   terminated b = true /\ (e_freq e = true \/ e_dt e <> None) /\ (num_det b <> 0 \/ num_delayed e b = 1) /\
   forall w, w < e_num_wl e -> no_resonance k0 kadd kmul ksub e b w).
Proof.
  intros KR SC SR DT FO NT UM. pose proof (proj1 (flags_separate b) FO) as Sep.
  assert (NM : length (mc_nodes e b) = num_delayed e b).
  { rewrite (mc_length e Sep). unfold mc_sorted, num_delayed. f_equal. apply filter_ext. intros i. apply mc_lag. }
  split.
  - intros (outs & HF). destruct (forward_inv HF) as (m & EI & HB & HN & _).
    destruct (initialize_inv EI) as (TM & _ & EM & _). split; [exact TM|]. split; [|split].
    + unfold buffer_depth in HB. destruct (e_freq e); [now left|]. right. destruct (e_dt e); discriminate.
    + rewrite EM, NM in HN. destruct (Nat.eq_dec (num_det b) 0) as [Z|]; [|now left]. right. destruct (HN Z); [auto|contradiction].
    + intros w Lw. exact (forward_regular KR SR Lw (UM w Lw) HF).
  - intros (TM & TD & NN & NR).
    assert (HT : timed e).
    { destruct TD as [F|F]; [now left|]. right. destruct (e_dt e) as [dt|]; [|contradiction]. exists dt. auto. }
    assert (HC : exists Cs, mapM (reduced_C k0 k1 kadd kmul ksub kopp solve b (mc_nodes e b) (ml_nodes e b)) (seq 0 (e_num_wl e)) = Ok Cs).
    { assert (H : forall w, In w (seq 0 (e_num_wl e)) -> exists R, reduced_C k0 k1 kadd kmul ksub kopp solve b (mc_nodes e b) (ml_nodes e b) w = Ok R).
      { intros w Iw. apply in_seq in Iw. apply (complete_reduced KR); auto; [apply UM|apply NR]; lia. }
      revert H. generalize (seq 0 (e_num_wl e)) as l. induction l as [|w l IH]; intros H; [eexists; reflexivity|].
      destruct (H w (or_introl eq_refl)) as (R & HR). destruct IH as (Cs & HCs); [intros; apply H; now right|].
      exists (R :: Cs). cbn [mapM]. rewrite HR. cbn [bind]. rewrite HCs. reflexivity. }
    destruct HC as (Cs & HC).
    assert (Hmc : length (mc_sorted e b) <> 0).
    { pose proof (mc_length e Sep) as ML. pose proof (mc_len_sum e b). destruct NN; lia. }
    assert (EI : exists m, initialize k0 k1 kadd kmul ksub kopp solve e b = Ok (Some m)).
    { unfold initialize. rewrite TM. cbn [negb orb]. apply Nat.eqb_neq in Hmc. rewrite Hmc, HC. eexists. reflexivity. }
    destruct EI as (m & EI). unfold forward. rewrite EI. cbn [bind].
    rewrite (depth_eq HT Sep EI). cbn [bind]. rewrite Nat.eqb_refl. cbn [negb].
    destruct (initialize_inv EI) as (_ & _ & -> & _). rewrite NM.
    destruct ((num_det b =? 0) && negb (num_delayed e b =? 1) && negb (e_num_t e =? 0)) eqn:EN; [|eauto].
    apply andb_true_iff in EN as [EN _]. apply andb_true_iff in EN as [E1 E2]. apply negb_true_iff, Nat.eqb_neq in E2.
    apply Nat.eqb_eq in E1. destruct NN; contradiction.
Qed.
Print Assumptions C30_exact.

(** A ring with its source and detector meets all conditions; two connected sources fail only the
    third. *)
Example C30_exact_ex : num_delayed (tenv 1) two_sources = 2 /\ num_det two_sources = 0 /\ terminated two_sources = true /\
  exists outs, qforward (tenv 2) qring pulse = Ok outs.
Proof. do 3 (split; [vm_compute; reflexivity|]). apply is_ok_ex. vm_compute. reflexivity. Qed.
