(** Calls of one network object are independent of earlier calls, or not (C109). *)
From Coq Require Import QArith.
From Verif Require Import Base NetModel NetSpec SimModel SimAlg SimSpec SimNodes SimProofs SimDelay LifeModel.
Set Implicit Arguments.
Unset Strict Implicit.
Local Open Scope nat_scope.

Section Life.
Variables (K : Type) (k0 k1 : K) (kadd kmul ksub : K -> K -> K) (kopp : K -> K).
Variable solve : nat -> nat -> mat K -> mat K -> option (mat K).
Variable P : Type.
Variable envs : nat -> env.
Variable base : buf unit unit.
Variable S_at : P -> nat -> nat -> nat -> nat -> K * K.
Variable del_at : P -> nat -> nat -> Q.
Variable comp_init : P -> nat -> nat -> res unit.
Variable A : Type.
Variable act : P -> inits P -> A -> nat -> field K -> res (A * field K).
Variable s0 : A.
Variable n : nat.

Notation net_at := (net_at base S_at del_at).
Notation linit := (linit k0 k1 kadd kmul ksub kopp solve envs base S_at del_at comp_init).
Notation lforward := (lforward k0 k1 kadd kmul ksub kopp solve envs base S_at del_at comp_init act s0).
Notation lopstep := (lopstep k0 k1 kadd kmul ksub kopp solve envs base S_at del_at comp_init act s0).
Notation lops := (lops k0 k1 kadd kmul ksub kopp solve envs base S_at del_at comp_init act s0).
Notation simulate_stored := (simulate_stored k0 kadd kmul ksub envs base act s0).
Notation initialize := (initialize k0 k1 kadd kmul ksub kopp solve).
Notation lop := (lop K P).
Notation lstate := (lstate K P).
Notation fresh := (@fresh K P n).

(** Every port is connected, and there is a source, a detector or an active component. *)
Definition ready : Prop := terminated base = true /\
  exists i, i < b_np base /\ (b_src base i = true \/ b_det base i = true \/ b_act base i = true).

(** The network can be initialized with these parameters in this environment. *)
Definition initializes (p : P) (en : nat) : bool :=
  forallb (fun i => match comp_init p en i with Ok _ => true | Err _ => false end) (seq 0 n)
  && match initialize (envs en) (net_at p en) with Ok (Some _) => true | _ => false end.

(** A history in one word: the environment of the last successful initialization, and whether
    something happened since: parameters were changed, the network could not be initialized, or one
    of its components was initialized without it. *)
Definition memory := option (nat * bool).
Definition soiled (s : memory) : memory := match s with Some (e, _) => Some (e, true) | None => None end.
Definition renewed (p : P) (en : nat) (s : memory) : memory :=
  if initializes p en then Some (en, false) else soiled s.
Definition remember (ps : P * memory) (o : lop) : P * memory :=
  let '(p, s) := ps in
  match o with
  | LSet f => (f p, soiled s)
  | LTouch _ _ => (p, soiled s)
  | LInit en => (p, renewed p en s)
  | LForward en grad _ =>
      (p, match s with
          | Some (e, _) => if negb (e =? en) || grad then renewed p en s else s
          | None => renewed p en s
          end)
  end.
Definition history (p : P) (ops : list lop) : P * memory := fold_left remember ops (p, None).

(** * Initialization *)
Lemma comps_length p en l i : length (fst (init_comps comp_init p en i l)) = length l.
Proof.
  revert i. induction l as [|c r IH]; intros i; [reflexivity|]. cbn. destruct (comp_init p en i); [|reflexivity].
  specialize (IH (S i)). destruct (init_comps comp_init p en (S i) r) as [r' o]. cbn in *. congruence.
Qed.

Lemma comps_outcome p en l l' i : length l = length l' ->
  snd (init_comps comp_init p en i l) = snd (init_comps comp_init p en i l').
Proof.
  revert l' i. induction l as [|c r IH]; intros [|c' r'] i E; try discriminate; [reflexivity|]. cbn.
  destruct (comp_init p en i); [|reflexivity]. injection E as E. specialize (IH r' (S i) E).
  destruct (init_comps comp_init p en (S i) r), (init_comps comp_init p en (S i) r'). exact IH.
Qed.

Lemma comps_done p en l i : snd (init_comps comp_init p en i l) = Ok tt ->
  fst (init_comps comp_init p en i l) = repeat (Some (en, p)) (length l).
Proof.
  revert i. induction l as [|c r IH]; intros i H; [reflexivity|]. cbn in *.
  destruct (comp_init p en i); [|discriminate]. specialize (IH (S i)).
  destruct (init_comps comp_init p en (S i) r) as [r' o]. cbn in *. f_equal. auto.
Qed.

Lemma comps_ok p en l i : snd (init_comps comp_init p en i l) = Ok tt <->
  forallb (fun j => match comp_init p en j with Ok _ => true | Err _ => false end) (seq i (length l)) = true.
Proof.
  revert i. induction l as [|c r IH]; intros i; [split; reflexivity|]. cbn.
  destruct (comp_init p en i); cbn; [|split; discriminate]. specialize (IH (S i)).
  destruct (init_comps comp_init p en (S i) r) as [r' o]. exact IH.
Qed.

Lemma never_broken p en : ready -> initialize (envs en) (net_at p en) <> Ok None.
Proof.
  intros (T & i & Li & F). unfold SimModel.initialize. change (terminated (net_at p en)) with (terminated base).
  rewrite T. cbn [negb orb].
  assert (M : In i (mc_sorted (envs en) (net_at p en))).
  { unfold mc_sorted. apply filter_In. split; [apply in_seq; cbn; lia|]. unfold is_mc. cbn.
    destruct F as [F|[F|F]]; rewrite F, ?orb_true_r; reflexivity. }
  destruct (mc_sorted (envs en) (net_at p en)); [destruct M|]. cbn [length Nat.eqb].
  destruct (mapM _ _); cbn; discriminate.
Qed.

Lemma linit_length p en st : length (l_comps (fst (linit p en st))) = length (l_comps st).
Proof.
  unfold LifeModel.linit. pose proof (comps_length p en (l_comps st) 0) as L.
  destruct (init_comps comp_init p en 0 (l_comps st)) as [cs [u|x]]; [|exact L].
  destruct (SimModel.initialize _ _ _ _ _ _ _ _ _) as [[m|]|x]; exact L.
Qed.

Lemma linit_outcome p en st st' : length (l_comps st) = length (l_comps st') ->
  snd (linit p en st) = snd (linit p en st').
Proof.
  intros L. unfold LifeModel.linit. pose proof (comps_outcome p en 0 L) as C.
  destruct (init_comps comp_init p en 0 (l_comps st)) as [cs o], (init_comps comp_init p en 0 (l_comps st')) as [cs' o'].
  cbn in C. subst o'. destruct o as [u|x]; [|reflexivity].
  destruct (SimModel.initialize _ _ _ _ _ _ _ _ _) as [[m|]|x]; reflexivity.
Qed.

Lemma linit_same p en st st' : ready -> length (l_comps st) = length (l_comps st') ->
  snd (linit p en st) = Ok tt -> fst (linit p en st) = fst (linit p en st').
Proof.
  intros R L. unfold LifeModel.linit. pose proof (comps_outcome p en 0 L) as C.
  pose proof (@comps_done p en (l_comps st) 0) as D. pose proof (@comps_done p en (l_comps st') 0) as D'.
  destruct (init_comps comp_init p en 0 (l_comps st)) as [cs o], (init_comps comp_init p en 0 (l_comps st')) as [cs' o'].
  cbn in C, D, D'. subst o'. destruct o as [[]|x]; [|discriminate]. rewrite (D eq_refl), (D' eq_refl), L.
  destruct (SimModel.initialize _ _ _ _ _ _ _ _ _) as [[m|]|x] eqn:E; [reflexivity| |discriminate].
  exfalso. exact (never_broken R E).
Qed.

Lemma linit_initializes p en st : ready -> length (l_comps st) = n ->
  (snd (linit p en st) = Ok tt <-> initializes p en = true).
Proof.
  intros R L. unfold LifeModel.linit, initializes. rewrite andb_true_iff.
  pose proof (comps_ok p en (l_comps st) 0) as C. rewrite L in C.
  destruct (init_comps comp_init p en 0 (l_comps st)) as [cs [[]|x]]; cbn [snd] in C.
  - destruct (SimModel.initialize _ _ _ _ _ _ _ _ _) as [[m|]|x] eqn:E; cbn [snd].
    + split; [|reflexivity]. intros _. split; [apply C|]; reflexivity.
    + exfalso. exact (never_broken R E).
    + split; [discriminate|]. intros [_ H]. discriminate.
  - split; [discriminate|]. intros [H _]. apply C in H. discriminate.
Qed.

Lemma linit_env p en st : ready -> snd (linit p en st) = Ok tt -> l_env (fst (linit p en st)) = Some en.
Proof.
  intros R. unfold LifeModel.linit. destruct (init_comps comp_init p en 0 (l_comps st)) as [cs [[]|x]]; [|discriminate].
  destruct (SimModel.initialize _ _ _ _ _ _ _ _ _) as [[m|]|x] eqn:E; [reflexivity| |discriminate].
  exfalso. exact (never_broken R E).
Qed.

Lemma linit_failed p en st x : snd (linit p en st) = Err x -> l_env (fst (linit p en st)) = l_env st.
Proof.
  unfold LifeModel.linit. destruct (init_comps comp_init p en 0 (l_comps st)) as [cs [[]|y]]; [|reflexivity].
  destruct (SimModel.initialize _ _ _ _ _ _ _ _ _) as [[m|]|y]; [discriminate|discriminate|reflexivity].
Qed.

(** * Histories *)
(** The state agrees with the history: if nothing happened since the last initialization, it is the
    one a new network would have. *)
Definition agrees (p : P) (st : lstate) (s : memory) : Prop :=
  length (l_comps st) = n /\
  match s with
  | None => l_env st = None
  | Some (en, d) => l_env st = Some en /\ (d = false -> initializes p en = true /\ st = fst (linit p en fresh))
  end.

Lemma fresh_length : length (l_comps fresh) = n.
Proof. apply repeat_length. Qed.

Lemma agrees_renewed p en st s : ready -> agrees p st s -> agrees p (fst (linit p en st)) (renewed p en s).
Proof.
  intros R [L H]. split; [rewrite linit_length; exact L|]. unfold renewed.
  destruct (initializes p en) eqn:I.
  - pose proof (proj2 (linit_initializes p en R L) I) as O. split; [exact (linit_env R O)|].
    intros _. split; [exact I|]. apply (linit_same R); [rewrite L; symmetry; exact fresh_length|exact O].
  - assert (O : exists x, snd (linit p en st) = Err x).
    { destruct (snd (linit p en st)) as [[]|x] eqn:O; [|eauto]. apply (linit_initializes p en R L) in O. congruence. }
    destruct O as [x O]. pose proof (linit_failed O) as E. destruct s as [[e d]|]; cbn.
    + split; [rewrite E; apply H|discriminate].
    + rewrite E. exact H.
Qed.

Lemma agrees_soiled p p' st st' s : agrees p st s -> l_env st' = l_env st ->
  length (l_comps st') = length (l_comps st) -> agrees p' st' (soiled s).
Proof.
  intros [L H] E L'. split; [congruence|]. destruct s as [[e d]|]; cbn.
  - split; [rewrite E; apply H|discriminate].
  - congruence.
Qed.

Lemma again_memory p st s : agrees p st s -> forall en grad,
  match l_env st with Some e => negb (e =? en) || grad | None => true end
  = match s with Some (e, _) => negb (e =? en) || grad | None => true end.
Proof. intros [_ H] en grad. destruct s as [[e d]|]; [rewrite (proj1 H)|rewrite H]; reflexivity. Qed.

Lemma agrees_step p st s o : ready -> agrees p st s ->
  fst (lopstep (p, st) o) = fst (remember (p, s) o) /\
  agrees (fst (lopstep (p, st) o)) (snd (lopstep (p, st) o)) (snd (remember (p, s) o)).
Proof.
  intros R H. destruct o as [f|en|en grad source|i en]; cbn [LifeModel.lopstep remember].
  - split; [reflexivity|]. exact (agrees_soiled (f p) H eq_refl eq_refl).
  - split; [reflexivity|]. exact (agrees_renewed en R H).
  - split; [reflexivity|]. cbn [fst snd]. unfold LifeModel.lforward. rewrite (again_memory H en grad).
    destruct s as [[e d]|].
    + destruct (negb (e =? en) || grad).
      * pose proof (agrees_renewed en R H) as G. destruct (linit p en st) as [st' o]. exact G.
      * exact H.
    + pose proof (agrees_renewed en R H) as G. destruct (linit p en st) as [st' o]. exact G.
  - destruct (comp_init p en i); [|split; [reflexivity|exact (agrees_soiled p H eq_refl eq_refl)]].
    destruct (i <? length (l_comps st)) eqn:E; [|split; [reflexivity|exact (agrees_soiled p H eq_refl eq_refl)]].
    split; [reflexivity|]. apply (agrees_soiled p H); [reflexivity|]. cbn [fst snd l_comps].
    apply Nat.ltb_lt in E. rewrite app_length, firstn_length. cbn [length]. rewrite skipn_length. lia.
Qed.

Lemma agrees_all p ops : ready -> fst (lops p n ops) = fst (history p ops) /\
  agrees (fst (lops p n ops)) (snd (lops p n ops)) (snd (history p ops)).
Proof.
  intros R. induction ops as [|o ops IH] using rev_ind.
  - split; [reflexivity|]. split; [exact fresh_length|reflexivity].
  - unfold LifeModel.lops, history in *. rewrite !fold_left_app. cbn [fold_left].
    destruct (fold_left lopstep ops (p, fresh)) as [p1 st], (fold_left remember ops (p, None)) as [p2 s].
    cbn [fst snd] in IH. destruct IH as [-> IH]. exact (agrees_step o R IH).
Qed.

(** A call after any history gives what a new network gives, unless the last successful
    initialization was in the same environment, something happened since, and gradients are off. *)
Theorem independent p ops en grad source : ready ->
  grad = true \/ snd (history p ops) <> Some (en, true) ->
  let '(q, st) := lops p n ops in
  snd (lforward q en grad source st) = snd (lforward q en grad source fresh).
Proof.
  intros R G. destruct (agrees_all p ops R) as [_ H]. destruct (lops p n ops) as [q st].
  cbn [fst snd] in H. pose proof (again_memory H en grad) as AG.
  unfold LifeModel.lforward. rewrite AG. cbn [l_env LifeModel.fresh].
  assert (LEN : length (l_comps st) = length (l_comps fresh)) by (rewrite fresh_length; apply H).
  assert (ALL : snd (let '(st', o) := linit q en st in (st', do _ <- o; simulate_stored q st' source))
              = snd (let '(st', o) := linit q en fresh in (st', do _ <- o; simulate_stored q st' source))).
  { pose proof (linit_outcome q en LEN) as O. pose proof (linit_same (p := q) (en := en) R LEN) as SM.
    destruct (linit q en st) as [st1 o1], (linit q en fresh) as [st2 o2]. cbn in O, SM. subst o2.
    destruct o1 as [[]|x]; [|reflexivity]. rewrite (SM eq_refl). reflexivity. }
  destruct (snd (history p ops)) as [[e d]|] eqn:M; [|exact ALL].
  destruct (negb (e =? en) || grad) eqn:AE; [exact ALL|].
  apply orb_false_iff in AE as [AE ->]. apply negb_false_iff, Nat.eqb_eq in AE. subst e.
  destruct G as [G|G]; [discriminate|]. destruct d; [congruence|].
  destruct H as [_ [_ H]]. destruct (H eq_refl) as [I ->].
  pose proof (proj2 (linit_initializes q en R fresh_length) I) as O.
  destruct (linit q en fresh) as [st2 o2]. cbn in O. subst o2. reflexivity.
Qed.

(** * A new network *)
Variable act0 : A -> nat -> field K -> A * field K.

Lemma lread_same m buffer : length buffer = i_depth m ->
  lread k0 kadd kmul m buffer = read_buffer k0 kadd kmul m buffer.
Proof. intros E. unfold lread. rewrite <- E, Nat.eqb_refl. reflexivity. Qed.

Lemma removelast_length T (l : list T) : length (removelast l) = pred (length l).
Proof. induction l as [|a [|b l] IH]; [reflexivity..|]. cbn [length pred] in *. cbn [removelast length] in *. lia. Qed.

Lemma lrun_same p cs (b : net K) m src T t s buffer : num_act b = num_act base ->
  (forall s t y, num_act base <> 0 -> act p cs s t y = Ok (act0 s t y)) ->
  length buffer = i_depth m -> i_depth m <> 0 ->
  lrun k0 kadd kmul ksub base act p cs m src T t s buffer
  = Ok (map snd (run k0 kadd kmul ksub act0 b m src T t s buffer)).
Proof.
  intros NB HA LB ND. revert t s buffer LB. induction T as [|T IH]; intros t s buffer LB; [reflexivity|].
  cbn [lrun run]. unfold lstep, step. rewrite (lread_same LB), NB.
  destruct (Nat.eqb_spec (num_act base) 0) as [Z|Z].
  - cbn [bind fst snd]. rewrite IH; [reflexivity|]. cbn [length]. rewrite removelast_length. lia.
  - rewrite HA by exact Z. cbn [bind].
    match goal with |- context [act0 ?a ?b ?c] => destruct (act0 a b c) as [s' z] end. cbn [fst snd].
    rewrite IH; [reflexivity|]. cbn [length]. rewrite removelast_length. lia.
Qed.

Theorem new_network p en grad source : ready -> separate base -> timed (envs en) ->
  (forall i, i < n -> comp_init p en i = Ok tt) ->
  (forall s t y, num_act base <> 0 -> act p (repeat (Some (en, p)) n) s t y = Ok (act0 s t y)) ->
  snd (lforward p en grad source fresh)
  = forward k0 k1 kadd kmul ksub kopp solve act0 (envs en) (net_at p en) s0 source.
Proof.
  intros R Sep TM HC HA. unfold LifeModel.lforward. cbn [l_env LifeModel.fresh].
  unfold LifeModel.linit, forward.
  assert (C : snd (init_comps comp_init p en 0 (l_comps fresh)) = Ok tt).
  { apply comps_ok. rewrite fresh_length. apply forallb_forall. intros i Hi. apply in_seq in Hi.
    rewrite HC by lia. reflexivity. }
  pose proof (comps_done C) as D. rewrite fresh_length in D.
  destruct (init_comps comp_init p en 0 (l_comps fresh)) as [cs o]. cbn [fst snd] in C, D. subst o cs.
  destruct (SimModel.initialize _ _ _ _ _ _ _ _ _) as [[m|]|x] eqn:EI; [|exfalso; exact (never_broken R EI)|reflexivity].
  cbn [bind snd]. unfold LifeModel.simulate_stored. cbn [l_env l_data l_delays l_num_mc l_comps].
  assert (Sep' : separate (net_at p en)) by exact Sep.
  destruct (initialize_inv EI) as (_ & NE & Emc & _ & _ & _ & HD).
  pose proof (depth_eq TM Sep' EI) as BD. pose proof (initialize_delay EI) as DEL.
  assert (DL : map (fun i => if e_freq (envs en) then 0%Q else b_del (net_at p en) i) (mc_nodes (envs en) (net_at p en))
             = map (i_delay m) (seq 0 (length (i_mc m)))).
  { rewrite (map_ext _ _ DEL). rewrite Emc.
    rewrite <- (map_map (fun i => nth i (mc_nodes (envs en) (net_at p en)) 0)
                        (fun i => if e_freq (envs en) then 0%Q else b_del (net_at p en) i)).
    f_equal. generalize (mc_nodes (envs en) (net_at p en)). intros l. clear.
    induction l as [|a l IH]; [reflexivity|]. cbn [length seq map nth]. f_equal.
    rewrite <- seq_shift, map_map. exact IH. }
  assert (LN : length (i_mc m) = length (mc_sorted (envs en) (net_at p en))) by (rewrite Emc; apply mc_length; exact Sep').
  rewrite DL, BD. cbn [bind].
  assert (LD : ldepth (envs en) (map (i_delay m) (seq 0 (length (i_mc m)))) = Ok (i_depth m)).
  { unfold buffer_depth in BD. unfold ldepth. destruct (e_freq (envs en)); [exact BD|].
    assert (NL : length (i_mc m) <> 0) by (rewrite LN; destruct (mc_sorted _ _); [congruence|discriminate]).
    remember (map (i_delay m) (seq 0 (length (i_mc m)))) as l eqn:El.
    assert (NZ : l <> []) by (intros E; apply NL; rewrite <- (seq_length (length (i_mc m)) 0), <- (map_length (i_delay m)), <- El, E; reflexivity).
    destruct l; [congruence|]. exact BD. }
  rewrite LD. cbn [bind]. change (num_det (net_at p en)) with (num_det base). change (num_src (net_at p en)) with (num_src base).
  rewrite Nat.eqb_refl, LN, Nat.eqb_refl. cbn [orb negb].
  assert (DZ : i_depth m <> 0) by (rewrite HD; discriminate).
  rewrite (@lrun_same p _ (net_at p en) m); [|reflexivity|exact HA|apply repeat_length|exact DZ].
  destruct (Nat.eqb_spec (e_num_t (envs en)) 0) as [->|NT].
  - rewrite andb_false_r. reflexivity.
  - cbn [bind negb]. rewrite andb_true_r. destruct ((num_det base =? 0) && _); [reflexivity|].
    rewrite map_map. reflexivity.
Qed.

End Life.
