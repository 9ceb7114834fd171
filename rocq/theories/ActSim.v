(** Simulating circuits with active components. *)
From Coq Require Import QArith Lia Permutation Ring.
From Verif Require Import Base NetModel SimModel SimAlg SimSpec SimNodes SimProofs ActModel ActSpec ActProofs.
Set Implicit Arguments.
Unset Strict Implicit.
Local Open Scope nat_scope.

Lemma finite_choice T (d : T) (P : nat -> T -> Prop) n : (forall w, w < n -> exists x, P w x) ->
  exists f, forall w, w < n -> P w (f w).
Proof.
  induction n as [|n IH]; intros H.
  - exists (fun _ => d). intros. lia.
  - destruct IH as [f Hf]; [intros; apply H; lia|]. destruct (H n) as [x Hx]; [lia|].
    exists (fun w => if w =? n then x else f w). intros w L. destruct (Nat.eqb_spec w n); [subst; auto|].
    apply Hf. lia.
Qed.

Lemma app_inj A (l1 l2 r1 r2 : list A) : length l1 = length l2 -> l1 ++ r1 = l2 ++ r2 -> l1 = l2 /\ r1 = r2.
Proof.
  revert l2. induction l1 as [|x l1 IH]; intros [|z l2] L E; try discriminate; auto.
  cbn in *. injection E as -> E. destruct (IH l2) as [-> ->]; auto.
Qed.

Lemma map_nth_seq A B (d : A) (f : nat -> B) (l : list A) (g : A -> B) :
  (forall k, k < length l -> g (nth k l d) = f k) -> map g l = map f (seq 0 (length l)).
Proof.
  revert f. induction l as [|x l IH]; intros f H; [reflexivity|]. cbn. f_equal.
  - apply (H 0). cbn. lia.
  - rewrite <- seq_shift, map_map. apply IH. intros k L. apply (H (S k)). cbn. lia.
Qed.

Section Ports.
Variables (K : Type).
Notation V := (nat -> nat -> prod K K).
Variables (b : net K) (cs : list (acomp V)).
Hypothesis SP : same_ports b (Nested cs).

Lemma sp_np : a_np (Nested cs) = b_np b.
Proof. unfold a_np. rewrite SP, map_length, seq_length. reflexivity. Qed.
Lemma sp_src : a_nsrc (Nested cs) = num_src b.
Proof.
  unfold a_nsrc, num_src. rewrite SP. induction (seq 0 (b_np b)) as [|i l IH]; [reflexivity|].
  cbn. destruct (b_src b i); cbn; rewrite IH; reflexivity.
Qed.
Lemma sp_act : n_act (Nested cs) = num_act b.
Proof.
  unfold n_act, num_act. rewrite SP. induction (seq 0 (b_np b)) as [|i l IH]; [reflexivity|].
  cbn. destruct (b_act b i); cbn; rewrite IH; reflexivity.
Qed.
Lemma sp_ports : act_ports (Nested cs) 0 = filter (b_act b) (seq 0 (b_np b)).
Proof.
  unfold act_ports. rewrite sp_np. apply filter_ext_in. intros i Ii. apply in_seq in Ii.
  rewrite SP, nth_indep with (d' := (b_src b 0, b_act b 0)) by (rewrite map_length, seq_length; lia).
  rewrite (map_nth (fun i => (b_src b i, b_act b i))), seq_nth, Nat.sub_0_r by lia. reflexivity.
Qed.
End Ports.

Section Sound.
Variables (K : Type) (k0 k1 : K) (kadd kmul ksub : K -> K -> K) (kopp : K -> K).
Hypothesis KR : ring_theory k0 k1 kadd kmul ksub kopp (@eq K).
Add Ring Kring : KR.
Notation cx := (prod K K).
Notation V := (nat -> nat -> cx).
Notation c0 := (c0 k0).
Notation c1 := (c1 k0 k1).
Notation cadd := (cadd kadd).
Notation cmul := (cmul kadd kmul ksub).
Notation csub := (csub ksub).
Notation copp := (copp kopp).
Notation csum := (lsum c0 cadd).
Let CR : ring_theory c0 c1 cadd cmul csub copp (@eq cx) := cx_ring KR.
Add Ring Cring : CR.
Variable solve : nat -> nat -> mat K -> mat K -> option (mat K).
Hypothesis SS : solver_sound k0 kadd kmul solve.
Variables (e : env) (b : net K) (cs : nat -> list (acomp V)).
Notation net := (fun t => Nested (cs t)).
Notation mc := (mc_nodes e b).
Notation act := (net_act k0 (length mc) net).
Hypothesis SP : forall t, same_ports b (net t).
Hypothesis AL : forall t, aligned (net t).
Hypothesis Sep : separate b.
Notation z0 := (fun _ _ : nat => (k0, k0)).
Notation initialize := (initialize k0 k1 kadd kmul ksub kopp solve e b).

(** The actions never raise. *)
Lemma action_ok t (x : field K) : exists z,
  action z0 (net t) (map (node_field x) (seq 0 (length mc))) [] = Ok z.
Proof.
  pose proof (mc_len_sum e b) as ML. set (ns := num_src b) in *. set (na := num_act b) in *.
  set (nr := length (filter _ _)) in *. set (nd := num_det b) in *.
  rewrite ML. rewrite <- Nat.add_assoc, !seq_app, !map_app, <- app_assoc.
  edestruct (@action_net _ z0 (cs t) (map (node_field x) (seq 0 ns)) (map (node_field x) (seq (0 + ns) na))) as [_ EA]; auto.
  - rewrite map_length, seq_length, (sp_src (SP t)). reflexivity.
  - rewrite map_length, seq_length, (sp_act (SP t)). reflexivity.
  - eexists. apply EA.
Qed.

Section Run.
Variables (m : init K) (source : nat -> field K).
Hypothesis EI : initialize = Ok (Some m).
Notation nsrc := (node_source k0 (num_src b) source).
Notation out := (out k0 kadd kmul ksub act b m nsrc None (i_depth m)).
Notation hist := (hist k0 kadd kmul ksub act b m nsrc None (i_depth m)).
Notation scattered := (scattered k0 kadd kmul ksub b act e m source None).
Notation emitted := (emitted k0 kadd kmul ksub b act e m source None).

Lemma act_step t x : exists z, action z0 (net t) (map (node_field x) (seq 0 (length mc))) [] = Ok z /\
  act None t x = (None, of_nodes k0 z).
Proof.
  destruct (action_ok t x) as (z & E). exists z. split; [exact E|].
  unfold net_act. rewrite E. reflexivity.
Qed.

Lemma state_none t : fst (hist t) = None.
Proof.
  induction t as [|t IH]; [reflexivity|]. rewrite hist_S. cbn [fst].
  unfold step. rewrite IH. destruct (num_act b =? 0); [reflexivity|].
  match goal with |- context [act None t ?x] => destruct (act_step t x) as (z & _ & ->) end. reflexivity.
Qed.

Lemma emitted_list t z : action z0 (net t) (map (node_field (scattered t)) (seq 0 (length mc))) [] = Ok z ->
  forall w k c, k < length mc -> at_ (emitted t) w k c = nth k z z0 w c.
Proof.
  intros E w k c L. unfold SimProofs.emitted. rewrite state_none.
  destruct (Nat.eqb_spec (num_act b) 0) as [NA|NA].
  - assert (EX : z = map (node_field (scattered t)) (seq 0 (length mc))).
    { cbv beta in E. rewrite action_nested in E. rewrite aloop_none in E; [congruence|].
      pose proof (sp_act (SP t)) as HA. rewrite NA in HA. clear - HA. unfold n_act in HA. cbn in HA.
      induction (cs t) as [|c r IH]; [reflexivity|]. cbn in *. rewrite filter_app, app_length in HA.
      rewrite IH by lia. unfold a_any. rewrite orb_false_r. clear IH.
      induction (a_ports c) as [|[s a] p IH]; [reflexivity|]. cbn in *. destruct a; cbn in *; [lia|auto]. }
    rewrite EX, nth_indep with (d' := node_field (scattered t) 0) by (rewrite map_length, seq_length; auto).
    rewrite map_nth, seq_nth by auto. reflexivity.
  - destruct (act_step t (scattered t)) as (z' & E' & ->). rewrite E in E'. injection E' as <-.
    unfold at_, of_nodes. cbn [fst snd]. symmetry. apply surjective_pairing.
Qed.

Definition full_spec (w : nat) (FG : ((nat -> cx) -> nat -> cx) * ((nat -> cx) -> nat -> cx)) : Prop := forall y,
  (forall k, k < length mc -> snd FG y (nth k mc 0) = y k) /\
  (forall k, k < length mc -> fst FG y (nth k mc 0) =
     csum (fun j => cmul (fst (i_C m w) k j, snd (i_C m w) k j) (y j)) (seq 0 (length mc))) /\
  (forall i, i < b_np b -> fst FG y i = csum (fun j => if b_C b i j then snd FG y j else c0) (seq 0 (b_np b))) /\
  (forall i, In i (ml_nodes e b) -> snd FG y i = csum (fun j => cmul (b_S b i j w) (fst FG y j)) (ml_nodes e b)).

Lemma run_active_nodes : (forall w, w < e_num_wl e -> unmixed k0 e b w) ->
  exists y a o, (forall T, waves_active k0 kadd kmul ksub e b net T
      (fun t i w c => injected k0 b source w c t i) y a o) /\
  (forall t k w c, k < length mc -> w < e_num_wl e -> at_ (out t) w k c = a t (nth k mc 0) w c) /\
  (forall t k, k < length mc -> y t (nth k mc 0) = node_field (scattered t) k) /\
  (forall t k w c, k < length mc -> o t (nth k mc 0) w c = at_ (emitted t) w k c).
Proof.
  intros UM. destruct (initialize_inv EI) as (_ & _ & _ & _ & HC & _).
  assert (CH : exists FG, forall w, w < e_num_wl e -> full_spec w (FG w)).
  { apply (@finite_choice _ (fun _ _ => c0, fun _ _ => c0)). intros w Lw.
    destruct (full KR SS (all_perm e Sep) (HC w Lw)) as (F & G & H). exists (F, G). exact H. }
  destruct CH as [FG HFG].
  set (a := fun t i w c => fst (FG w) (fun k => at_ (emitted t) w k c) i).
  set (g := fun t i w c => snd (FG w) (fun k => at_ (emitted t) w k c) i).
  set (zl := fun t => match action z0 (net t) (map (node_field (scattered t)) (seq 0 (length mc))) [] with Ok z => z | Err _ => [] end).
  set (o := fun t i => if memb i mc then nth (index i mc) (zl t) z0 else g t i).
  set (y := fun t i => if memb i mc then node_field (scattered t) (index i mc) else g t i).
  assert (NDm : NoDup mc).
  { eapply Permutation_NoDup; [apply Permutation_sym, (mc_perm e Sep)|]. apply NoDup_filter, seq_NoDup. }
  assert (MM : forall k, k < length mc -> memb (nth k mc 0) mc = true) by (intros; apply memb_In, nth_In; auto).
  assert (ML : forall i, lag e b i = 0 -> memb i mc = false).
  { intros i L. destruct (memb i mc) eqn:M; auto. apply memb_In, in_mc in M; auto. tauto. }
  assert (ZE : forall t w k c, k < length mc -> at_ (emitted t) w k c = nth k (zl t) z0 w c).
  { intros t w k c L. destruct (action_ok t (scattered t)) as (z & E). unfold zl. rewrite E. apply emitted_list; auto. }
  assert (OG : forall t i w c, w < e_num_wl e -> o t i w c = g t i w c).
  { intros t i w c Lw. unfold o. destruct (memb i mc) eqn:M; auto. apply memb_In in M. destruct (nth_index M) as [L E].
    unfold g. rewrite <- E at 2. destruct (HFG w Lw (fun k => at_ (emitted t) w k c)) as (H1 & _).
    rewrite H1, ZE by auto. reflexivity. }
  assert (HO : forall t k w c, k < length mc -> w < e_num_wl e -> at_ (out t) w k c = a t (nth k mc 0) w c).
  { intros t k w c L Lw. unfold a. destruct (HFG w Lw (fun k => at_ (emitted t) w k c)) as (_ & H2 & _).
    rewrite H2, (out_at KR act source None EI) by auto. reflexivity. }
  exists y, a, o. split; [|split; [exact HO|split]].
  2:{ intros t k L. unfold y. rewrite MM, index_nth by auto. reflexivity. }
  2:{ intros t k w c L. unfold o. rewrite MM, index_nth, ZE by auto. reflexivity. }
  intros T t _. split.
  - destruct (action_ok t (scattered t)) as (z & E).
    assert (ZL : zl t = z) by (unfold zl; rewrite E; reflexivity).
    pose proof (mc_eq e b) as ME.
    set (sl := filter (b_src b) (seq 0 (b_np b))) in *. set (al := filter (b_act b) (seq 0 (b_np b))) in *.
    set (rl := filter (other e b) _ ++ _) in *.
    assert (YM : forall k, k < length mc -> y t (nth k mc 0) = node_field (scattered t) k).
    { intros k L. unfold y. rewrite MM, index_nth by auto. reflexivity. }
    assert (OM0 : forall k, k < length mc -> o t (nth k mc 0) = nth k z z0).
    { intros k L. unfold o. rewrite MM, index_nth, ZL by auto. reflexivity. }
    rewrite <- (@map_nth_seq _ _ 0 (node_field (scattered t)) mc (y t) YM) in E.
    rewrite ME, !map_app in E.
    destruct (@action_net _ z0 (cs t) (map (y t) sl) (map (y t) al) (map (y t) rl) [] (AL t)) as [LE EA].
    { rewrite map_length, (sp_src (SP t)). reflexivity. }
    { rewrite map_length, (sp_act (SP t)). reflexivity. }
    rewrite EA in E.
    assert (EZ : map (y t) sl ++ expect z0 (Nested (cs t)) (map (y t) al) ++ map (y t) rl = z) by congruence.
    assert (LZ : length z = length mc).
    { rewrite <- EZ, ME, !app_length, !map_length. rewrite LE, (sp_act (SP t)). reflexivity. }
    assert (OM : map (o t) mc = z).
    { rewrite (@map_nth_seq _ _ 0 (fun k => nth k z z0)) by auto. rewrite <- LZ. clear.
      induction z as [|v z IH]; [reflexivity|]. cbn. f_equal. rewrite <- seq_shift, map_map. exact IH. }
    rewrite ME, !map_app, <- EZ in OM.
    apply app_inj in OM as [OS OM]; [|rewrite !map_length; reflexivity].
    apply app_inj in OM as [OA OR]; [|rewrite LE, !map_length, (sp_act (SP t)); reflexivity].
    apply all_back; auto.
    + intros i Hi Ni. rewrite (sp_np (SP t)) in Hi. rewrite (sp_ports (SP t)) in Ni. fold al in Ni.
      destruct (Nat.eq_dec (lag e b i) 0) as [L0|L0].
      { unfold y, o. rewrite (ML i L0). reflexivity. }
      assert (Im : In i mc) by (apply in_mc; auto; lia).
      rewrite ME, !in_app_iff in Im.
      assert (X : forall l, In i l -> map (o t) l = map (y t) l -> o t i = y t i).
      { intros l I. induction l as [|j l IH]; [destruct I|]. cbn. intros E1. injection E1 as E1 E1'.
        destruct I as [->|I]; auto. }
      destruct Im as [Im|[Im|Im]]; [|contradiction|]; eauto.
    + intros _. rewrite (sp_ports (SP t)). exact OA.
  - intros i Li w c Lw. destruct (HFG w Lw (fun k => at_ (emitted t) w k c)) as (H1 & H2 & H3 & H4).
    split.
    { transitivity (csum (fun j => if b_C b i j then g t j w c else c0) (seq 0 (b_np b))); [apply H3; auto|].
      apply lsum_ext. intros j _. rewrite OG; auto. }
    rewrite <- (lsum_perm CR _ (all_perm e Sep)), (lsum_app CR).
    assert (Ii : In i (mc ++ ml_nodes e b)) by (rewrite (all_perm e Sep); apply in_seq; lia).
    apply in_app_iff in Ii as [Ii|Ii].
    + destruct (nth_index Ii) as [Lk Ek]. set (k := index i mc) in *. clearbody k. subst i.
      unfold y. rewrite MM, index_nth by auto.
      change (node_field (scattered t) k w c) with (at_ (scattered t) w k c).
      rewrite (scattered_at KR act source None EI Sep) by auto. f_equal.
      rewrite (lsum_0 CR _ (ml_nodes e b)).
      * rewrite <- (lsum_nth _ _ 0 _ mc).
        match goal with |- ?A = cadd ?B _ => transitivity B; [|ring] end.
        apply lsum_ext. intros j Ij. apply in_seq in Ij. f_equal. unfold past, before.
        destruct (t <? _); auto. apply HO; auto; lia.
      * intros j Ij. rewrite UM; auto; [ring| |].
        -- apply in_ml in Ij. lia.
        -- apply in_ml in Ij. apply in_mc in Ii; auto. destruct Ii as [_ Ii]. apply Nat.eqb_neq in Ii. rewrite Ii.
           destruct Ij as [_ ->]. discriminate.
    + pose proof Ii as Im. apply in_ml in Ii as [_ Ii]. unfold y. rewrite (ML i Ii).
      unfold g. rewrite H4 by auto.
      assert (NS : injected k0 b source w c t i = c0).
      { unfold injected. unfold lag in Ii. destruct (b_src b i); auto. cbn [orb] in Ii. lia. }
      rewrite NS. rewrite (lsum_0 CR _ mc).
      * match goal with |- ?A = cadd _ (cadd _ ?B) => transitivity B; [|ring] end.
        apply lsum_ext. intros j Ij. f_equal. apply in_ml in Ij as [_ ->]. unfold before.
        cbn. rewrite Nat.sub_0_r. reflexivity.
      * intros j Ij. apply in_mc in Ij as [Lj Ij]; auto. rewrite UM; auto; [ring|].
        rewrite Ii. apply Nat.eqb_neq in Ij. rewrite Ij. discriminate.
Qed.

Lemma run_active : (forall w, w < e_num_wl e -> unmixed k0 e b w) ->
  exists y a o, (forall T, waves_active k0 kadd kmul ksub e b net T
      (fun t i w c => injected k0 b source w c t i) y a o) /\
  forall t k w c, k < length mc -> w < e_num_wl e -> at_ (out t) w k c = a t (nth k mc 0) w c.
Proof. intros UM. destruct (run_active_nodes UM) as (y & a & o & H1 & H2 & _). exists y, a, o. auto. Qed.
End Run.

Theorem active_sound source outs :
  (forall w, w < e_num_wl e -> unmixed k0 e b w) ->
  forward k0 k1 kadd kmul ksub kopp solve act e b None source = Ok outs ->
  exists y a o, waves_active k0 kadd kmul ksub e b net (e_num_t e) (fun t i w c => injected k0 b source w c t i) y a o /\
  forall w c, w < e_num_wl e -> reads k0 b outs w c (e_num_t e) (fun t i => a t i w c).
Proof.
  intros UM HF. destruct (forward_inv HF) as (m & EI & _ & _ & EO).
  destruct (run_active source EI UM) as (y & a & o & HW & HO).
  exists y, a, o. split; [apply HW|]. intros w c Lw. split.
  - rewrite EO, map_length, seq_length. reflexivity.
  - intros t p Lt Lp Dp. destruct (det_read EI Sep EO w c Lt Lp Dp) as (k & Lk & <- & ->). auto.
Qed.
End Sound.
