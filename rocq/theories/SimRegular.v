(** When the simulation succeeds; uniqueness; steady state. *)
From Coq Require Import QArith Ring Permutation.
From Verif Require Import Base NetModel SimModel SimAlg SimSpec SimNodes SimProofs SimDelay.
Set Implicit Arguments.
Unset Strict Implicit.
Local Open Scope nat_scope.

Section Regular.
Variables (K : Type) (k0 k1 : K) (kadd kmul ksub : K -> K -> K) (kopp : K -> K).
Hypothesis KR : ring_theory k0 k1 kadd kmul ksub kopp (@eq K).
Add Ring Kring : KR.
Notation cx := (prod K K).
Notation c0 := (c0 k0).
Notation c1 := (c1 k0 k1).
Notation cadd := (cadd kadd).
Notation cmul := (cmul kadd kmul ksub).
Notation csub := (csub ksub).
Notation copp := (copp kopp).
Notation csum := (lsum c0 cadd).
Notation sum := (lsum k0 kadd).
Let CR : ring_theory c0 c1 cadd cmul csub copp (@eq cx) := cx_ring KR.
Add Ring Cring : CR.
Notation cC := (cC k0 k1).

Section Net.
Variables (e : env) (b : net K) (w : nat).
Notation ml := (ml_nodes e b).
Notation n := (length ml).
Notation rSml := (sub (fun i j => fst (b_S b i j w)) ml ml).
Notation iSml := (sub (fun i j => snd (b_S b i j w)) ml ml).
Notation Cmlml := (sub (C01 k0 k1 b) ml ml).
Let rP := fun i j => ksub (if i =? j then k1 else k0) (mm k0 kadd kmul n Cmlml rSml i j).
Let iP := fun i j => kopp (mm k0 kadd kmul n Cmlml iSml i j).

Lemma P_entry i k : (rP i k, iP i k) = csub (if i =? k then c1 else c0)
  (csum (fun q => cmul (cC b (nth i ml 0) (nth q ml 0)) (b_S b (nth q ml 0) (nth k ml 0) w)) (seq 0 n)).
Proof.
  rewrite (@lsum_ext _ c0 cadd _ _
        (fun q => cmul (C01 k0 k1 b (nth i ml 0) (nth q ml 0), k0)
           (fst (b_S b (nth q ml 0) (nth k ml 0) w), snd (b_S b (nth q ml 0) (nth k ml 0) w)))).
  2:{ intros q _. rewrite cC_pair. f_equal. apply surjective_pairing. }
  rewrite (csum_mul' KR). unfold rP, iP, mm, sub.
  rewrite (@lsum_0 _ _ _ _ _ _ _ KR _ (fun k3 => kmul k0 (snd _))) by (intros; ring).
  rewrite (@lsum_0 _ _ _ _ _ _ _ KR _ (fun k3 => kmul k0 (fst _))) by (intros; ring).
  destruct (i =? k); cbv [SimAlg.csub SimAlg.c0 SimAlg.c1]; cbn [fst snd]; f_equal; ring.
Qed.

(** Row [i] of P applied to the fields at the memory-less ports. *)
Lemma P_row (x : nat -> cx) i : i < n ->
  csum (fun k => cmul (rP i k, iP i k) (x (nth k ml 0))) (seq 0 n) =
  csub (x (nth i ml 0))
    (csum (fun q => cmul (cC b (nth i ml 0) q) (csum (fun k => cmul (b_S b q k w) (x k)) ml)) ml).
Proof.
  intros Li.
  rewrite (@lsum_ext _ c0 cadd _ _ (fun k => csub (if k =? i then x (nth k ml 0) else c0)
     (cmul (csum (fun q => cmul (cC b (nth i ml 0) (nth q ml 0)) (b_S b (nth q ml 0) (nth k ml 0) w)) (seq 0 n)) (x (nth k ml 0))))).
  2:{ intros k _. rewrite P_entry, (Nat.eqb_sym i k). destruct (k =? i); ring. }
  rewrite (lsum_sub CR), (lsum_one CR). replace (i <? n) with true by (symmetry; now apply Nat.ltb_lt).
  f_equal. rewrite (sum_assoc KR). rewrite <- (lsum_nth c0 cadd 0 _ ml). apply lsum_ext. intros q _. f_equal.
  rewrite <- (lsum_nth c0 cadd 0 _ ml). reflexivity.
Qed.

Hypothesis Sep : separate b.
Hypothesis UM : unmixed k0 e b w.

(** The right-hand side of [no_resonance] restricted to memory-less ports. *)
Lemma res_sum (x : nat -> cx) i : 
  csum (fun j => if b_C b i j then csum (fun k => if lag e b k =? 0 then cmul (b_S b j k w) (x k) else c0)
                                    (seq 0 (b_np b)) else c0) (seq 0 (b_np b)) =
  csum (fun q => cmul (cC b i q) (csum (fun k => cmul (b_S b q k w) (x k)) ml)) ml.
Proof.
  rewrite (C_sum KR).
  assert (E : forall f : nat -> cx, csum (fun k => if lag e b k =? 0 then f k else c0) (seq 0 (b_np b)) = csum f ml).
  { intros f. unfold ml_nodes. rewrite (lsum_filter CR). apply lsum_ext. intros k _. rewrite mc_lag, negb_involutive. reflexivity. }
  rewrite (lsum_split CR (is_mc e b)).
  rewrite (lsum_0 CR _ (filter (is_mc e b) (seq 0 (b_np b)))).
  - fold ml. transitivity (csum (fun j => cmul (cC b i j) (csum (fun k => if lag e b k =? 0 then cmul (b_S b j k w) (x k) else c0) (seq 0 (b_np b)))) ml).
    { unfold ml_nodes. ring. }
    apply lsum_ext. intros j _. f_equal. apply E.
  - intros j Ij. apply filter_In in Ij as [Ij Mj]. apply in_seq in Ij.
    rewrite (lsum_0 CR); [ring|]. intros k Ik. apply in_seq in Ik.
    destruct (lag e b k =? 0) eqn:Ek; auto. rewrite UM; try lia; [ring|].
    rewrite mc_lag in Mj. rewrite Ek. destruct (lag e b j =? 0); [discriminate|congruence].
Qed.

Variable solve : nat -> nat -> mat K -> mat K -> option (mat K).

(** A regular solver only succeeds without resonance. *)
Lemma regular_no_resonance R : solver_regular k0 kadd kmul solve ->
  reduced_C k0 k1 kadd kmul ksub kopp solve b (mc_nodes e b) ml w = Ok R ->
  no_resonance k0 kadd kmul ksub e b w.
Proof.
  intros SR HR x Hx i Li Zi. assert (Ii : In i ml) by (apply in_ml; auto).
  destruct (nth_index Ii) as [Lk Ek]. unfold reduced_C in HR.
  destruct (Nat.eqb_spec n 0) as [N0|N0]; [lia|].
  destruct (solve _ _ _ _) as [X|] eqn:ES; cbn in HR; [|discriminate]. clear HR.
  pose (u := fun k => if k <? n then fst (x (nth k ml 0)) else snd (x (nth (k - n) ml 0))).
  assert (Eu : forall k, k < n -> (u k, u (n + k)) = x (nth k ml 0)).
  { intros k L. unfold u. replace (k <? n) with true by (symmetry; now apply Nat.ltb_lt).
    replace (n + k <? n) with false by (symmetry; apply Nat.ltb_ge; lia). replace (n + k - n) with k by lia.
    symmetry. apply surjective_pairing. }
  assert (Hrow : forall r, r < n ->
    sum (fun k => kmul (block_P kopp n rP iP r k) (u k)) (seq 0 (2 * n)) = k0 /\
    sum (fun k => kmul (block_P kopp n rP iP (n + r) k) (u k)) (seq 0 (2 * n)) = k0).
  { intros r Lr.
    enough (E : csum (fun k => cmul (rP r k, iP r k) (u k, u (n + k))) (seq 0 n) = c0).
    { rewrite <- (block_row KR rP iP u Lr) in E. split; [exact (f_equal fst E)|exact (f_equal snd E)]. }
    rewrite (@lsum_ext _ c0 cadd _ _ (fun k => cmul (rP r k, iP r k) (x (nth k ml 0)))).
    2:{ intros k Ik. apply in_seq in Ik. rewrite Eu by lia. reflexivity. }
    rewrite P_row by auto. assert (Ir : In (nth r ml 0) ml) by (apply nth_In; auto).
    apply in_ml in Ir as [Lr' Zr]. rewrite <- res_sum, <- Hx by auto. ring. }
  assert (Z : forall k, k < 2 * n -> u k = k0).
  { apply (SR _ _ _ _ _ ES u). intros k Lk'.
    destruct (Nat.lt_ge_cases k n) as [L|L].
    - apply Hrow; auto.
    - replace k with (n + (k - n)) by lia. apply Hrow. lia. }
  rewrite <- Ek, <- Eu by auto. rewrite !Z by lia. reflexivity.
Qed.

(** A complete solver succeeds without resonance. *)
Lemma complete_reduced : solver_complete k0 kadd kmul solve -> no_resonance k0 kadd kmul ksub e b w ->
  exists R, reduced_C k0 k1 kadd kmul ksub kopp solve b (mc_nodes e b) ml w = Ok R.
Proof.
  intros SC NR. unfold reduced_C. destruct (Nat.eqb_spec n 0) as [N0|N0]; [eexists; reflexivity|].
  assert (ND : NoDup ml) by (apply NoDup_filter, seq_NoDup).
  destruct (SC (2 * n) (length (mc_nodes e b)) (block_P kopp n rP iP) (pad_rows k0 n (sub (C01 k0 k1 b) ml (mc_nodes e b)))) as (X & ES).
  - intros u Hu.
    assert (Z : forall i, i < b_np b -> lag e b i = 0 -> (u (index i ml), u (n + index i ml)) = c0).
    { apply NR. intros i Li Zi. rewrite res_sum. assert (Ii : In i ml) by (apply in_ml; auto).
      destruct (nth_index Ii) as [Lk Ek]. set (r := index i ml) in *.
      assert (E0 : csum (fun k => cmul (rP r k, iP r k) (u k, u (n + k))) (seq 0 n) = c0).
      { rewrite <- (block_row KR rP iP u Lk). rewrite !Hu by lia. reflexivity. }
      rewrite (@lsum_ext _ c0 cadd _ _ (fun k => cmul (rP r k, iP r k) ((fun p => (u (index p ml), u (n + index p ml))) (nth k ml 0)))) in E0.
      2:{ intros k Ik. apply in_seq in Ik. cbv beta. rewrite (index_nth ND) by lia. reflexivity. }
      rewrite (P_row (fun p => (u (index p ml), u (n + index p ml))) Lk) in E0. rewrite Ek in E0.
      change (u r, u (n + r)) with ((fun p => (u (index p ml), u (n + index p ml))) i).
      match type of E0 with csub ?l ?r = _ => transitivity (cadd (csub l r) r); [ring|rewrite E0; ring] end. }
    intros k Lk. destruct (Nat.lt_ge_cases k n) as [L|L].
    + assert (I : In (nth k ml 0) ml) by (apply nth_In; auto). apply in_ml in I as [I1 I2].
      specialize (Z _ I1 I2). rewrite (index_nth ND L) in Z. exact (f_equal fst Z).
    + assert (I : In (nth (k - n) ml 0) ml) by (apply nth_In; lia). apply in_ml in I as [I1 I2].
      specialize (Z _ I1 I2). rewrite (index_nth ND (k := k - n)) in Z by lia.
      replace (n + (k - n)) with k in Z by lia. exact (f_equal snd Z).
  - unfold rP, iP in ES. rewrite ES. eexists. reflexivity.
Qed.

End Net.

Section Ok.
Variable solve : nat -> nat -> mat K -> mat K -> option (mat K).
Variables (A : Type) (act : A -> nat -> field K -> A * field K).
Notation forward := (forward k0 k1 kadd kmul ksub kopp solve act).

Theorem forward_regular e b s0 source outs w : solver_regular k0 kadd kmul solve -> w < e_num_wl e ->
  unmixed k0 e b w -> forward e b s0 source = Ok outs -> no_resonance k0 kadd kmul ksub e b w.
Proof.
  intros SR Lw UM HF. destruct (forward_inv HF) as (m & EI & _).
  destruct (initialize_inv EI) as (_ & _ & _ & _ & HC & _).
  eapply regular_no_resonance; eauto.
Qed.

(** Success. *)
Theorem forward_succeeds e b s0 source : solver_complete k0 kadd kmul solve ->
  timed e -> separate b -> terminated b = true ->
  num_det b <> 0 ->
  (forall w, w < e_num_wl e -> unmixed k0 e b w /\ no_resonance k0 kadd kmul ksub e b w) ->
  exists outs, forward e b s0 source = Ok outs /\ length outs = e_num_t e.
Proof.
  intros SC HT Sep TM ND HW.
  assert (HC : exists Cs, mapM (reduced_C k0 k1 kadd kmul ksub kopp solve b (mc_nodes e b) (ml_nodes e b)) (seq 0 (e_num_wl e)) = Ok Cs).
  { assert (H : forall w, In w (seq 0 (e_num_wl e)) -> exists R, reduced_C k0 k1 kadd kmul ksub kopp solve b (mc_nodes e b) (ml_nodes e b) w = Ok R).
    { intros w Iw. apply in_seq in Iw. destruct (HW w) as [UM NR]; [lia|]. apply complete_reduced; auto. }
    revert H. generalize (seq 0 (e_num_wl e)) as l. induction l as [|w l IH]; intros H; [eexists; reflexivity|].
    destruct (H w (or_introl eq_refl)) as (R & HR). destruct IH as (Cs & HCs); [intros; apply H; now right|].
    exists (R :: Cs). cbn [mapM]. rewrite HR. cbn [bind]. rewrite HCs. reflexivity. }
  destruct HC as (Cs & HC).
  assert (Hmc : length (mc_sorted e b) <> 0).
  { rewrite <- (mc_length e Sep), mc_len_sum. lia. }
  assert (EI : exists m, initialize k0 k1 kadd kmul ksub kopp solve e b = Ok (Some m)).
  { unfold initialize. rewrite TM. cbn [negb orb]. apply Nat.eqb_neq in Hmc. rewrite Hmc, HC. eexists. reflexivity. }
  destruct EI as (m & EI). unfold SimModel.forward. rewrite EI. cbn [bind].
  rewrite (depth_eq HT Sep EI). cbn [bind]. rewrite Nat.eqb_refl. cbn [negb].
  apply Nat.eqb_neq in ND. rewrite ND. cbn [andb]. eexists. split; [reflexivity|].
  rewrite map_length, run_all, map_length, seq_length; auto.
  destruct (initialize_inv EI) as (_ & _ & _ & _ & _ & _ & ->). lia.
Qed.

(** Without detectors, or without a time step in the time domain, there is no result. *)
Theorem forward_no_detectors e b s0 source : num_det b = 0 -> e_num_t e <> 0 -> separate b ->
  length (mc_nodes e b) <> 1 -> exists x, forward e b s0 source = Err x.
Proof.
  intros ND NT Sep N1. destruct (forward e b s0 source) as [outs|x] eqn:HF; [|eauto].
  destruct (forward_inv HF) as (m & EI & _ & H & _). destruct (initialize_inv EI) as (_ & _ & -> & _) in H.
  destruct (H ND); contradiction.
Qed.

Theorem forward_no_dt e b s0 source : e_freq e = false -> e_dt e = None ->
  exists x, forward e b s0 source = Err x.
Proof.
  intros Ef Ed. destruct (forward e b s0 source) as [outs|x] eqn:HF; [|eauto].
  destruct (forward_inv HF) as (m & EI & HB & _). unfold buffer_depth in HB. rewrite Ef, Ed in HB. discriminate.
Qed.

Theorem forward_unterminated e b s0 source : terminated b = false -> forward e b s0 source = Err AttributeError.
Proof. intros H. unfold SimModel.forward, initialize. rewrite H. reflexivity. Qed.
End Ok.

(** *** Steady state *)
(** The frequency-domain version of an environment. *)
Definition freq_env (e : env) : env :=
  {| e_freq := true; e_dt := None; e_num_t := 1; e_num_wl := e_num_wl e |}.

(** Sources and detectors reflect nothing. *)
Definition absorbing (b : net K) (w : nat) : Prop := forall i j, i < b_np b -> j < b_np b ->
  b_src b j = true \/ b_det b j = true -> b_S b i j w = c0.

Theorem steady e b w T src src' a o a' o' t :
  num_act b = 0 -> absorbing b w -> no_resonance k0 kadd kmul ksub (freq_env e) b w ->
  waves k0 kadd kmul ksub e b w T src a o -> t < T ->
  (forall j, j < b_np b -> lag e b j <= t /\ a (t - lag e b j) j = a t j) ->
  (forall i, i < b_np b -> src' 0 i = src t i) ->
  waves k0 kadd kmul ksub (freq_env e) b w 1 src' a' o' ->
  forall i, i < b_np b -> a' 0 i = a t i.
Proof.
  intros NA AB NR HW Lt Hst Hsrc HW' i Li.
  assert (HA : forall j, j < b_np b -> b_act b j = false).
  { intros j Lj. destruct (b_act b j) eqn:E; auto. unfold num_act in NA.
    assert (I : In j (filter (b_act b) (seq 0 (b_np b)))) by (apply filter_In; split; [apply in_seq; lia|auto]).
    destruct (filter (b_act b) _); [destruct I|discriminate]. }
  assert (HW1 : waves k0 kadd kmul ksub (freq_env e) b w 1 src' (fun _ => a t) (fun _ => o t)).
  { intros s j Ls Lj. destruct (HW t j Lt Lj) as [H1 H2]. split; [exact H1|].
    rewrite H2. replace s with 0 by lia. rewrite Hsrc by auto. f_equal. apply lsum_ext. intros q Iq. apply in_seq in Iq.
    destruct (Hst q ltac:(lia)) as [L1 L2]. unfold past at 1.
    replace (t <? lag e b q) with false by (symmetry; apply Nat.ltb_ge; lia). rewrite L2.
    destruct (b_src b q || b_det b q) eqn:Sp.
    - apply orb_true_iff in Sp. rewrite AB by (auto; lia). ring.
    - unfold past, lag. rewrite Sp, HA by lia. cbn [orb]. rewrite steps_single by reflexivity. reflexivity. }
  destruct (waves_unique KR NR HW' HW1 (t := 0) (i := i)) as [E _]; auto.
Qed.

Section Res.
Variable solve : nat -> nat -> mat K -> mat K -> option (mat K).
Variables (A : Type) (act : A -> nat -> field K -> A * field K).
Notation forward := (forward k0 k1 kadd kmul ksub kopp solve act).
Hypothesis SS : solver_sound k0 kadd kmul solve.
Hypothesis SR : solver_regular k0 kadd kmul solve.

Theorem forward_unique e b s0 source outs w c :
  separate b -> num_act b = 0 -> w < e_num_wl e -> unmixed k0 e b w ->
  forward e b s0 source = Ok outs ->
  forall a o, waves k0 kadd kmul ksub e b w (e_num_t e) (injected k0 b source w c) a o -> reads k0 b outs w c (e_num_t e) a.
Proof.
  intros Sep NA Lw U H a o W. destruct (forward_sound KR SS c Sep NA Lw U H) as (a' & o' & W' & L & R).
  split; [exact L|]. intros t p Lt Lp Dp. rewrite R by auto.
  apply (waves_unique KR (forward_regular SR Lw U H) W' W); auto.
Qed.

Theorem forward_steady e b s1 source source' outs outs' w c t a o :
  separate b -> num_act b = 0 -> w < e_num_wl e ->
  unmixed k0 (freq_env e) b w -> absorbing b w ->
  waves k0 kadd kmul ksub e b w (e_num_t e) (injected k0 b source w c) a o -> reads k0 b outs w c (e_num_t e) a ->
  t < e_num_t e ->
  (forall j, j < b_np b -> lag e b j <= t /\ a (t - lag e b j) j = a t j) ->
  (forall k, k < num_src b -> at_ (source' 0) w k c = at_ (source t) w k c) ->
  forward (freq_env e) b s1 source' = Ok outs' ->
  forall k, k < num_det b -> at_ (nth 0 outs' (zero_field k0)) w k c = at_ (nth t outs (zero_field k0)) w k c.
Proof.
  intros Sep NA Lw U AB W R Lt St Hs HF k Lk.
  destruct (@forward_sound _ _ _ _ _ _ _ KR _ SS b _ act (freq_env e) s1 source' outs' w c Sep NA Lw U HF) as (a' & o' & W' & R').
  destruct (nth_rank 0 Lk) as (p & Lp & Dp & <- & _).
  destruct R as [_ R]. destruct R' as [_ R'].
  rewrite R by auto. rewrite R' by (auto; cbn; lia).
  refine (steady NA AB (forward_regular (e := freq_env e) SR Lw U HF) W Lt St _ W' Lp).
  intros i Li. unfold injected. destruct (b_src b i) eqn:F; auto. apply Hs. apply rank_lt; auto.
Qed.
End Res.

End Regular.
